From Verif Require Import Base Decomp_Model Deposit_Model Deposit_Spec Deposit_Proofs Boost_Model Antenna_Model Antenna_Spec Antenna_Proofs Emit_Spec.
From Coq Require Import Reals Lra Lia Psatz.
Open Scope R_scope.

(** ** The sheet *)
Lemma sheet_front eps0 cl v K f : 0 < eps0 -> 0 < cl -> - cl < v < cl -> radiates eps0 cl v K f ->
  E_front f = - K / (2 * eps0 * cl * (1 - v / cl)) /\ E_back f = - K / (2 * eps0 * cl * (1 + v / cl)).
Proof.
  intros E0 C0 V (A & B & J1 & J2). destruct f as [Ef Bf Eb Bb]; cbn in *. subst Ef Eb.
  assert (P : eps0 * (cl * cl) <> 0) by (apply Rmult_integral_contrapositive_currified; [lra|apply Rmult_integral_contrapositive_currified; lra]).
  assert (F : (cl - v) * Bf = - ((cl + v) * Bb)) by lra.
  assert (G : eps0 * ((cl * cl - v * v) * (Bf - Bb)) = - K).
  { rewrite J1 in J2. assert (H : eps0 * cl ^ 2 * (- (Bf - Bb)) = eps0 * cl ^ 2 * (K / (eps0 * cl ^ 2) - v / cl ^ 2 * (v * (Bf - Bb)))) by (rewrite J2; reflexivity).
    replace (eps0 * cl ^ 2 * (K / (eps0 * cl ^ 2) - v / cl ^ 2 * (v * (Bf - Bb)))) with (K - eps0 * (v * v * (Bf - Bb))) in H by (field; lra).
    nra. }
  assert (Q : (cl + v) * (Bf - Bb) = 2 * cl * Bf) by lra.
  assert (Q' : (cl - v) * (Bf - Bb) = - (2 * cl * Bb)) by lra.
  split.
  - assert (K = - (eps0 * ((cl - v) * (2 * cl * Bf)))) as -> by (rewrite <- Q; lra). field. lra.
  - assert (K = eps0 * ((cl + v) * (2 * cl * Bb))) as -> by (replace (2 * cl * Bb) with (- ((cl - v) * (Bf - Bb))) by lra; lra). field. lra.
Qed.

(** ** What the history of an antenna keeps *)
Definition kept (mob : R) (bo : option converter) (ok : vptcl -> Prop) (a : antenna) : Prop :=
  a_mob a = mob /\ a_boost a = bo /\ Forall ok (a_ptcl a).
Definition stable (ok : vptcl -> Prop) : Prop := forall p q, a_bx p = a_bx q -> a_by p = a_by q -> a_w p = a_w q -> a_vz p = a_vz q -> ok p -> ok q.
Lemma kept_op cl E mob bo ok o s s' : stable ok -> kept mob bo ok (s_ant s) -> do_op cl E o s = Ok s' -> kept mob bo ok (s_ant s').
Proof.
  intros S (A & B & D) H. destruct o; cbn [do_op] in H.
  - unfold update_current_rank in H. destruct (a_ptcl (s_ant s)) as [|p l] eqn:P; [discriminate|].
    destruct (get_zmin_zmax _ _ _ _ _) as [[z0 z1]|]; cbn in H; [|discriminate]. injection H as <-.
    split; [exact A|]. split; [exact B|]. cbn. exact D.
  - injection H as <-. split; [exact A|]. split; [exact B|]. cbn. apply Forall_map. revert D. apply Forall_impl. intros p Hp.
    unfold update_vp. destruct (match a_boost (s_ant s) with Some _ => _ | None => _ end) as [zl tl]. destruct (E _ _ zl tl) as [ex ey].
    eapply S; [..|exact Hp]; reflexivity.
  - injection H as <-. split; [exact A|]. split; [exact B|]. cbn. apply Forall_map. revert D. apply Forall_impl. intros p Hp.
    eapply S; [..|exact Hp]; reflexivity.
  - injection H as <-. split; [exact A|]. split; [exact B|]. exact D.
  - injection H as <-. split; [exact A|]. split; [exact B|]. exact D.
Qed.
Lemma kept_ops cl E mob bo ok l : stable ok -> forall s s', kept mob bo ok (s_ant s) -> do_ops cl E l s = Ok s' -> kept mob bo ok (s_ant s').
Proof.
  intros S. induction l as [|o l IH]; intros s s' K H; cbn [do_ops] in H.
  - injection H as <-. exact K.
  - destruct (do_op cl E o s) as [s1|] eqn:E1; cbn [bind] in H; [|discriminate].
    eapply IH; [|exact H]. eapply kept_op; eassumption.
Qed.

Definition point_ok (cl r_e e dr : R) (Nm npr : Z) (ep vz : R) (p : vptcl) : Prop :=
  a_w p = 2 * PI / (IZR (2 * Nm) * IZR npr * ep) * dr / r_e * e * sqrt (a_bx p ^ 2 + a_by p ^ 2) / dr /\ a_vz p = vz /\
  0 < sqrt (a_bx p ^ 2 + a_by p ^ 2).
Lemma point_stable cl r_e e dr Nm npr ep vz : stable (point_ok cl r_e e dr Nm npr ep vz).
Proof. intros p q A B W V. unfold point_ok. rewrite A, B, W, V. auto. Qed.
Lemma init_kept cl r_e e eps0 pd z0 va dr Nr Nm npr ep bo a : 0 < dr -> (1 <= npr)%Z ->
  antenna_init cl r_e e eps0 pd z0 va dr Nr Nm npr ep bo = Ok a ->
  let alpha := 2 * PI / (IZR (2 * Nm) * IZR npr * ep) * dr / r_e * e in
  let m0 := 2 * PI * dr ^ 2 / (IZR (2 * Nm) * IZR npr * alpha) * eps0 * cl in
  kept (match bo with Some b => m0 / gamma0 b | None => m0 * (1 - pd * va / cl) end) bo
    (point_ok cl r_e e dr Nm npr ep (match bo with Some b => (0 - cl * beta0 b) / (1 - 0 * beta0 b / cl) | None => va end)) a.
Proof.
  intros D N H alpha m0. unfold antenna_init in H. destruct (match bo with Some b => _ | None => _ end); [discriminate|]. apply Ok_inj in H. subst a.
  split; [reflexivity|]. split; [reflexivity|]. cbn [a_ptcl]. apply Forall_forall. intros p Hp.
  apply in_flat_map in Hp as (it & _ & Hp). apply in_map_iff in Hp as (ir & <- & Hr). apply in_range in Hr.
  set (r := dr / IZR npr * (IZR ir + 0.5)).
  assert (Np : 0 < IZR npr) by (apply (IZR_lt 0); lia). assert (0 <= IZR ir) by (apply (IZR_le 0); lia).
  assert (R0 : 0 < r) by (apply Rmult_lt_0_compat; [apply Rdiv_lt_0_compat; lra|lra]).
  assert (SQ : forall th, sqrt ((r * cos th) ^ 2 + (r * sin th) ^ 2) = r).
  { intros th. replace ((r * cos th) ^ 2 + (r * sin th) ^ 2) with (r ^ 2 * (Rsqr (sin th) + Rsqr (cos th))) by (unfold Rsqr; ring).
    rewrite sin2_cos2, Rmult_1_r, sqrt_pow2; lra. }
  unfold point_ok. cbv zeta. cbn [a_bx a_by a_w a_vz]. fold r. rewrite SQ.
  split; [reflexivity|]. split; [|exact R0]. destruct bo as [b|]; cbn [static_length velocity map hd]; [reflexivity|ring].
Qed.

(** Current of one point, per unit area *)
Lemma pair_x cl a k p : cl <> 0 -> a_on a = true -> nth_error (a_ptcl a) k = Some p ->
  current_x cl k (antenna_deposits cl a) = 2 * a_w p * a_vx p /\ current_y cl k (antenna_deposits cl a) = 2 * a_w p * a_vy p.
Proof.
  intros C0 On H. unfold current_x, current_y, antenna_deposits. rewrite On. cbn [rsum fold_right]. unfold virtual_species; cbn [sp_ptcl sp_q].
  rewrite !(map_nth_error _ k (a_ptcl a) H). cbn [p_w p_ux p_uy p_ig]. split; field; exact C0.
Qed.

Section Emit.
Context (cl r_e e eps0 pd z0 va dr : R) (Nr Nm npr : Z) (ep : R) (bo : option converter).
Hypotheses (Cl : 0 < cl) (Re0 : 0 < r_e) (E0 : 0 < e) (Ep : 0 < eps0) (Dr : 0 < dr) (Eps : 0 < ep) (HNm : (1 <= Nm)%Z) (Hnpr : (1 <= npr)%Z).
Let factor := match bo with Some b => / gamma0 b | None => 1 - pd * va / cl end.
Let vz := match bo with Some b => (0 - cl * beta0 b) / (1 - 0 * beta0 b / cl) | None => va end.

Lemma surface_current a w : match bo with Some b => gamma0 b <> 0 | None => True end ->
  kept (let alpha := 2 * PI / (IZR (2 * Nm) * IZR npr * ep) * dr / r_e * e in
        let m0 := 2 * PI * dr ^ 2 / (IZR (2 * Nm) * IZR npr * alpha) * eps0 * cl in
        match bo with Some b => m0 / gamma0 b | None => m0 * (1 - pd * va / cl) end) bo (point_ok cl r_e e dr Nm npr ep vz) a ->
  forall p, In p (a_ptcl a) -> 2 * a_w p * (a_mob a * w) = 2 * eps0 * cl * factor * w * area dr Nm npr p.
Proof.
  intros G (M & _ & F) p Hp. rewrite Forall_forall in F. destruct (F p Hp) as (W & _ & R0). rewrite W, M. unfold area, factor. cbv zeta.
  set (r := sqrt _) in *. pose proof PI_RGT_0. assert (0 < IZR npr) by (apply (IZR_lt 0); lia). assert (0 < IZR (2 * Nm)) by (apply (IZR_lt 0); lia).
  destruct bo as [b|]; field; repeat split; lra.
Qed.
End Emit.

Lemma div_area K A c : A <> 0 -> K * A = c * A -> K = c.
Proof. intros H E. apply Rmult_eq_reg_r with A; assumption. Qed.
Lemma lorentz_factor g : 1 <= g -> let b := sqrt (1 - 1 / g ^ 2) in 0 <= b < 1 /\ g * (1 - b) * (g * (1 + b)) = 1.
Proof.
  intros G b. assert (P : 0 < / g ^ 2 <= 1).
  { split; [apply Rinv_0_lt_compat, pow_lt; lra|]. rewrite <- Rinv_1. apply Rinv_le_contravar; [lra|]. nra. }
  assert (B2 : b * b = 1 - / g ^ 2). { unfold b. rewrite sqrt_sqrt; unfold Rdiv; lra. }
  split.
  - split; [apply sqrt_pos|]. assert (0 <= b) by apply sqrt_pos. nra.
  - replace (g * (1 - b) * (g * (1 + b))) with (g ^ 2 * (1 - b * b)) by ring. rewrite B2. field. lra.
Qed.

Lemma emitted cl r_e e eps0 pd z0 va dr Nr Nm npr ep bo a0 c h E s t dt s' k p Kx Ky fx fy :
  0 < cl -> 0 < r_e -> 0 < e -> 0 < eps0 -> 0 < dr -> 0 < ep -> (1 <= Nm)%Z -> (1 <= npr)%Z ->
  pd = 1 \/ pd = -1 -> - cl < va < cl -> (bo = None \/ exists g, 1 <= g /\ bo = Some (boost_converter g)) ->
  antenna_init cl r_e e eps0 pd z0 va dr Nr Nm npr ep bo = Ok a0 ->
  do_ops cl E h {| s_ant := a0; s_comm := c |} = Ok s -> do_op cl E (OUpdateV t dt) s = Ok s' ->
  a_on (s_ant s') = true -> nth_error (a_ptcl (s_ant s)) k = Some p ->
  radiates eps0 cl (a_vz p) Kx fx -> Kx * area dr Nm npr p = current_x cl k (antenna_deposits cl (s_ant s')) ->
  radiates eps0 cl (a_vz p) Ky fy -> Ky * area dr Nm npr p = current_y cl k (antenna_deposits cl (s_ant s')) ->
  let x := a_bx p + a_vx p * (dt / 2) in let y := a_by p + a_vy p * (dt / 2) in let z := a_bz p + a_vz p * (dt / 2) in
  let '(zlab, tlab, D) := match bo with
    | None => (z, t, 1)
    | Some b => (gamma0 b * (z + cl * beta0 b * t), gamma0 b * (t + beta0 b * z / cl), gamma0 b * (1 - pd * beta0 b)) end in
  towards pd fx = - (D * fst (E x y zlab tlab)) /\ towards pd fy = - (D * snd (E x y zlab tlab)).
Proof.
  intros Cl Re0 E0 Ep Dr Eps HNm Hnpr Pd Va Bo I H U On Hp Rx Jx Ry Jy x y z.
  pose proof (init_kept cl r_e e eps0 pd z0 va dr Nr Nm npr ep bo a0 Dr Hnpr I) as K0. cbv zeta in K0.
  pose proof (kept_ops cl E _ _ _ h (point_stable _ _ _ _ _ _ _ _) {| s_ant := a0; s_comm := c |} s K0 H) as K1.
  cbn [do_op] in U. apply Ok_inj in U. subst s'. cbn [s_ant] in *.
  pose proof (surface_current cl r_e e eps0 pd va dr Nm npr ep bo Cl Re0 E0 Dr Eps HNm Hnpr (s_ant s)) as SC.
  assert (G : match bo with Some b => gamma0 b <> 0 | None => True end) by (destruct Bo as [->|(g & G & ->)]; [exact Logic.I|cbn; lra]).
  assert (Hin : In p (a_ptcl (s_ant s))) by (eapply nth_error_In; exact Hp).
  assert (Np : 0 < IZR npr) by (apply (IZR_lt 0); lia). assert (N2 : 0 < IZR (2 * Nm)) by (apply (IZR_lt 0); lia). pose proof PI_RGT_0 as PI0.
  assert (Pok : point_ok cl r_e e dr Nm npr ep (match bo with Some b => (0 - cl * beta0 b) / (1 - 0 * beta0 b / cl) | None => va end) p).
  { destruct K1 as (_ & _ & F). rewrite Forall_forall in F. exact (F p Hin). }
  destruct Pok as (W & Vz & R0).
  assert (Ar : area dr Nm npr p <> 0).
  { unfold area. apply Rgt_not_eq, Rlt_gt. apply Rmult_lt_0_compat; [apply Rmult_lt_0_compat; [exact R0|]|]; apply Rdiv_lt_0_compat; lra. }
  assert (Hp' : nth_error (a_ptcl (update_v cl E t dt (s_ant s))) k = Some (update_vp cl (a_mob (s_ant s)) (a_boost (s_ant s)) E t dt p)).
  { unfold update_v; cbn [a_ptcl]. apply map_nth_error. exact Hp. }
  assert (C0 : cl <> 0) by lra.
  destruct (pair_x cl _ k _ C0 On Hp') as [Px Py]. rewrite Px in Jx. rewrite Py in Jy. clear Px Py Hp'.
  assert (Bs : a_boost (s_ant s) = bo) by apply K1. rewrite Bs in Jx, Jy.
  assert (Z2 : forall u : R, u * 0.5 * dt = u * (dt / 2)) by (intros; lra).
  destruct Bo as [Eb|(g & G1 & Eb)]; subst bo; cbn iota beta zeta.
  - unfold update_vp in Jx, Jy. rewrite !Z2 in Jx, Jy. fold x y z in Jx, Jy.
    destruct (E x y z t) as [Ex Ey]. cbn [a_w a_vx a_vy fst snd] in *. rewrite (SC Ex G K1 p Hin) in Jx. rewrite (SC Ey G K1 p Hin) in Jy.
    apply (div_area _ _ _ Ar) in Jx. apply (div_area _ _ _ Ar) in Jy. rewrite Vz in Rx, Ry.
    destruct (sheet_front _ _ _ _ _ Ep Cl Va Rx) as [F1 F2]. destruct (sheet_front _ _ _ _ _ Ep Cl Va Ry) as [F3 F4].
    unfold towards. destruct Pd as [->| ->]; destruct (Rlt_dec 0 _); try lra.
    + rewrite F1, F3, Jx, Jy. split; field; lra.
    + rewrite F2, F4, Jx, Jy. split; field; lra.
  - destruct (lorentz_factor g G1) as [Bb Gb]. cbn [boost_converter gamma0 beta0] in *. set (b := sqrt (1 - 1 / g ^ 2)) in *.
    unfold update_vp in Jx, Jy. change (gamma0 (boost_converter g)) with g in Jx, Jy. change (beta0 (boost_converter g)) with b in Jx, Jy. rewrite !Z2 in Jx, Jy. fold x y z in Jx, Jy.
    replace (1 / cl * b * z) with (b * z / cl) in Jx, Jy by (field; lra).
    destruct (E x y (g * (z + cl * b * t)) (g * (t + b * z / cl))) as [Ex Ey]. cbn [a_w a_vx a_vy fst snd] in *.
    rewrite (SC Ex G K1 p Hin) in Jx. rewrite (SC Ey G K1 p Hin) in Jy.
    apply (div_area _ _ _ Ar) in Jx. apply (div_area _ _ _ Ar) in Jy.
    assert (Vz' : a_vz p = - (cl * b)) by (rewrite Vz; field; lra). rewrite Vz' in Rx, Ry.
    assert (Vb : - cl < - (cl * b) < cl) by (split; nra).
    destruct (sheet_front _ _ _ _ _ Ep Cl Vb Rx) as [F1 F2]. destruct (sheet_front _ _ _ _ _ Ep Cl Vb Ry) as [F3 F4].
    assert (I1 : / (g * (1 + b)) = g * (1 - b)) by (apply Rmult_eq_reg_r with (g * (1 + b)); [rewrite Gb; apply Rinv_l; nra|nra]).
    assert (I2 : / (g * (1 - b)) = g * (1 + b)) by (apply Rmult_eq_reg_r with (g * (1 - b)); [rewrite Rinv_l; nra|nra]).
    unfold towards. destruct Pd as [->| ->]; destruct (Rlt_dec 0 _); try lra.
    + replace (g * (1 - 1 * b)) with (/ (g * (1 + b))) by (rewrite I1; ring). rewrite F1, F3, Jx, Jy. split; field; repeat split; nra.
    + replace (g * (1 - -1 * b)) with (/ (g * (1 - b))) by (rewrite I2; ring). rewrite F2, F4, Jx, Jy. split; field; repeat split; nra.
Qed.
