(** Proofs for C35 (vacuum), C37 (correct_divE) and the resonant mode of C33. *)
From Verif Require Import Base Fourier_Lib Psatd_Model Psatd_Spec Psatd_Proofs.
From Coq Require Import Reals Lra.
From Coquelicot Require Import Coquelicot.
Open Scope C_scope.

Lemma vec_ext a b : vp a = vp b -> vm a = vm b -> vz a = vz b -> a = b.
Proof. destruct a, b; simpl; intros; subst; reflexivity. Qed.
Ltac vec := apply vec_ext; open_mode.

Definition inner (a b : vec) : R :=
  (2 * (Re (vp a) * Re (vp b) + Im (vp a) * Im (vp b)) + 2 * (Re (vm a) * Re (vm b) + Im (vm a) * Im (vm b))
   + (Re (vz a) * Re (vz b) + Im (vz a) * Im (vz b)))%R.
Lemma Cmod2 z : (Cmod z ^ 2 = Re z ^ 2 + Im z ^ 2)%R.
Proof. unfold Cmod. rewrite pow2_sqrt. reflexivity. apply Rplus_le_le_0_compat; apply pow2_ge_0. Qed.
Ltac reals := repeat match goal with v : vec |- _ => destruct v as [[? ?] [? ?] [? ?]] | z : C |- _ => destruct z end;
  unfold curl, div, vadd, vscal, Ci, Cdiv, Cmult, Cminus, Cplus, Copp, RtoC, Re, Im in *; cbn [vp vm vz fst snd] in *.
Lemma norm2_inner a : norm2 a = inner a a.
Proof. unfold norm2. rewrite !Cmod2. unfold inner. reals. ring. Qed.
Lemma norm2_add a b : norm2 (vadd a b) = (norm2 a + norm2 b + 2 * inner a b)%R.
Proof. rewrite !norm2_inner. unfold inner. reals. ring. Qed.
Lemma norm2_scal (l : R) a : norm2 (vscal l a) = (l ^ 2 * norm2 a)%R.
Proof. rewrite !norm2_inner. unfold inner. reals. ring. Qed.
Lemma inner_scal (l m : R) a b : inner (vscal l a) (vscal m b) = (l * m * inner a b)%R.
Proof. unfold inner. reals. ring. Qed.
Lemma RtoC_half kr : RtoC kr / 2 = RtoC (kr / 2).
Proof. rewrite RtoC_div; [reflexivity|lra]. Qed.
Lemma inner_curl kz kr a b : inner a (curl kz kr b) = inner (curl kz kr a) b.
Proof. unfold inner, curl. rewrite RtoC_half. reals. field. Qed.
Lemma norm2_curl kz kr a : div kz kr a = 0 -> norm2 (curl kz kr a) = ((kz ^ 2 + kr ^ 2) * norm2 a)%R.
Proof.
  intros H. rewrite !norm2_inner.
  assert (D : (Re (div kz kr a) ^ 2 + Im (div kz kr a) ^ 2 = 0)%R) by (rewrite H; simpl; ring).
  assert (E : (inner (curl kz kr a) (curl kz kr a) = (kz ^ 2 + kr ^ 2) * inner a a - (Re (div kz kr a) ^ 2 + Im (div kz kr a) ^ 2))%R).
  { unfold inner, curl. rewrite RtoC_half. clear. reals. field. }
  rewrite E, D. ring.
Qed.
Lemma curl_curl kz kr a : div kz kr a = 0 -> curl kz kr (curl kz kr a) = vscal (kz ^ 2 + kr ^ 2)%R a.
Proof.
  intros H.
  assert (E : forall X Y Z, a = {| vp := X; vm := Y; vz := Z |} -> kr * (X - Y) + Ci * kz * Z = 0).
  { intros X Y Z ->. exact H. }
  destruct a as [X Y Z]. specialize (E X Y Z eq_refl). clear H.
  assert (K2 : RtoC (kz ^ 2 + kr ^ 2) = kz * kz + kr * kr) by (rewrite <- !RtoC_mult, <- RtoC_plus; f_equal; ring).
  rewrite <- half2 in K2 || idtac.
  apply vec_ext; unfold curl, vscal; cbn [vp vm vz]; rewrite RtoC_half, K2;
  replace (RtoC (kr / 2)) with (kr * (1 / 2)) by (rewrite RtoC_div by lra; unfold Cdiv; ring);
  pose proof half2 as Hh; set (h := 1 / 2) in *; clearbody h.
  - transitivity ((kz * kz + (h + h) * (kr * kr)) * X - h * kr * (kr * (X - Y) + Ci * kz * Z)); [ring [Ci2]|rewrite E, Hh; ring].
  - transitivity ((kz * kz + (h + h) * (kr * kr)) * Y + h * kr * (kr * (X - Y) + Ci * kz * Z)); [ring [Ci2]|rewrite E, Hh; ring].
  - transitivity ((kz * kz + (h + h) * (kr * kr)) * Z + Ci * kz * (kr * (X - Y) + Ci * kz * Z)); [ring [Ci2]|rewrite E, Hh; ring].
Qed.
Lemma div_curl kz kr a : div kz kr (curl kz kr a) = 0.
Proof. unfold div, curl; cbn [vp vm vz]. ring [Ci2]. Qed.
Lemma div_add kz kr a b : div kz kr (vadd a b) = div kz kr a + div kz kr b.
Proof. unfold div, vadd; cbn [vp vm vz]. ring. Qed.
Lemma div_scal kz kr l a : div kz kr (vscal l a) = l * div kz kr a.
Proof. unfold div, vscal; cbn [vp vm vz]. ring. Qed.
Lemma curl_add kz kr a b : curl kz kr (vadd a b) = vadd (curl kz kr a) (curl kz kr b).
Proof. vec; ring. Qed.
Lemma curl_scal kz kr l a : curl kz kr (vscal l a) = vscal l (curl kz kr a).
Proof. vec; ring. Qed.

Section Const.
Context (c mu_0 epsilon_0 : R) (Hc : (0 < c)%R).
Let std kz kr dt := psatd_coeffs c mu_0 epsilon_0 None false kz kr dt.
Let pushv tr kz kr dt s := push c mu_0 epsilon_0 (std kz kr dt) tr kz kr s.

Lemma push_vac tr kz kr dt s : no_sources s -> transverse kz kr s ->
  let C0 := coef_C c kz kr dt in let S := coef_S_w c kz kr dt in let s' := pushv tr kz kr dt s in
  E_of s' = vadd (vscal C0 (E_of s)) (vscal (c ^ 2 * S)%R (curl kz kr (B_of s))) /\
  B_of s' = vadd (vscal C0 (B_of s)) (vscal (- S)%R (curl kz kr (E_of s))) /\
  no_sources s'.
Proof.
  intros (J1 & J2 & J3 & R1 & R2) [D1 D2]. cbv zeta. unfold pushv, push, push_eb_with. cbn [co_V std psatd_coeffs].
  unfold push_eb_standard, E_of, B_of, no_sources, push_rho, set_B, set_E, set_rho, vadd, vscal, curl.
  cbn -[Cmult Cplus Cminus Copp Ci RtoC Cdiv Cinv std].
  set (rd := if tr then _ else _).
  assert (Z : rd = 0).
  { unfold rd. unfold div, E_of in D1; cbn [vp vm vz] in D1. destruct tr; rewrite ?J1, ?J2, ?J3, ?R1, ?R2, ?D1; ring. }
  rewrite Z, J1, J2, J3. clear rd Z. rewrite half, !RtoC_mult, !RtoC_opp. unfold Cdiv.
  split; [|split; [|repeat split; assumption]]; f_equal; change (co_C (std kz kr dt)) with (RtoC (coef_C c kz kr dt));
    change (co_S_w (std kz kr dt)) with (RtoC (coef_S_w c kz kr dt)); ring.
Qed.
Lemma push_transverse tr kz kr dt s : no_sources s -> transverse kz kr s -> transverse kz kr (pushv tr kz kr dt s).
Proof.
  intros N T. destruct (push_vac tr kz kr dt s N T) as (E1 & E2 & _). cbv zeta in *. destruct T as [T1 T2].
  split; [rewrite E1|rewrite E2]; rewrite div_add, !div_scal, div_curl, ?T1, ?T2; ring.
Qed.

Lemma CS_one kz kr dt : (coef_C c kz kr dt ^ 2 + c ^ 2 * (kz ^ 2 + kr ^ 2) * coef_S_w c kz kr dt ^ 2 = 1)%R.
Proof.
  rewrite <- omega_sq. unfold coef_C, coef_S_w, inv_w. destruct (Req_EM_T (omega c kz kr) 0) as [->|N].
  - rewrite Rmult_0_l, cos_0. ring.
  - pose proof (sin2_cos2 (omega c kz kr * dt)) as H. unfold Rsqr in H.
    transitivity (sin (omega c kz kr * dt) * sin (omega c kz kr * dt) + cos (omega c kz kr * dt) * cos (omega c kz kr * dt))%R; [field; auto|exact H].
Qed.
Lemma energy_push tr kz kr dt s : no_sources s -> transverse kz kr s -> energy c (pushv tr kz kr dt s) = energy c s.
Proof.
  intros N T. destruct (push_vac tr kz kr dt s N T) as (E1 & E2 & _). cbv zeta in *. destruct T as [T1 T2].
  unfold energy. rewrite E1, E2, !norm2_add, !norm2_scal, !inner_scal, !norm2_curl, !inner_curl by auto.
  pose proof (CS_one kz kr dt) as H. set (C0 := coef_C c kz kr dt) in *. set (S := coef_S_w c kz kr dt) in *.
  rewrite <- (inner_curl kz kr (B_of s) (E_of s)).
  assert (IC : inner (curl kz kr (E_of s)) (B_of s) = inner (B_of s) (curl kz kr (E_of s))) by (unfold inner; ring).
  rewrite IC. set (a := norm2 (E_of s)). set (b := norm2 (B_of s)). set (i := inner _ _).
  transitivity ((C0 ^ 2 + c ^ 2 * (kz ^ 2 + kr ^ 2) * S ^ 2) * (a + c ^ 2 * b))%R; [ring|]. rewrite H. ring.
Qed.

Lemma vscal_1 a : vscal 1 a = a.
Proof. destruct a. vec; ring. Qed.
(** n pushes *)
Definition pushes tr kz kr dt n s := Nat.iter n (fun s => pushv tr kz kr dt s) s.
Lemma pushes_inv tr kz kr dt n s : no_sources s -> transverse kz kr s ->
  no_sources (pushes tr kz kr dt n s) /\ transverse kz kr (pushes tr kz kr dt n s) /\ energy c (pushes tr kz kr dt n s) = energy c s.
Proof.
  intros N T. induction n as [|n IH]; [auto|]. destruct IH as (I1 & I2 & I3). cbn [pushes Nat.iter nat_rect].
  fold (pushes tr kz kr dt n s). split; [apply push_vac; auto|]. split; [apply push_transverse; auto|]. rewrite energy_push; auto.
Qed.
Lemma pushes_closed tr kz kr dt n s : no_sources s -> transverse kz kr s -> omega c kz kr <> 0%R ->
  E_of (pushes tr kz kr dt n s) = vacuum_E c kz kr (INR n * dt) s /\ B_of (pushes tr kz kr dt n s) = vacuum_B c kz kr (INR n * dt) s.
Proof.
  intros N T W. unfold vacuum_E, vacuum_B. fold (omega c kz kr). set (w := omega c kz kr) in *.
  induction n as [|n [IE IB]].
  - cbn [pushes Nat.iter nat_rect INR]. replace (w * (0 * dt))%R with 0%R by ring. rewrite cos_0, sin_0.
    replace (c ^ 2 * (0 / w))%R with 0%R by (field; auto). replace (- (0 / w))%R with 0%R by (field; auto).
    split; vec; ring.
  - destruct (pushes_inv tr kz kr dt n s N T) as (N' & T' & _).
    change (pushes tr kz kr dt (Datatypes.S n) s) with (pushv tr kz kr dt (pushes tr kz kr dt n s)).
    destruct (push_vac tr kz kr dt _ N' T') as (E1 & E2 & _). cbv zeta in *. rewrite E1, E2, IE, IB.
    destruct T as [T1 T2]. rewrite !curl_add, !curl_scal, !curl_curl by auto.
    unfold coef_C, coef_S_w, inv_w. fold w. destruct (Req_EM_T w 0); [tauto|].
    replace (w * (INR (Datatypes.S n) * dt))%R with (w * dt + w * (INR n * dt))%R by (rewrite S_INR; ring).
    rewrite cos_plus, sin_plus. set (c1 := cos (w * dt)). set (s1 := sin (w * dt)). set (c2 := cos (w * (INR n * dt))). set (s2 := sin (w * (INR n * dt))).
    assert (Q : forall x y : R, (c ^ 2 * (x * (1 / w)) * (- (y / w) * (kz ^ 2 + kr ^ 2)) = - (x * y))%R).
    { intros x y. pose proof (omega_sq c kz kr) as O. fold w in O.
      transitivity (- (x * y) * (c ^ 2 * (kz ^ 2 + kr ^ 2) / w ^ 2))%R; [field; auto|]. rewrite <- O. field. auto. }
    assert (Q' : forall x y : R, (- (x * (1 / w)) * (c ^ 2 * (y / w) * (kz ^ 2 + kr ^ 2)) = - (x * y))%R).
    { intros x y. transitivity (c ^ 2 * (x * (1 / w)) * (- (y / w) * (kz ^ 2 + kr ^ 2)))%R; [field; auto|apply Q]. }
    assert (V2 : forall (l1 l2 l3 l4 m1 m2 : R) (k : R) a b, (l1 * l2 + l3 * (l4 * k) = m1)%R -> (l1 * m2 + l3 * l2 = m2 * l1 + l2 * l3)%R ->
       vadd (vscal l1 (vadd (vscal l2 a) (vscal m2 b))) (vscal l3 (vadd (vscal l2 b) (vscal l4 (vscal k a)))) =
       vadd (vscal m1 a) (vscal (l1 * m2 + l3 * l2)%R b)).
    { intros l1 l2 l3 l4 m1 m2 k a b H _. vec; rewrite <- H, !RtoC_plus, !RtoC_mult; ring. }
    split.
    + rewrite V2 with (m1 := (c1 * c2 - s1 * s2)%R) by (rewrite ?Q; ring). f_equal. f_equal. f_equal. field. auto.
    + rewrite V2 with (m1 := (c1 * c2 - s1 * s2)%R) by (rewrite ?Q'; ring). f_equal. f_equal. f_equal. field. auto.
Qed.

(** Time reversal *)
Lemma mode_ext a b : E_of a = E_of b -> B_of a = B_of b -> J_of a = J_of b -> rho_prev a = rho_prev b -> rho_next a = rho_next b ->
  rho_next_z a = rho_next_z b -> rho_next_xy a = rho_next_xy b -> a = b.
Proof.
  destruct a, b. unfold E_of, B_of, J_of; cbn. intros E1 E2 E3 -> -> -> ->. injection E1 as -> -> ->. injection E2 as -> -> ->. injection E3 as -> -> ->. reflexivity.
Qed.
Lemma flip_sources s : no_sources s -> no_sources (flip_B s).
Proof. intros H. exact H. Qed.
Lemma flip_transverse kz kr s : transverse kz kr s -> transverse kz kr (flip_B s).
Proof.
  intros [H1 H2]. split; [exact H1|]. unfold div, flip_B, B_of, set_B in *; cbn [vp vm vz Bp Bm Bz] in *.
  transitivity (- (kr * (Bp s - Bm s) + Ci * kz * Bz s)); [ring|]. rewrite H2. ring.
Qed.
Lemma flip_BB s : B_of (flip_B s) = vscal (RtoC (- (1))) (B_of s).
Proof. rewrite RtoC_opp. vec; ring. Qed.
Lemma reverse_push tr kz kr dt s : no_sources s -> transverse kz kr s ->
  pushv tr kz kr dt (flip_B (pushv tr kz kr dt s)) = flip_B s.
Proof.
  intros N T. destruct (push_vac tr kz kr dt s N T) as (E1 & E2 & N1). cbv zeta in *.
  pose proof (push_transverse tr kz kr dt s N T) as T1.
  pose proof (push_vac tr kz kr dt _ (flip_sources _ N1) (flip_transverse _ _ _ T1)) as (F1 & F2 & N2). cbv zeta in *.
  set (s1 := pushv tr kz kr dt s) in *. set (s2 := pushv tr kz kr dt (flip_B s1)) in *.
  rewrite !flip_BB in F1, F2. rewrite curl_scal in F1. change (E_of (flip_B s1)) with (E_of s1) in F1, F2.
  destruct T as [D1 D2].
  rewrite E1, E2 in F1, F2. rewrite !curl_add, !curl_scal, !curl_curl in F1, F2 by auto.
  pose proof (CS_one kz kr dt) as H. set (C0 := coef_C c kz kr dt) in *. set (S := coef_S_w c kz kr dt) in *.
  assert (HC : RtoC C0 * C0 + RtoC (c ^ 2) * S * S * RtoC (kz ^ 2 + kr ^ 2) = 1).
  { rewrite <- !RtoC_mult, <- RtoC_plus. f_equal. rewrite <- H. ring. }
  destruct N as (A1 & A2 & A3 & A4 & A5), N2 as (B1 & B2 & B3 & B4 & B5).
  apply mode_ext.
  - rewrite F1. change (E_of (flip_B s)) with (E_of s). rewrite <- (vscal_1 (E_of s)) at 3.
    apply vec_ext; cbn [vadd vscal vp vm vz]; rewrite <- HC, !RtoC_opp, !RtoC_mult; ring.
  - rewrite F2, flip_BB. rewrite <- (vscal_1 (B_of s)) at 3.
    apply vec_ext; cbn [vadd vscal vp vm vz]; rewrite <- HC, !RtoC_opp, !RtoC_mult; ring.
  - vec; change (Jp (flip_B s)) with (Jp s); change (Jm (flip_B s)) with (Jm s); change (Jz (flip_B s)) with (Jz s); congruence.
  - change (rho_prev (flip_B s)) with (rho_prev s). congruence.
  - change (rho_next (flip_B s)) with (rho_next s). congruence.
  - reflexivity.
  - reflexivity.
Qed.
(** n pushes, reversal, n pushes *)
Lemma pushes_shift tr kz kr dt n s : pushes tr kz kr dt n (pushv tr kz kr dt s) = pushes tr kz kr dt (Datatypes.S n) s.
Proof.
  induction n as [|n IH]; [reflexivity|].
  change (pushv tr kz kr dt (pushes tr kz kr dt n (pushv tr kz kr dt s)) = pushv tr kz kr dt (pushes tr kz kr dt (Datatypes.S n) s)).
  rewrite IH. reflexivity.
Qed.
Lemma reverse_pushes tr kz kr dt n : forall s, no_sources s -> transverse kz kr s ->
  pushes tr kz kr dt n (flip_B (pushes tr kz kr dt n s)) = flip_B s.
Proof.
  induction n as [|n IH]; intros s N T; [reflexivity|].
  rewrite <- (pushes_shift tr kz kr dt n s). change (pushes tr kz kr dt (Datatypes.S n) ?x) with (pushv tr kz kr dt (pushes tr kz kr dt n x)).
  rewrite IH; [|apply push_vac; auto|apply push_transverse; auto]. apply reverse_push; auto.
Qed.
End Const.

(** C37 *)
Lemma correct_divE_curlfree eps0 kz kr s : eps0 <> 0%R -> ~ (kz = 0%R /\ kr = 0%R) ->
  exists s', correct_divE eps0 CurlFree kz kr s = Ok s' /\ gauss eps0 kz kr s' /\ curl kz kr (E_of s') = curl kz kr (E_of s) /\
  B_of s' = B_of s /\ J_of s' = J_of s /\ rho_prev s' = rho_prev s.
Proof.
  intros He N. destruct (inv_k2_val kz kr N) as (q & Eq & Hq). unfold correct_divE. rewrite Eq.
  eexists. split; [reflexivity|]. set (F := - (RtoC q) * _). split; [|split; [|repeat split]].
  - unfold gauss, div, E_of. cbn -[Cmult Cplus Cminus Copp Ci RtoC Cdiv Cinv F]. rewrite half.
    transitivity (Ci * kz * Ez s + kr * (Ep s - Em s) + ((1 / 2 + 1 / 2) * (kr * kr) + kz * kz) * F); [ring [Ci2]|].
    rewrite half2. unfold F.
    transitivity (Ci * kz * Ez s + kr * (Ep s - Em s) - (RtoC q * (kz * kz + kr * kr)) * (- rho_prev s / eps0 + Ci * kz * Ez s + kr * (Ep s - Em s))); [ring|].
    rewrite Hq. field. apply RtoC_neq; auto.
  - unfold curl, E_of. cbn -[Cmult Cplus Cminus Copp Ci RtoC Cdiv Cinv F]. rewrite half. unfold Cdiv. f_equal; ring [Ci2].
Qed.
