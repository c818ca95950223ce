(** Proofs for C25 and C26. *)
From Verif Require Import Base Push_Model Push_Spec.
From Coq Require Import Reals Lra Psatz.
Open Scope R_scope.

Lemma u2_pos p : 0 <= u2 p. Proof. unfold u2. nra. Qed.

(** The positive root G of G^2 - sigma G - P. *)
Lemma root_unique sigma P G : 0 <= P -> 0 < G -> G ^ 2 - sigma * G - P = 0 ->
  sqrt (2 / (sigma + sqrt (sigma ^ 2 + 4 * P))) = 1 / sqrt G.
Proof.
  intros HP HG H. assert (Hs : 0 <= 2 * G - sigma) by nra.
  replace (sigma ^ 2 + 4 * P) with (Rsqr (2 * G - sigma)) by (unfold Rsqr; nra).
  rewrite sqrt_Rsqr by exact Hs. replace (2 / (sigma + (2 * G - sigma))) with (/ G) by (field; lra).
  rewrite <- inv_sqrt_depr by exact HG. unfold Rdiv. ring.
Qed.
Definition root (sigma P : R) : R := (sigma + sqrt (sigma ^ 2 + 4 * P)) / 2.
Lemma root_spec sigma P : 0 <= P -> (P = 0 -> 0 < sigma) -> 0 < root sigma P /\ root sigma P ^ 2 - sigma * root sigma P - P = 0.
Proof.
  intros HP Hs. unfold root. set (D := sigma ^ 2 + 4 * P).
  assert (HD : 0 <= D) by (unfold D; nra). pose proof (sqrt_sqrt D HD) as E. pose proof (sqrt_pos D) as Hp.
  split.
  - destruct (Rlt_dec 0 sigma) as [L|L]; [lra|].
    assert (P <> 0) by (intros A; specialize (Hs A); lra).
    assert (sigma ^ 2 < D) by (unfold D; nra).
    assert (- sigma < sqrt D).
    { replace (- sigma) with (sqrt (Rsqr (- sigma))) by (apply sqrt_Rsqr; lra). apply sqrt_lt_1_alt. unfold Rsqr. split; nra. }
    lra.
  - unfold D in *. nra.
Qed.

Lemma vay_ok p f ec bc : consistent (push_p_vay p f ec bc).
Proof.
  unfold consistent, push_p_vay, u2. cbv zeta. cbn [ux uy uz ig].
  set (tx := bc * Bx f). set (ty := bc * By f). set (tz := bc * Bz f). set (t2 := tx ^ 2 + ty ^ 2 + tz ^ 2).
  set (ax := ux p + _ + _). set (ay := uy p + _ + _). set (az := uz p + _ + _). clearbody ax ay az.
  set (sg := 1 + _ + _ + _ - t2). set (w := ax * tx + _ + _).
  assert (HP : 0 <= t2 + w ^ 2) by (unfold t2; nra).
  assert (H0 : t2 + w ^ 2 = 0 -> 0 < sg) by (intros A; unfold sg; unfold t2 in *; nra).
  destruct (root_spec sg (t2 + w ^ 2) HP H0) as [HG E]. set (G := root sg (t2 + w ^ 2)) in *.
  rewrite (root_unique sg (t2 + w ^ 2) G HP HG E).
  set (h := 1 / sqrt G). assert (Hh : h ^ 2 = / G).
  { unfold h. replace ((1 / sqrt G) ^ 2) with (/ (sqrt G * sqrt G)) by (field; apply Rgt_not_eq; apply sqrt_lt_R0; exact HG).
    rewrite sqrt_sqrt by lra. reflexivity. }
  unfold h at 1. f_equal. f_equal.
  assert (Ht : 0 <= t2) by (unfold t2; nra).
  assert (Hs : 0 < 1 + t2 * h ^ 2).
  { rewrite Hh. assert (0 <= t2 * / G); [|lra]. apply Rmult_le_pos; [exact Ht|left; apply Rinv_0_lt_compat; exact HG]. }
  replace (1 + _) with (1 + (ax ^ 2 + ay ^ 2 + az ^ 2 + h ^ 2 * w ^ 2) / (1 + t2 * h ^ 2)).
  2: { unfold t2, w. unfold t2 in Hs. field. lra. }
  rewrite Hh. rewrite Hh in Hs.
  assert (Hd : 0 < G + t2) by lra.
  replace (1 + (ax ^ 2 + ay ^ 2 + az ^ 2 + / G * w ^ 2) / (1 + t2 * / G)) with
    (1 + ((ax ^ 2 + ay ^ 2 + az ^ 2) * G + w ^ 2) / (G + t2)) by (field; split; lra).
  apply Rmult_eq_reg_r with (G + t2); [|lra].
  replace ((1 + ((ax ^ 2 + ay ^ 2 + az ^ 2) * G + w ^ 2) / (G + t2)) * (G + t2)) with (G + t2 + (ax ^ 2 + ay ^ 2 + az ^ 2) * G + w ^ 2) by (field; lra).
  unfold sg in E. nra.
Qed.

Lemma consistent_sub p : consistent p -> subluminal p.
Proof.
  unfold consistent, subluminal. intros E. pose proof (u2_pos p) as Hu.
  assert (Hg : 1 <= sqrt (1 + u2 p)) by (rewrite <- sqrt_1 at 1; apply sqrt_le_1_alt; lra).
  assert (Hp : 0 < ig p) by (rewrite E; apply Rdiv_lt_0_compat; lra).
  assert (H2 : ig p ^ 2 * (1 + u2 p) = 1).
  { rewrite E. replace ((1 / sqrt (1 + u2 p)) ^ 2) with (/ (sqrt (1 + u2 p) * sqrt (1 + u2 p))) by (field; lra).
    rewrite sqrt_sqrt by lra. field. lra. }
  split; [exact Hp|]. split.
  - rewrite E. apply Rmult_le_reg_r with (sqrt (1 + u2 p)); [lra|]. replace (1 / sqrt (1 + u2 p) * sqrt (1 + u2 p)) with 1 by (field; lra). lra.
  - replace (_ + _ + _) with (ig p ^ 2 * u2 p) by (unfold u2; ring). assert (0 < ig p ^ 2) by nra. lra.
Qed.
Lemma consistent_inv p : consistent p -> ig p ^ 2 * (1 + u2 p) = 1 /\ 0 < ig p.
Proof.
  intros E. destruct (consistent_sub p E) as [H _]. split; [|exact H]. pose proof (u2_pos p).
  assert (0 < sqrt (1 + u2 p)) by (apply sqrt_lt_R0; lra).
  rewrite E. replace ((1 / sqrt (1 + u2 p)) ^ 2) with (/ (sqrt (1 + u2 p) * sqrt (1 + u2 p))) by (field; lra).
  rewrite sqrt_sqrt by lra. field. lra.
Qed.

(** If the half-way momentum is u + sign * (u x tau)/gamma, the Lorentz factor is unchanged. *)
Lemma vay_same_gamma p f ec bc : consistent p ->
  no_E f \/ (ec * Ex f = - 2 * ig p * bc * (uy p * Bz f - uz p * By f) /\
             ec * Ey f = - 2 * ig p * bc * (uz p * Bx f - ux p * Bz f) /\
             ec * Ez f = - 2 * ig p * bc * (ux p * By f - uy p * Bx f)) ->
  ig (push_p_vay p f ec bc) = ig p.
Proof.
  intros Hc H. destruct (consistent_inv p Hc) as [Hi Hp]. unfold push_p_vay. cbv zeta. cbn [ig].
  rewrite (root_unique _ _ (1 + u2 p)).
  - symmetry. exact Hc.
  - repeat apply Rplus_le_le_0_compat; apply pow2_ge_0.
  - pose proof (u2_pos p). lra.
  - set (bx := bc * Bx f). set (by' := bc * By f). set (bz := bc * Bz f).
    assert (exists s, (s = 1 \/ s = -1) /\
      ux p + ec * Ex f + ig p * (uy p * bz - uz p * by') = ux p + s * ig p * (uy p * bz - uz p * by') /\
      uy p + ec * Ey f + ig p * (uz p * bx - ux p * bz) = uy p + s * ig p * (uz p * bx - ux p * bz) /\
      uz p + ec * Ez f + ig p * (ux p * by' - uy p * bx) = uz p + s * ig p * (ux p * by' - uy p * bx)) as (s & Hs & -> & -> & ->).
    { destruct H as [(-> & -> & ->)|(-> & -> & ->)].
      - exists 1. split; [left; reflexivity|]. repeat split; ring.
      - exists (-1). split; [right; reflexivity|]. unfold bx, by', bz. repeat split; ring. }
    assert (Hs2 : s ^ 2 = 1) by (destruct Hs as [-> | ->]; ring).
    transitivity ((bx ^ 2 + by' ^ 2 + bz ^ 2) * u2 p +  (1 + u2 p) * (bx ^ 2 + by' ^ 2 + bz ^ 2) - (bx ^ 2 + by' ^ 2 + bz ^ 2) * u2 p
       - s ^ 2 * (ig p ^ 2 * (1 + u2 p)) * ((uy p * bz - uz p * by') ^ 2 + (uz p * bx - ux p * bz) ^ 2 + (ux p * by' - uy p * bx) ^ 2)
       - (bx ^ 2 + by' ^ 2 + bz ^ 2) - (ux p * bx + uy p * by' + uz p * bz) ^ 2).
    + unfold u2. ring.
    + rewrite Hs2, Hi. unfold u2. ring.
Qed.

Lemma u2_of_ig p p' : consistent p -> consistent p' -> ig p = ig p' -> u2 p = u2 p'.
Proof.
  intros H H' E. destruct (consistent_inv p H) as [A B], (consistent_inv p' H') as [A' B']. rewrite <- E in A'.
  assert (ig p ^ 2 * (u2 p - u2 p') = 0) by lra. apply Rmult_integral in H0 as [C|C]; nra.
Qed.

Lemma vay_no_E p f ec bc : consistent p -> no_E f -> u2 (push_p_vay p f ec bc) = u2 p.
Proof.
  intros Hc H. apply u2_of_ig; [apply vay_ok|exact Hc|]. apply vay_same_gamma; [exact Hc|left; exact H].
Qed.

Lemma vay_force_free p f ec bc c : c <> 0 -> ec = 2 * bc / c -> consistent p -> force_free c p f ->
  push_p_vay p f ec bc = p.
Proof.
  intros Hn He Hc (H1 & H2 & H3). destruct (consistent_inv p Hc) as [Hi Hp].
  assert (E1 : ec * Ex f = - 2 * ig p * bc * (uy p * Bz f - uz p * By f)).
  { replace (Ex f) with (- (c * ig p * (uy p * Bz f - uz p * By f))) by lra. rewrite He. field. exact Hn. }
  assert (E2 : ec * Ey f = - 2 * ig p * bc * (uz p * Bx f - ux p * Bz f)).
  { replace (Ey f) with (- (c * ig p * (uz p * Bx f - ux p * Bz f))) by lra. rewrite He. field. exact Hn. }
  assert (E3 : ec * Ez f = - 2 * ig p * bc * (ux p * By f - uy p * Bx f)).
  { replace (Ez f) with (- (c * ig p * (ux p * By f - uy p * Bx f))) by lra. rewrite He. field. exact Hn. }
  assert (Eg := vay_same_gamma p f ec bc Hc (or_intror (conj E1 (conj E2 E3)))).
  unfold push_p_vay in *. cbv zeta in *. cbn [ig] in Eg. rewrite Eg. rewrite E1, E2, E3.
  assert (Hs : 1 + ((bc * Bx f) ^ 2 + (bc * By f) ^ 2 + (bc * Bz f) ^ 2) * ig p ^ 2 <> 0) by nra.
  destruct p as [x y z i]. cbn [ux uy uz ig] in *. f_equal; field; exact Hs.
Qed.

(** ** The species *)
Section C.
Context (c e : R) (Hc : 0 < c).

Lemma push_p_each s dt l : push_p c e s dt = Ok l ->
  Forall2 (fun a a' => a' = a \/ exists ec bc, ec = 2 * bc / c /\ a' = set_pm a (push_p_vay (pm a) (pf a) ec bc)) (ptcls s) l.
Proof.
  unfold push_p. intros H.
  assert (G : forall F : mp -> mp, (forall a, F a = a \/ exists ec bc, ec = 2 * bc / c /\ F a = set_pm a (push_p_vay (pm a) (pf a) ec bc)) ->
    forall l, Forall2 (fun a a' => a' = a \/ exists ec bc, ec = 2 * bc / c /\ a' = set_pm a (push_p_vay (pm a) (pf a) ec bc)) l (map F l)).
  { intros F HF l0. induction l0; constructor; auto. }
  assert (EC : forall q m dt, q * dt / (m * c) = 2 * (1 / 2 * q * dt / m) / c).
  { intros q0 m0 d0. unfold Rdiv. rewrite Rinv_mult. generalize (/ m0); intros im. field. lra. }
  destruct (Req_EM_T (q s) 0) as [E|E].
  - injection H as <-. clear. induction (ptcls s); constructor; auto.
  - destruct (z_plane s) as [zp|], (ionizer s); try discriminate; injection H as <-; apply G; intros a.
    + unfold push_p_after_plane_numba. destruct (Rlt_dec zp (pz a)); [right|left; reflexivity].
      eexists _, _. split; [|reflexivity]. apply EC.
    + unfold push_p_ioniz_numba. destruct (plevel a =? 0)%Z; [left; reflexivity|right].
      eexists _, _. split; [|reflexivity]. rewrite EC. unfold Rdiv. ring.
    + right. eexists _, _. split; [|reflexivity]. apply EC.
Qed.
(** Who is pushed. *)
Definition pushed (s : psp) (a : mp) : Prop :=
  q s <> 0 /\ (ionizer s = true -> plevel a <> 0%Z) /\ (forall zp, z_plane s = Some zp -> zp < pz a).
Lemma push_p_pushed s dt l : push_p c e s dt = Ok l ->
  Forall2 (fun a a' => (pushed s a -> consistent (pm a')) /\ (~ pushed s a -> a' = a)) (ptcls s) l.
Proof.
  unfold push_p. intros H.
  assert (G : forall F : mp -> mp, (forall a, (pushed s a -> consistent (pm (F a))) /\ (~ pushed s a -> F a = a)) ->
    forall l, Forall2 (fun a a' => (pushed s a -> consistent (pm a')) /\ (~ pushed s a -> a' = a)) l (map F l)).
  { intros F HF l0. induction l0; constructor; auto. }
  destruct (Req_EM_T (q s) 0) as [E|E].
  - injection H as <-. rewrite <- (map_id (ptcls s)) at 2. apply G. intros a. split; [intros [A _]; congruence|reflexivity].
  - destruct (z_plane s) as [zp|] eqn:Ez, (ionizer s) eqn:Ei; try discriminate; injection H as <-; apply G; intros a.
    + unfold push_p_after_plane_numba. destruct (Rlt_dec zp (pz a)); (split; [intros (_ & _ & A)|intros A]).
      * apply vay_ok.
      * exfalso. apply A. split; [exact E|]. split; [congruence|]. intros z Hz. congruence.
      * exfalso. apply n. apply A. exact Ez.
      * reflexivity.
    + unfold push_p_ioniz_numba. destruct (Z.eqb_spec (plevel a) 0); (split; [intros (_ & A & _)|intros A]).
      * exfalso. apply A; [exact Ei|exact e0].
      * reflexivity.
      * apply vay_ok.
      * exfalso. apply A. split; [exact E|]. split; [intros _; exact n|]. intros z Hz. congruence.
    + split; [intros _; apply vay_ok|]. intros A. exfalso. apply A. split; [exact E|]. split; [congruence|]. intros z Hz. congruence.
Qed.

Lemma push_p_consistent s dt l : push_p c e s dt = Ok l ->
  Forall (fun a => consistent (pm a)) (ptcls s) -> Forall (fun a => consistent (pm a) /\ subluminal (pm a)) l.
Proof.
  intros H F. apply push_p_each in H. induction H as [|a a' l1 l2 H1 H2 IH]; [constructor|].
  inversion F as [|x y Fa Fl]; subst. constructor; [|apply IH; exact Fl].
  assert (consistent (pm a')).
  { destruct H1 as [-> |(ec & bc & _ & ->)]; [exact Fa|apply vay_ok]. }
  split; [assumption|apply consistent_sub; assumption].
Qed.
Lemma push_p_no_E s dt l : push_p c e s dt = Ok l ->
  Forall (fun a => consistent (pm a) /\ no_E (pf a)) (ptcls s) ->
  Forall2 (fun a a' => u2 (pm a') = u2 (pm a) /\ ig (pm a') = ig (pm a)) (ptcls s) l.
Proof.
  intros H F. apply push_p_each in H. induction H as [|a a' l1 l2 H1 H2 IH]; [constructor|].
  inversion F as [|x y [Fa Fa'] Fl]; subst. constructor; [|apply IH; exact Fl].
  destruct H1 as [-> |(ec & bc & _ & ->)]; [split; reflexivity|]. cbn [set_pm pm]. split.
  - apply vay_no_E; assumption.
  - apply vay_same_gamma; [exact Fa|left; exact Fa'].
Qed.
Lemma push_p_force_free s dt l : push_p c e s dt = Ok l ->
  Forall (fun a => consistent (pm a) /\ force_free c (pm a) (pf a)) (ptcls s) -> l = ptcls s.
Proof.
  intros H F. apply push_p_each in H. induction H as [|a a' l1 l2 H1 H2 IH]; [reflexivity|].
  inversion F as [|x y [Fa Fa'] Fl]; subst. rewrite (IH Fl). f_equal.
  destruct H1 as [-> |(ec & bc & E & ->)]; [reflexivity|].
  rewrite (vay_force_free _ _ _ _ c ltac:(lra) E Fa Fa'). destruct a; reflexivity.
Qed.
Lemma push_x_distance dt a : dt <> 0 -> consistent (pm a) -> displacement2 a (push_x c dt 1 1 1 a) < (c * dt) ^ 2.
Proof.
  intros Hd Ha. destruct (consistent_sub _ Ha) as (_ & _ & H). unfold displacement2, push_x. cbv zeta. cbn [px py pz].
  replace (_ + _ + _) with ((c * dt) ^ 2 * ((ig (pm a) * ux (pm a)) ^ 2 + (ig (pm a) * uy (pm a)) ^ 2 + (ig (pm a) * uz (pm a)) ^ 2)) by ring.
  rewrite <- (Rmult_1_r ((c * dt) ^ 2)) at 2. apply Rmult_lt_compat_l; [|exact H].
  assert (c * dt <> 0) by (apply Rmult_integral_contrapositive_currified; lra). nra.
Qed.
End C.
