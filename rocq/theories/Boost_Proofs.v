From Verif Require Import Base Boost_Model Boost_Spec.
From Coq Require Import Reals Lra Lia.
Open Scope R_scope.

Lemma converter_ok g : 1 <= g -> boost_ok (gamma0 (boost_converter g)) (beta0 (boost_converter g)).
Proof.
  intros Hg. cbn [boost_converter gamma0 beta0]. assert (G2 : 1 <= g ^ 2) by nra.
  assert (I : 0 < 1 / g ^ 2 <= 1). { split; [apply Rdiv_lt_0_compat; lra|]. apply (Rmult_le_reg_r (g ^ 2)); [lra|]. replace (1 / g ^ 2 * g ^ 2) with 1 by (field; lra). lra. }
  pose proof (sqrt_pos (1 - 1 / g ^ 2)) as P. pose proof (sqrt_sqrt (1 - 1 / g ^ 2) ltac:(lra)) as S.
  split; [exact Hg|split; [|]].
  - split; [exact P|]. set (b := sqrt _) in *. nra.
  - rewrite S. field. lra.
Qed.
Section S.
Context (c g b : R) (Hc : 0 < c) (H : boost_ok g b).
Let H1 : 1 <= g := proj1 H.
Let H2 : 0 <= b < 1 := proj1 (proj2 H).
Let H3 : g * g * (1 - b * b) = 1 := proj2 (proj2 H).

(** sqrt (1 + u'^2) = g (sqrt(1 + u^2) - b uz) *)
Lemma mass_shell w uz : 0 <= w -> let q := sqrt (1 + w + uz ^ 2) in
  sqrt (1 + w + (g * (uz - q * b)) ^ 2) = g * (q - b * uz) /\ 0 < g * (q - b * uz).
Proof.
  intros Hw q. assert (Q2 : q * q = 1 + w + uz ^ 2) by (apply sqrt_sqrt; pose proof (pow2_ge_0 uz); lra).
  assert (Q0 : 0 <= q) by apply sqrt_pos.
  assert (Qu : Rabs uz < q). { apply Rsqr_incrst_0; [|apply Rabs_pos|exact Q0]. rewrite <- Rsqr_abs. unfold Rsqr. nra. }
  apply Rabs_def2 in Qu. assert (P : 0 < g * (q - b * uz)).
  { apply Rmult_lt_0_compat; [lra|]. destruct (Rle_lt_dec 0 uz); nra. }
  split; [|exact P]. apply sqrt_lem_1; [pose proof (pow2_ge_0 (g * (uz - q * b))); lra|lra|].
  transitivity (g * g * (1 - b * b) * (q * q) + g * g * b * b * (q * q + uz * uz) + g * g * b * b * uz * uz - g * g * b * b * uz * uz - 2 * g * g * b * q * uz); [ring|].
  rewrite H3, Q2. assert (G : g * g = 1 + g * g * (b * b)) by lra.
  assert (W : (g * (uz - q * b)) ^ 2 = g * g * uz ^ 2 - 2 * g * g * b * q * uz + g * g * (b * b) * (q * q)) by ring. rewrite W, Q2.
  rewrite G. ring_simplify. nra.
Qed.
End S.

Section Conv.
Context (c gm : R) (Hc : 0 < c) (Hg : 1 <= gm).
Let cv := boost_converter gm.
Let L := lorentz c (gamma0 cv) (beta0 cv).
Local Notation g := (gamma0 cv).
Local Notation b := (beta0 cv).
Lemma ok : boost_ok g b. Proof. apply converter_ok, Hg. Qed.

Lemma factor_pos bo : -1 <= bo <= 1 -> 0 < 1 - b * bo.
Proof. intros Hb. destruct ok as (_ & H2 & _). destruct (Rle_lt_dec 0 bo); nra. Qed.
Lemma length_ok bo l : -1 <= bo <= 1 -> forall e1 e2, e_z e2 - bo * c * e_t e2 = e_z e1 - bo * c * e_t e1 + l ->
  e_t (L e1) = e_t (L e2) -> copropag_length cv [l] bo = [e_z (L e2) - e_z (L e1)].
Proof.
  intros Hb e1 e2 E T. destruct ok as (H1 & H2 & H3). pose proof (factor_pos bo Hb) as P.
  cbn [copropag_length map L lorentz e_t e_z] in *. f_equal. unfold L, lorentz in T; cbn [e_t e_z] in T.
  assert (T' : e_t e2 = e_t e1 + b * (e_z e2 - e_z e1) / c).
  { apply (Rmult_eq_reg_l g); [|lra]. replace (g * (e_t e1 + b * (e_z e2 - e_z e1) / c)) with (g * (e_t e1 - b * e_z e1 / c) + g * (b * e_z e2 / c)) by (field; lra). rewrite T. ring. }
  assert (Z : (e_z e2 - e_z e1) * (1 - b * bo) = l).
  { replace l with (e_z e2 - e_z e1 - bo * c * (e_t e2 - e_t e1)) by lra. replace (e_t e2 - e_t e1) with (b * (e_z e2 - e_z e1) / c) by lra. field. lra. }
  replace (g * (e_z e2 - b * c * e_t e2) - g * (e_z e1 - b * c * e_t e1)) with (g * (e_z e2 - e_z e1 - b * c * (e_t e2 - e_t e1))) by ring.
  replace (e_t e2 - e_t e1) with (b * (e_z e2 - e_z e1) / c) by lra.
  replace (g * (e_z e2 - e_z e1 - b * c * (b * (e_z e2 - e_z e1) / c))) with (g * (1 - b * b) * (e_z e2 - e_z e1)) by (field; lra).
  apply (Rmult_eq_reg_r (g * (1 - b * bo))); [|apply Rmult_integral_contrapositive; split; lra].
  replace (g * (1 - b * b) * (e_z e2 - e_z e1) * (g * (1 - b * bo))) with (g * g * (1 - b * b) * ((e_z e2 - e_z e1) * (1 - b * bo))) by ring.
  rewrite H3, Z. field. split; lra.
Qed.
Lemma static_is_copropag l : static_length cv l = copropag_length cv l 0.
Proof. unfold static_length, copropag_length. apply map_ext. intros a. destruct ok as (H1 & _). rewrite Rmult_0_r, Rminus_0_r, Rmult_1_r. field. lra. Qed.
Lemma static_is_copropag_density l : static_density cv l = copropag_density cv l 0.
Proof. unfold static_density, copropag_density. apply map_ext. intros a. rewrite Rmult_0_r, Rminus_0_r, Rmult_1_r. reflexivity. Qed.
Lemma number_ok bo n l : -1 <= bo <= 1 ->
  exists n' l', copropag_density cv [n] bo = [n'] /\ copropag_length cv [l] bo = [l'] /\ n' * l' = n * l.
Proof.
  intros Hb. pose proof (factor_pos bo Hb) as P. destruct ok as (H1 & _). eexists _, _. split; [reflexivity|split; [reflexivity|]]. cbn. unfold cv in *. cbn in *. field. repeat split; lra.
Qed.
Lemma velocity_ok v e1 e2 : -c <= v <= c -> e_z e2 - e_z e1 = v * (e_t e2 - e_t e1) ->
  exists v', velocity c cv [v] = [v'] /\ e_z (L e2) - e_z (L e1) = v' * (e_t (L e2) - e_t (L e1)).
Proof.
  intros Hv E. destruct ok as (H1 & H2 & H3). eexists. split; [reflexivity|]. unfold L, lorentz; cbn [e_z e_t].
  assert (P : 0 < c - v * b) by (destruct (Rle_lt_dec 0 v); nra).
  replace (g * (e_z e2 - b * c * e_t e2) - g * (e_z e1 - b * c * e_t e1)) with (g * ((e_z e2 - e_z e1) - b * c * (e_t e2 - e_t e1))) by ring.
  replace (g * (e_t e2 - b * e_z e2 / c) - g * (e_t e1 - b * e_z e1 / c)) with (g * ((e_t e2 - e_t e1) - b * (e_z e2 - e_z e1) / c)) by (field; lra).
  rewrite E. field. repeat split; lra.
Qed.
Lemma velocity_below_c v : -c < v < c -> exists v', velocity c cv [v] = [v'] /\ -c < v' < c.
Proof.
  intros Hv. destruct ok as (H1 & H2 & H3). eexists. split; [reflexivity|]. cbv beta.
  assert (P : 0 < c - v * b) by (destruct (Rle_lt_dec 0 v); nra).
  replace ((v - c * b) / (1 - v * b / c)) with (c * ((v - c * b) / (c - v * b))) by (field; split; lra).
  assert (-1 < (v - c * b) / (c - v * b) < 1).
  { split; apply (Rmult_lt_reg_r (c - v * b)); try assumption; replace ((v - c * b) / (c - v * b) * (c - v * b)) with (v - c * b) by (field; lra); nra. }
  nra.
Qed.
Lemma velocity_c : velocity c cv [c; -c] = [c; -c].
Proof. destruct ok as (H1 & H2 & H3). assert (0 <= c * b < c) by (split; nra). cbn [velocity map]. f_equal; [|f_equal]; field; repeat split; lra. Qed.
Lemma momentum_ok u : let q := sqrt (1 + u ^ 2) in exists u', longitudinal_momentum cv [u] = [u'] /\
  u' = g * (u - b * q) /\ sqrt (1 + u' ^ 2) = g * (q - b * u) /\ (-c < u / q * c < c -> velocity c cv [u / q * c] = [u' / sqrt (1 + u' ^ 2) * c]).
Proof.
  intros q. pose proof (mass_shell g b ok 0 u ltac:(lra)) as [M P]. cbv zeta in M, P. rewrite !Rplus_0_r in M, P. fold q in M, P.
  destruct ok as (H1 & H2 & H3). exists (g * (u - q * b)). split; [reflexivity|]. split; [ring|]. split; [exact M|]. intros Hv. rewrite M. cbn [velocity map]. f_equal.
  assert (Q : 0 < q) by (apply sqrt_lt_R0; pose proof (pow2_ge_0 u); lra).
  assert (q - b * u <> 0) by (intros E; rewrite E in P; lra). field. repeat split; lra.
Qed.
Lemma gamma_ok u : 0 <= u -> exists u', longitudinal_momentum cv [u] = [u'] /\ gamma cv [sqrt (1 + u ^ 2)] = [sqrt (1 + u' ^ 2)].
Proof.
  intros Hu. destruct (momentum_ok u) as (u' & E & _ & M & _). exists u'. split; [exact E|]. cbn [gamma map]. rewrite M. f_equal. f_equal. f_equal. f_equal.
  rewrite pow2_sqrt by (pose proof (pow2_ge_0 u); lra). replace (1 + u ^ 2 - 1) with (u ^ 2) by ring. apply sqrt_pow2, Hu.
Qed.
Lemma gamma_backward u : 1 < gm -> u < 0 -> exists u', longitudinal_momentum cv [u] = [u'] /\ gamma cv [sqrt (1 + u ^ 2)] <> [sqrt (1 + u' ^ 2)].
Proof.
  intros Hg1 Hu. destruct (momentum_ok u) as (u' & E & _ & M & _). exists u'. split; [exact E|]. cbn [gamma map]. rewrite M.
  rewrite pow2_sqrt by (pose proof (pow2_ge_0 u); lra). replace (1 + u ^ 2 - 1) with ((- u) ^ 2) by ring. rewrite sqrt_pow2 by lra.
  destruct ok as (H1 & H2 & H3). intros X. injection X as X. assert (b <> 0). { intros B. change g with gm in H3. rewrite B in H3. nra. }
  assert (X' : g * (sqrt (1 + u ^ 2) - b * - u) = g * (sqrt (1 + u ^ 2) - b * u)) by exact X.
  assert (H0 : g * (b * u) = 0) by lra. apply Rmult_integral in H0. destruct H0 as [|H0]; [lra|]. apply Rmult_integral in H0. destruct H0; lra.
Qed.
Lemma wavenumber_ok k : exists k', wavenumber cv [k] = [k'] /\ forall e, k' * (e_z (L e) - c * e_t (L e)) = k * (e_z e - c * e_t e).
Proof.
  destruct ok as (H1 & H2 & H3). eexists. split; [reflexivity|]. intros e. unfold L, lorentz; cbn [e_z e_t].
  replace (g * (e_z e - b * c * e_t e) - c * (g * (e_t e - b * e_z e / c))) with (g * (1 + b) * (e_z e - c * e_t e)) by (field; lra).
  field. lra.
Qed.
Lemma particle_ok p : let w t := free_particle c (px p) (py p) (pz p) (pux p) (puy p) (puz p) t in
  exists p', boost_particle_arrays c cv [p] = [p'] /\
  pinv_gamma p' = 1 / sqrt (1 + pux p' ^ 2 + puy p' ^ 2 + puz p' ^ 2) /\
  forall t, L (w t) = free_particle c (px p') (py p') (pz p') (pux p') (puy p') (puz p') (e_t (L (w t))).
Proof.
  intros w. destruct ok as (H1 & H2 & H3).
  set (W := pux p ^ 2 + puy p ^ 2). assert (HW : 0 <= W) by (unfold W; pose proof (pow2_ge_0 (pux p)); pose proof (pow2_ge_0 (puy p)); lra).
  pose proof (mass_shell g b ok W (puz p) HW) as [M P]. cbv zeta in M, P.
  set (q := sqrt (1 + W + puz p ^ 2)) in *. assert (Q : 0 < q) by (apply sqrt_lt_R0; pose proof (pow2_ge_0 (puz p)); lra).
  assert (Q1 : sqrt (1 + (pux p * pux p + puy p * puy p + puz p * puz p)) = q) by (unfold q, W; f_equal; ring).
  assert (Q2 : sqrt (1 + pux p ^ 2 + puy p ^ 2 + puz p ^ 2) = q) by (unfold q, W; f_equal; ring).
  eexists. split; [reflexivity|].
  unfold boost_particle. cbv zeta. rewrite Q1. cbn [px py pz pux puy puz pinv_gamma].
  set (uz' := g * puz p - g * b * q). assert (U : uz' = g * (puz p - q * b)) by (unfold uz'; ring).
  assert (Q3 : sqrt (1 + (pux p ^ 2 + puy p ^ 2 + uz' ^ 2)) = g * (q - b * puz p)) by (rewrite <- M, U; f_equal; unfold W; ring).
  assert (Q4 : sqrt (1 + pux p ^ 2 + puy p ^ 2 + uz' ^ 2) = g * (q - b * puz p)) by (rewrite <- M, U; f_equal; unfold W; ring).
  rewrite Q3, Q4. split; [reflexivity|]. intros t. unfold w, free_particle. cbv zeta. rewrite Q2, Q4. unfold L, lorentz. cbn [e_t e_x e_y e_z].
  assert (N : q - b * puz p <> 0) by (intros E; rewrite E in P; lra).
  f_equal.
  - field. repeat split; lra.
  - field. repeat split; lra.
  - rewrite U. field. repeat split; lra.
Qed.
(** The window moves at c: [enter] is the event where its front meets the start of the plasma, [leave] the one where its
    back passes the end of the plasma. *)
Lemma interaction_time_ok Lp lw enter leave : e_z leave - e_z enter = Lp -> e_t leave - e_t enter = (Lp + lw) / c ->
  interaction_time c cv Lp lw c = Some (e_t (L leave) - e_t (L enter)).
Proof.
  intros Ez Et. destruct ok as (H1 & H2 & H3). assert (0 <= c * b < c) by (split; nra). unfold interaction_time. cbn [static_length copropag_length velocity map]. f_equal.
  unfold L, lorentz; cbn [e_t].
  replace (g * (e_t leave - b * e_z leave / c) - g * (e_t enter - b * e_z enter / c)) with (g * ((e_t leave - e_t enter) - b * (e_z leave - e_z enter) / c)) by (field; lra).
  rewrite Ez, Et.
  assert (I : 1 / g = g * (1 - b * b)) by (apply (Rmult_eq_reg_r g); [|lra]; transitivity (g * g * (1 - b * b)); [rewrite H3; field; lra|ring]).
  replace (Lp / g) with (Lp * (g * (1 - b * b))) by (rewrite <- I; field; lra).
  replace (1 / (g * (1 - b * 1))) with (g * (1 + b)).
  2:{ apply (Rmult_eq_reg_r (g * (1 - b))); [|apply Rmult_integral_contrapositive; split; lra]. transitivity (g * g * (1 - b * b)); [ring|rewrite H3; field; lra]. }
  replace ((c - c * b) / (1 - c * b / c)) with c by (field; split; lra). assert (0 < c + b * c) by nra.
  field. repeat split; lra.
Qed.
End Conv.
