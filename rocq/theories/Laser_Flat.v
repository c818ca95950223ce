(** The flattened Gaussian: centre of the focal plane, focal plane, far from focus (C63). *)
From Verif Require Import Base Fourier_Lib Psatd_Model Psatd_Spec Psatd_Proofs Maxwell_Spec Maxwell_Proofs Laser_Model Laser_Spec Laser_Calc Laser_Laguerre Laser_Paraxial Laser_Proofs.
From Coq Require Import Reals Lra Lia.
From Coquelicot Require Import Coquelicot.
Open Scope R_scope.

Lemma csum_rsum n (f : nat -> R) : csum n (fun k => RtoC (f k)) = RtoC (rsum n f).
Proof. induction n as [|n IH]; cbn [csum rsum]; [reflexivity|]. rewrite IH, <- RtoC_plus. reflexivity. Qed.

(** ** Sums of the coefficients *)
Lemma rsum_shift N n (g : nat -> R) : (n <= N)%nat -> (forall m, (m < n)%nat -> g m = 0) -> rsum (N + 1 - n) (fun i => g (n + i)%nat) = rsum (N + 1) g.
Proof.
  intros H Z. replace (N + 1)%nat with (n + (N + 1 - n))%nat at 2 by lia. rewrite rsum_split.
  rewrite (rsum_ext n g (fun _ => 0)) by (intros; apply Z; lia). rewrite rsum_zero. ring.
Qed.
Lemma flat_coef N n : (n <= N)%nat -> flattened_coefficient N n = rsum (N + 1) (fun m => / 2 ^ m * bin m n).
Proof.
  intros H. unfold flattened_coefficient. rewrite <- (rsum_shift N n); [|exact H|intros m Hm; rewrite bin_out by lia; ring].
  apply rsum_ext. intros i _. f_equal. change (Binomial.C (n + i) n) with (binom (n + i) n). apply binom_bin. lia.
Qed.
Lemma flat_sum N (a : nat -> R) : rsum (N + 1) (fun n => flattened_coefficient N n * a n) = rsum (N + 1) (fun m => / 2 ^ m * rsum (S m) (fun n => bin m n * a n)).
Proof.
  rewrite (rsum_ext (N + 1) _ (fun n => rsum (N + 1) (fun m => / 2 ^ m * (bin m n * a n)))).
  - rewrite rsum_swap. apply rsum_ext. intros m Hm. rewrite rsum_scal. f_equal. apply rsum_tail; [lia|]. intros i Hi. rewrite bin_out by lia. ring.
  - intros n Hn. rewrite flat_coef by lia. rewrite Rmult_comm, <- rsum_scal. apply rsum_ext. intros; ring.
Qed.
Lemma rsum_const n a : rsum n (fun _ => a) = INR n * a.
Proof. induction n as [|n IH]; cbn [rsum]; [cbn; ring|]. rewrite IH, S_INR. ring. Qed.
Lemma flat_one N : rsum (N + 1) (flattened_coefficient N) = INR N + 1.
Proof.
  rewrite (rsum_ext (N + 1) _ (fun n => flattened_coefficient N n * 1)) by (intros; ring). rewrite flat_sum.
  rewrite (rsum_ext (N + 1) _ (fun _ => 1)).
  - rewrite rsum_const, plus_INR. cbn. ring.
  - intros m _. rewrite (rsum_ext (S m) _ (bin m)) by (intros; ring). rewrite bin_row. apply Rinv_l. apply pow_nonzero. lra.
Qed.
(** Inversion of the binomial coefficients. *)
Lemma bin_inverse m : forall i M, (m < M)%nat -> rsum M (fun n => (-1) ^ n * (bin m n * bin n i)) = if Nat.eqb i m then (-1) ^ m else 0.
Proof.
  induction m as [|m IH]; intros i M HM.
  - rewrite (rsum_tail 1 M); [|lia|intros n Hn; rewrite bin_out by lia; ring]. cbn [rsum]. rewrite bin_0. destruct i; cbn; ring.
  - destruct M as [|M]; [lia|]. rewrite rsum_first.
    rewrite (rsum_ext M _ (fun n => (-1) * ((-1) ^ n * (bin m n * bin (S n) i)) + (-1) ^ S n * (bin m (S n) * bin (S n) i))) by (intros n _; cbn [pow]; change (bin (S m) (S n)) with (bin m n + bin m (S n)); ring).
    rewrite rsum_plus, rsum_scal. rewrite bin_0.
    assert (T : 1 * (1 * bin 0 i) + rsum M (fun n => (-1) ^ S n * (bin m (S n) * bin (S n) i)) = if Nat.eqb i m then (-1) ^ m else 0).
    { rewrite <- (IH i (S M)) by lia. rewrite rsum_first, bin_0. cbn [pow]. ring. }
    cbn [pow] in T |- *.
    match goal with |- 1 * (1 * bin 0 i) + (?a + ?b) = _ => transitivity (a + (1 * (1 * bin 0 i) + b)); [ring|] end. rewrite T. clear T.
    destruct i as [|i].
    + rewrite (rsum_ext M _ (fun n => (-1) ^ n * (bin m n * bin n 0))) by (intros; rewrite !bin_0; reflexivity). rewrite IH by lia. cbn [Nat.eqb]. ring.
    + rewrite (rsum_ext M _ (fun n => (-1) ^ n * (bin m n * bin n i) + (-1) ^ n * (bin m n * bin n (S i)))) by (intros n _; change (bin (S n) (S i)) with (bin n i + bin n (S i)); ring).
      rewrite rsum_plus, !IH by lia. cbn [Nat.eqb]. destruct (Nat.eqb i m); ring.
Qed.
Lemma laguerre_inverse m x : rsum (S m) (fun n => bin m n * ((-1) ^ n * genlaguerre n 0 x)) = x ^ m / factR m.
Proof.
  rewrite (rsum_ext (S m) _ (fun n => rsum (S m) (fun i => (-1) ^ i * (/ factR i * x ^ i) * ((-1) ^ n * (bin m n * bin n i))))).
  - rewrite rsum_swap. rewrite (rsum_ext (S m) _ (fun i => (-1) ^ i * (/ factR i * x ^ i) * (if Nat.eqb i m then (-1) ^ m else 0))).
    + cbn [rsum]. rewrite Nat.eqb_refl. rewrite (rsum_ext m _ (fun _ => 0)).
      * rewrite rsum_zero. transitivity ((-1 * -1) ^ m * (x ^ m * / factR m)); [rewrite Rpow_mult_distr; ring|]. replace (-1 * -1) with 1 by ring. rewrite pow1. unfold Rdiv. ring.
      * intros k Hk. destruct (Nat.eqb_spec k m); [lia|ring].
    + intros i _. rewrite rsum_scal, bin_inverse by lia. reflexivity.
  - intros n Hn. rewrite (lag_lb n (S m)) by lia. rewrite <- !rsum_scal. apply rsum_ext. intros i _. unfold lb, Rdiv. ring.
Qed.
Lemma flat_far N X : rsum (N + 1) (fun n => flattened_coefficient N n * ((-1) ^ n * genlaguerre n 0 (2 * X))) = rsum (N + 1) (fun n => X ^ n / factR n).
Proof.
  rewrite flat_sum. apply rsum_ext. intros m _. rewrite laguerre_inverse, Rpow_mult_distr. field. split; [apply factR_neq|apply pow_nonzero; lra].
Qed.
Lemma laguerre_at_0 n : genlaguerre n 0 0 = 1.
Proof.
  rewrite (lag_lb n (S n)) by lia. rewrite rsum_first. rewrite (rsum_ext n _ (fun _ => 0)).
  - rewrite rsum_zero. unfold lb, factR. rewrite bin_0. cbn. field.
  - intros; cbn [pow]; ring.
Qed.

(** ** The profile of the code *)
Section Flat.
Context (w0 zf lambda0 : R) (N : nat) (dir : Z) (f : flattened).
Hypothesis w0_pos : 0 < w0.
Hypothesis lambda0_pos : 0 < lambda0.
Hypothesis Hf : flattened_init w0 N zf lambda0 dir = Ok f.
Lemma flat_parts : good (f_t f) dir /\ t_k0 (f_t f) = 2 * PI / lambda0 /\ t_zf (f_t f) = zf /\ t_w0 (f_t f) = w0 * sqrt (INR N + 1) /\
  f_N f = N /\ forall n, (n <= N)%nat -> f_cn f n = flattened_coefficient N n / (INR N + 1).
Proof.
  unfold flattened_init in Hf. destruct (transverse_init (w0 * sqrt (INR N + 1)) zf lambda0 dir) as [t|] eqn:E; [|discriminate]. injection Hf as <-.
  cbn [f_t f_N f_cn]. pose proof (pos_INR N).
  assert (PW : 0 < w0 * sqrt (INR N + 1)) by (apply Rmult_lt_0_compat; [exact w0_pos|apply sqrt_lt_R0; lra]).
  destruct (transverse_good _ _ _ _ _ PW lambda0_pos E) as (G & K & Z & W). repeat (split; [assumption|]).
  split; [reflexivity|]. intros n Hn. f_equal. unfold flattened_coefficient. apply rsum_ext. intros i _. f_equal. unfold Rdiv. rewrite Rmult_1_l. apply pow_inv.
Qed.
Lemma w_sq : t_w0 (f_t f) ^ 2 = (INR N + 1) * w0 ^ 2.
Proof. destruct flat_parts as (_ & _ & _ & W & _). rewrite W, Rpow_mult_distr, pow2_sqrt; [ring|]. pose proof (pos_INR N). lra. Qed.
Lemma flat_modes x y z : flattened_evaluate f x y z = (RtoC (/ (INR N + 1)) * csum (N + 1) (fun n => RtoC (flattened_coefficient N n) * amode (f_t f) n 0 (x ^ 2 + y ^ 2) z))%C.
Proof.
  destruct flat_parts as (G & _ & _ & _ & EN & EC). destruct f as [t N' cn]. cbn [f_t f_N f_cn] in *. subst N'.
  rewrite flattened_form by apply G. rewrite <- csum_scal. apply csum_ext. intros n Hn. rewrite EC by lia. unfold Rdiv. rewrite RtoC_mult. ring.
Qed.
Lemma flat_paraxial : paraxial (2 * PI / lambda0) (IZR dir) (flattened_evaluate f).
Proof.
  destruct flat_parts as (G & K & _). rewrite <- K.
  eapply paraxial_ext; [intros; symmetry; apply flat_modes|]. apply paraxial_scal.
  apply (paraxial_csum _ _ (N + 1) (fun n x y z => RtoC (flattened_coefficient N n) * amode (f_t f) n 0 (x ^ 2 + y ^ 2) z)%C). intros n _. apply paraxial_scal.
  eapply paraxial_ext; [|apply (amode_paraxial (f_t f) dir n 0 1 G); auto]. intros. unfold harm. cbn [cpow]. ring.
Qed.
Lemma flat_focus r theta : flattened_evaluate f (r * cos theta) (r * sin theta) zf = RtoC (flattened_shape N w0 r).
Proof.
  destruct flat_parts as (G & K & Z & W & _). rewrite flat_modes, polar_sq, <- Z.
  rewrite (csum_ext _ _ (fun n => RtoC (flattened_coefficient N n * (genlaguerre n 0 (2 * r ^ 2 / ((INR N + 1) * w0 ^ 2)) * exp (- (r ^ 2 / ((INR N + 1) * w0 ^ 2))))))).
  - rewrite csum_rsum, <- RtoC_mult. f_equal. unfold flattened_shape, laguerre.
    rewrite (rsum_ext (N + 1) _ (fun n => exp (- (r ^ 2 / ((INR N + 1) * w0 ^ 2))) * (flattened_coefficient N n * genlaguerre n 0 (2 * r ^ 2 / ((INR N + 1) * w0 ^ 2))))) by (intros; ring).
    rewrite rsum_scal. ring.
  - intros n _. rewrite amode_focus by (destruct G; lra). rewrite w_sq, <- RtoC_mult. reflexivity.
Qed.
Lemma flat_centre : flattened_shape N w0 0 = 1.
Proof.
  unfold flattened_shape, laguerre. pose proof (pos_INR N). replace (2 * 0 ^ 2 / ((INR N + 1) * w0 ^ 2)) with 0 by (unfold Rdiv; ring). replace (- (0 ^ 2 / ((INR N + 1) * w0 ^ 2))) with 0 by (unfold Rdiv; ring).
  rewrite (rsum_ext (N + 1) _ (flattened_coefficient N)) by (intros; rewrite laguerre_at_0; ring). rewrite flat_one, exp_0. field. lra.
Qed.
End Flat.

(** ** Far from focus *)
Lemma der_csum n (f : nat -> R -> C) (l : nat -> C) t : (forall k, der (f k) t (l k)) -> der (fun t => csum n (fun k => f k t)) t (csum n l).
Proof. intros H. induction n as [|n IH]; cbn [csum]; [apply der_const|apply der_plus; [exact IH|apply H]]. Qed.
Lemma der_continuous (f : R -> C) t l : der f t l -> continuous (fun t => Cmod (f t)) t.
Proof.
  intros [A B]. unfold Cmod.
  assert (CA : continuous (fun t => Re (f t)) t) by (apply (ex_derive_continuous (K := R_AbsRing) (V := R_NormedModule)); exists (Re l); exact A).
  assert (CB : continuous (fun t => Im (f t)) t) by (apply (ex_derive_continuous (K := R_AbsRing) (V := R_NormedModule)); exists (Im l); exact B).
  apply (continuous_comp (fun t => fst (f t) ^ 2 + snd (f t) ^ 2) sqrt).
  - apply (continuous_plus (K := R_AbsRing) (V := R_NormedModule) (fun t => fst (f t) ^ 2) (fun t => snd (f t) ^ 2)).
    + apply (continuous_ext (fun t => Re (f t) * (Re (f t) * 1))); [intros; reflexivity|]. apply (continuous_mult (K := R_AbsRing)); [exact CA|]. apply (continuous_mult (K := R_AbsRing)); [exact CA|apply continuous_const].
    + apply (continuous_ext (fun t => Im (f t) * (Im (f t) * 1))); [intros; reflexivity|]. apply (continuous_mult (K := R_AbsRing)); [exact CB|]. apply (continuous_mult (K := R_AbsRing)); [exact CB|apply continuous_const].
  - apply continuous_sqrt.
Qed.
(** The profile as a function of eps = 1/tau, up to a phase and a factor |D|. *)
Definition far_ratio (eps : R) : C := ((RtoC eps - Ci) * / (RtoC eps + Ci))%C.
Definition far_arg (X eps : R) : R := 2 * X / (1 + eps ^ 2).
Definition far_sum (N : nat) (X eps : R) : C := csum (N + 1) (fun n => RtoC (flattened_coefficient N n) * (cpow (far_ratio eps) n * RtoC (genlaguerre n 0 (far_arg X eps))))%C.
Lemma eps_neq eps : (RtoC eps + Ci)%C <> RtoC 0.
Proof. intros E. apply (f_equal Im) in E. cbn in E. lra. Qed.
Lemma far_ratio_0 : far_ratio 0 = RtoC (-1).
Proof. unfold far_ratio. assert (N : Ci <> RtoC 0) by (intros E; injection E; lra). replace (RtoC 0 + Ci)%C with Ci by ring. transitivity (- (Ci * / Ci))%C; [ring|]. rewrite Cinv_r by exact N. rewrite <- RtoC_opp. f_equal. Qed.
Lemma far_sum_0 N X : far_sum N X 0 = RtoC (rsum (N + 1) (fun n => X ^ n / factR n)).
Proof.
  unfold far_sum. rewrite far_ratio_0. rewrite <- flat_far, <- csum_rsum. apply csum_ext. intros n _. rewrite cpow_R. unfold far_arg.
  replace (2 * X / (1 + 0 ^ 2)) with (2 * X) by field. rewrite <- !RtoC_mult. reflexivity.
Qed.
Definition far_ratio1 : C := (1 * / (RtoC 0 + Ci) + (RtoC 0 - Ci) * - (1 / ((RtoC 0 + Ci) * (RtoC 0 + Ci))))%C.
Lemma der_far_ratio : der far_ratio 0 far_ratio1.
Proof.
  unfold far_ratio, far_ratio1. apply (der_mult (fun eps : R => RtoC eps - Ci)%C (fun eps : R => / (RtoC eps + Ci))%C); [|apply (der_inv (fun eps : R => RtoC eps + Ci)%C); [|apply eps_neq]].
  - eapply (der_ext (fun eps : R => - Ci + 1 * RtoC eps)%C); [intros; ring|apply der_affine].
  - eapply (der_ext (fun eps : R => Ci + 1 * RtoC eps)%C); [intros; ring|apply der_affine].
Qed.
Lemma far_continuous N X : continuous (fun eps => Cmod (far_sum N X eps)) 0.
Proof.
  eapply der_continuous. unfold far_sum.
  apply (der_csum (N + 1) (fun n eps => RtoC (flattened_coefficient N n) * (cpow (far_ratio eps) n * RtoC (genlaguerre n 0 (far_arg X eps))))%C
    (fun n => RtoC (flattened_coefficient N n) * ((RtoC (INR n) * cpow (far_ratio 0) (pred n) * far_ratio1) * RtoC (genlaguerre n 0 (far_arg X 0)) + cpow (far_ratio 0) n * RtoC (0 * lag1 n 0 (far_arg X 0))))%C).
  intros n. apply der_scal, (der_mult (fun eps => cpow (far_ratio eps) n) (fun eps => RtoC (genlaguerre n 0 (far_arg X eps)))).
  - apply der_cpow, der_far_ratio.
  - apply der_real. apply (dR_comp (genlaguerre n 0) (far_arg X)); [apply lag_d1|]. unfold far_arg. auto_derive; [nra|]. field.
Qed.

Lemma lim_eps kap zf (s : Rbar) : kap <> 0 -> s = p_infty \/ s = m_infty -> is_lim (fun z => / (kap * (z - zf))) s 0.
Proof.
  intros Hk Hs. apply is_lim_spec. intros eps. assert (K : 0 < Rabs kap) by (apply Rabs_pos_lt; exact Hk). pose proof (cond_pos eps) as E.
  assert (B : forall z, / (Rabs kap * eps) < Rabs (z - zf) -> Rabs (/ (kap * (z - zf)) - 0) < eps).
  { intros z Hz. assert (P : 0 < / (Rabs kap * eps)) by (apply Rinv_0_lt_compat, Rmult_lt_0_compat; assumption).
    assert (Q : 0 < Rabs (kap * (z - zf))) by (rewrite Rabs_mult; apply Rmult_lt_0_compat; lra).
    rewrite Rminus_0_r, Rabs_inv. apply (Rmult_lt_reg_l (Rabs (kap * (z - zf)))); [exact Q|]. rewrite Rinv_r by lra. rewrite Rabs_mult.
    apply (Rmult_lt_compat_l (Rabs kap * eps)) in Hz; [|apply Rmult_lt_0_compat; assumption]. rewrite Rinv_r in Hz by (apply Rgt_not_eq, Rmult_lt_0_compat; assumption). lra. }
  destruct Hs as [-> | ->].
  - exists (zf + / (Rabs kap * eps)). intros z Hz. apply B. rewrite (Rabs_right (z - zf)) by (assert (0 < / (Rabs kap * eps)) by (apply Rinv_0_lt_compat, Rmult_lt_0_compat; assumption); lra). lra.
  - exists (zf - / (Rabs kap * eps)). intros z Hz. apply B. rewrite (Rabs_left (z - zf)) by (assert (0 < / (Rabs kap * eps)) by (apply Rinv_0_lt_compat, Rmult_lt_0_compat; assumption); lra). lra.
Qed.

Section Far.
Context (w0 zf lambda0 : R) (N : nat) (dir : Z) (f : flattened).
Hypothesis w0_pos : 0 < w0.
Hypothesis lambda0_pos : 0 < lambda0.
Hypothesis Hf : flattened_init w0 N zf lambda0 dir = Ok f.
Local Notation kap := (kap_of (f_t f)).
Lemma kap_neq : kap <> 0.
Proof.
  destruct (flat_parts w0 zf lambda0 N dir f w0_pos lambda0_pos Hf) as ((G1 & G2 & G3) & _). unfold kap_of. intros E. rewrite E, Rmult_0_r in G2.
  assert (0 < 2 / t_w0 (f_t f) ^ 2) by (apply Rdiv_lt_0_compat; [lra|apply pow_lt; exact G1]). lra.
Qed.
(** Exactly, at any distance from the focus. *)
Definition far_X (s : R) : R := s ^ 2 / (kap ^ 2 * t_w0 (f_t f) ^ 2).
Lemma far_exact s theta z : z <> zf ->
  Cmod (flattened_evaluate f (s * (z - zf) * cos theta) (s * (z - zf) * sin theta) z) =
  / (INR N + 1) * (/ Cmod (Dz kap zf z) * (exp (- (far_arg (far_X s) (/ (kap * (z - zf))) / 2)) * Cmod (far_sum N (far_X s) (/ (kap * (z - zf)))))).
Proof.
  intros Hz. destruct (flat_parts w0 zf lambda0 N dir f w0_pos lambda0_pos Hf) as ((G1 & G2 & G3) & K & Z & W & _).
  rewrite (flat_modes w0 zf lambda0 N dir f) by assumption. rewrite polar_sq. unfold amode. rewrite Z. pose proof kap_neq as NK.
  set (k := kap) in *. set (eps := / (k * (z - zf))). pose proof (Dz_neq k zf z) as ND. pose proof (Nz_pos k zf z) as PN.
  assert (NT : k * (z - zf) <> 0) by (apply Rmult_integral_contrapositive; split; lra).
  assert (V : forall a, a <> 0 -> vz a k zf ((s * (z - zf)) ^ 2) z = 2 * (s ^ 2 / (k ^ 2 * a)) / (1 + eps ^ 2)).
  { intros a Ha. unfold vz, Nz, tau, eps. field. repeat split; try assumption; try lra; nra. }
  assert (Na : t_w0 (f_t f) ^ 2 <> 0) by (apply pow_nonzero; lra).
  assert (BD : forall n, (cpow (/ Dz k zf z) (S (0 + n)) * cpow (Bz k zf z) n)%C = (/ Dz k zf z * cpow (far_ratio eps) n)%C).
  { intros n. cbn [Nat.add]. assert (F : far_ratio eps = (/ Dz k zf z * Bz k zf z * RtoC (-1) * RtoC (-1))%C).
    { unfold far_ratio. pose proof (eps_neq eps) as NE. assert (R1 : (Dz k zf z = RtoC (k * (z - zf)) * Ci * (1 - Ci * RtoC eps))%C).
      { unfold Dz, tau. transitivity (RtoC (k * (z - zf)) * Ci - (Ci * Ci) * RtoC (k * (z - zf) * eps))%C; [|rewrite (RtoC_mult (k * (z - zf)) eps); ring]. unfold eps. rewrite Rinv_r by exact NT. rewrite Ci2. ring. }
      assert (R2 : (Bz k zf z = - (RtoC (k * (z - zf)) * Ci) * (1 + Ci * RtoC eps))%C).
      { unfold Bz, tau. transitivity (- (RtoC (k * (z - zf)) * Ci) - (Ci * Ci) * RtoC (k * (z - zf) * eps))%C; [|rewrite (RtoC_mult (k * (z - zf)) eps); ring]. unfold eps. rewrite Rinv_r by exact NT. rewrite Ci2. ring. }
      assert (NI : Ci <> RtoC 0) by (intros E; injection E; lra). assert (NR : RtoC (k * (z - zf)) <> RtoC 0) by (apply RtoC_neq; exact NT).
      assert (A1 : (RtoC eps + Ci = Ci * (1 - Ci * RtoC eps))%C) by (transitivity (Ci - Ci * Ci * RtoC eps)%C; [rewrite Ci2; ring|ring]).
      assert (A2 : (RtoC eps - Ci = - Ci * (1 + Ci * RtoC eps))%C) by (transitivity (- Ci - Ci * Ci * RtoC eps)%C; [rewrite Ci2; ring|ring]).
      assert (N1 : (1 - Ci * RtoC eps)%C <> RtoC 0) by (intros E; apply NE; rewrite A1, E; ring).
      rewrite R2, R1, A1, A2. rewrite <- (RtoC_opp 1) || idtac. replace (RtoC (-1)) with (- RtoC 1)%C by (rewrite <- RtoC_opp; f_equal). field. repeat split; assumption. }
    rewrite F. replace (RtoC (-1)) with (- RtoC 1)%C by (rewrite <- RtoC_opp; f_equal).
    replace (/ Dz k zf z * Bz k zf z * - RtoC 1 * - RtoC 1)%C with (/ Dz k zf z * Bz k zf z)%C by ring. rewrite cpow_mult. cbn [cpow]. ring. }
  rewrite (csum_ext _ _ (fun n => Cexp (- RtoC ((s * (z - zf)) ^ 2 / t_w0 (f_t f) ^ 2) * / Dz k zf z) * / Dz k zf z * (RtoC (flattened_coefficient N n) * (cpow (far_ratio eps) n * RtoC (genlaguerre n 0 (far_arg (far_X s) eps)))))%C).
  - rewrite csum_scal. fold (far_sum N (far_X s) eps). rewrite !Cmod_mult, Cmod_R, Cmod_Cexp, Cmod_inv by exact ND. pose proof (pos_INR N).
    rewrite Rabs_right by (apply Rle_ge; left; apply Rinv_0_lt_compat; lra). f_equal.
    replace (Re (- RtoC ((s * (z - zf)) ^ 2 / t_w0 (f_t f) ^ 2) * / Dz k zf z)%C) with (- (far_arg (far_X s) eps / 2)); [ring|].
    unfold far_arg, far_X. fold k. rewrite <- (V (t_w0 (f_t f) ^ 2) Na). unfold vz.
    assert (RD : Re (/ Dz k zf z)%C = / Nz k zf z). { unfold Dz, Nz. unfold Re. cbn. field. repeat split; nra. }
    transitivity (- ((s * (z - zf)) ^ 2 / t_w0 (f_t f) ^ 2) * Re (/ Dz k zf z)%C); [rewrite RD; field; split; lra|]. unfold Re, Cmult, Copp, RtoC. cbn [fst snd]. ring.
  - intros n _. unfold mode. rewrite (V (t_w0 (f_t f) ^ 2) Na). change (2 * (s ^ 2 / (k ^ 2 * t_w0 (f_t f) ^ 2)) / (1 + eps ^ 2)) with (far_arg (far_X s) eps). rewrite BD. ring.
Qed.
Lemma flat_far_lim s theta (e : Rbar) : e = p_infty \/ e = m_infty ->
  is_lim (fun z => Cmod (flattened_evaluate f (s * (z - zf) * cos theta) (s * (z - zf) * sin theta) z) / Cmod (flattened_evaluate f 0 0 z)) e (flattened_far_shape N (far_X s)).
Proof.
  intros He. pose proof (pos_INR N) as PN.
  set (g := fun X eps => exp (- (far_arg X eps / 2)) * Cmod (far_sum N X eps)).
  assert (g0 : forall X, g X 0 = exp (- X) * Rabs (rsum (N + 1) (fun n => X ^ n / factR n))).
  { intros X. unfold g. rewrite far_sum_0, Cmod_R. f_equal. f_equal. unfold far_arg. field. }
  assert (gc : forall X, continuous (g X) 0).
  { intros X. unfold g. apply (continuous_mult (K := R_AbsRing) (fun eps => exp (- (far_arg X eps / 2)))); [|apply far_continuous].
    apply (ex_derive_continuous (K := R_AbsRing) (V := R_NormedModule)). unfold far_arg. auto_derive. nra. }
  assert (X0 : far_X 0 = 0) by (unfold far_X, Rdiv; ring).
  assert (P : forall X, 0 <= X -> rsum (N + 1) (fun n => X ^ n / factR n) > 0).
  { intros X HX. replace (N + 1)%nat with (S N) by lia. clear -HX. induction N as [|n IH].
    - cbn. unfold factR. cbn. lra.
    - cbn [rsum] in *. assert (0 <= X ^ S n / factR (S n)) by (apply Rdiv_le_0_compat; [apply pow_le; exact HX|apply factR_pos]). lra. }
  assert (XP : 0 <= far_X s).
  { unfold far_X. apply Rdiv_le_0_compat; [nra|]. pose proof kap_neq. destruct (flat_parts w0 zf lambda0 N dir f w0_pos lambda0_pos Hf) as ((G1 & _) & _). apply Rmult_lt_0_compat; [|apply pow_lt; exact G1]. nra. }
  replace (flattened_far_shape N (far_X s)) with (g (far_X s) 0 / g 0 0).
  2:{ rewrite !g0. unfold flattened_far_shape. rewrite !Rabs_right by (left; apply P; lra).
      replace (rsum (N + 1) (fun n => 0 ^ n / factR n)) with 1. { rewrite Ropp_0, exp_0. field. }
      replace (N + 1)%nat with (S N) by lia. rewrite rsum_first. rewrite (rsum_ext N _ (fun _ => 0)) by (intros; cbn [pow]; unfold Rdiv; ring). rewrite rsum_zero. unfold factR. cbn. field. }
  apply (is_lim_ext_loc (fun z => (fun eps => g (far_X s) eps / g 0 eps) (/ (kap * (z - zf))))).
  { assert (Q : forall z, z <> zf -> g (far_X s) (/ (kap * (z - zf))) / g 0 (/ (kap * (z - zf))) = Cmod (flattened_evaluate f (s * (z - zf) * cos theta) (s * (z - zf) * sin theta) z) / Cmod (flattened_evaluate f 0 0 z)).
    { intros z Hz. rewrite far_exact by exact Hz. pose proof (far_exact 0 0 z Hz) as F. replace (0 * (z - zf) * cos 0) with 0 in F by ring. replace (0 * (z - zf) * sin 0) with 0 in F by ring. rewrite F, X0.
      unfold g. pose proof (Cmod_D_pos kap zf z) as PD. set (d := Cmod (Dz _ _ _)) in *. set (a := Cmod (far_sum N 0 _)). set (b := Cmod (far_sum N (far_X s) _)). set (u := exp _). set (v := exp (- (far_arg 0 _ / 2))).
      destruct (Req_dec (v * a) 0) as [Z|Z].
      - rewrite Z. unfold Rdiv. rewrite Rmult_0_r, Rmult_0_r, Rinv_0, !Rmult_0_r. reflexivity.
      - field. repeat split; try lra. intros E; apply Z; rewrite E; ring. intros E; apply Z; rewrite E; ring. }
    destruct He as [-> | ->]; [exists zf; intros z Hz; apply Q; lra|exists zf; intros z Hz; apply Q; lra]. }
  unfold is_lim. apply (filterlim_comp R R R (fun z => / (kap * (z - zf))) (fun eps => g (far_X s) eps / g 0 eps) (Rbar_locally' e) (locally 0) (locally (g (far_X s) 0 / g 0 0))).
  { exact (lim_eps kap zf e kap_neq He). }
  change (continuous (fun eps => g (far_X s) eps / g 0 eps) 0).
  apply (continuous_mult (K := R_AbsRing) (g (far_X s)) (fun eps => / g 0 eps)); [apply gc|].
  apply (continuous_comp (g 0) Rinv); [apply gc|]. apply continuous_Rinv.
  rewrite g0. apply Rmult_integral_contrapositive. split; [pose proof (exp_pos (- 0)); lra|]. apply Rabs_no_R0. pose proof (P 0 (Rle_refl 0)). lra.
Qed.
Lemma far_X_doc s : far_X s = (INR N + 1) * s ^ 2 / (lambda0 / (PI * w0)) ^ 2.
Proof.
  destruct (flat_parts w0 zf lambda0 N dir f w0_pos lambda0_pos Hf) as ((G1 & G2 & G3) & K & Z & W & _). pose proof (w_sq w0 zf lambda0 N dir f w0_pos lambda0_pos Hf) as WS.
  pose proof kap_neq as NK. unfold far_X. fold (kap_of (f_t f)) in G2. rewrite K in G2. rewrite WS in *. pose proof PI_RGT_0. pose proof (pos_INR N).
  assert (D2 : t_dir (f_t f) * t_dir (f_t f) = 1).
  { unfold flattened_init, transverse_init in Hf. destruct ((dir =? -1) || (dir =? 1))%Z eqn:D; [|discriminate]. rewrite G3.
    apply Bool.orb_true_iff in D. destruct D as [D|D]; apply Z.eqb_eq in D; rewrite D; lra. }
  assert (K2 : (2 * PI / lambda0) ^ 2 * kap ^ 2 = (2 / ((INR N + 1) * w0 ^ 2)) ^ 2).
  { rewrite <- G2. transitivity ((2 * PI / lambda0) ^ 2 * (t_dir (f_t f) * t_dir (f_t f)) * kap ^ 2); [rewrite D2; ring|ring]. }
  assert (K3 : kap ^ 2 = (2 / ((INR N + 1) * w0 ^ 2)) ^ 2 / (2 * PI / lambda0) ^ 2) by (rewrite <- K2; field; lra).
  rewrite K3. field. repeat split; lra.
Qed.
End Far.
