(** The laser profiles of the code, as combinations of modes (C63). *)
From Verif Require Import Base Fourier_Lib Psatd_Model Psatd_Spec Psatd_Proofs Maxwell_Spec Maxwell_Proofs Laser_Model Laser_Spec Laser_Calc Laser_Laguerre Laser_Paraxial.
From Coq Require Import Reals Lra Lia.
From Coquelicot Require Import Coquelicot.
Open Scope C_scope.

Lemma cis_cpow x n : cpow (cis x) n = cis (INR n * x).
Proof. induction n as [|n IH]; cbn [cpow]; [rewrite Rmult_0_l, cis_0; reflexivity|]. rewrite IH, S_INR, <- cis_add. f_equal. ring. Qed.
Lemma cis_opp_inv x : cis (- x) = / cis x.
Proof. assert (E : cis (- x) * cis x = 1) by (rewrite <- cis_add, Rplus_opp_l; apply cis_0). pose proof (cis_nonzero x) as N. transitivity (cis (- x) * cis x * / cis x); [field; exact N|]. rewrite E. ring. Qed.
Lemma Cexp_minus a b : Cexp (a - b) = Cexp a * Cexp (- b).
Proof. unfold Cminus. apply Cexp_add. Qed.

(** ** The attributes *)
Definition good (t : transverse) (dir : Z) : Prop :=
  (0 < t_w0 t)%R /\ (t_k0 t * t_dir t * (t_dir t * t_inv_zr t) = 2 / t_w0 t ^ 2)%R /\ t_dir t = IZR dir.
Lemma transverse_good w zf lambda0 dir t : (0 < w)%R -> (0 < lambda0)%R -> transverse_init w zf lambda0 dir = Ok t ->
  good t dir /\ t_k0 t = (2 * PI / lambda0)%R /\ t_zf t = zf /\ t_w0 t = w.
Proof.
  intros Hw Hl. unfold transverse_init. destruct ((dir =? -1) || (dir =? 1))%Z eqn:D; [|discriminate]. intros H. injection H as <-. cbn.
  assert (D2 : (IZR dir * IZR dir = 1)%R).
  { apply Bool.orb_true_iff in D. destruct D as [D|D]; apply Z.eqb_eq in D; rewrite D; lra. }
  repeat split; cbn; auto. pose proof PI_RGT_0.
  replace (2 * PI / lambda0 * IZR dir * (IZR dir * (1 / (0.5 * (2 * PI / lambda0) * (w * (w * 1))))))%R with ((IZR dir * IZR dir) * (2 * PI / lambda0 * (1 / ((1 / 2) * (2 * PI / lambda0) * (w * (w * 1))))))%R.
  - rewrite D2. field. repeat split; lra.
  - replace 0.5%R with (1 / 2)%R by lra. field. repeat split; lra.
Qed.
Definition kap_of (t : transverse) : R := (t_dir t * t_inv_zr t)%R.
Lemma diffract_D t z : diffract_factor t z = Dz (kap_of t) (t_zf t) z.
Proof. unfold diffract_factor, Dz, tau, kap_of. rewrite !RtoC_mult. ring. Qed.
Lemma Cmod_D kap zf z : (Cmod (Dz kap zf z) ^ 2 = Nz kap zf z)%R.
Proof. rewrite Cmod_sq. unfold Dz, Nz, Re, Im. cbn. ring. Qed.
Lemma Cmod_D_pos kap zf z : (0 < Cmod (Dz kap zf z))%R.
Proof. apply Cmod_gt_0. apply Dz_neq. Qed.

(** The Gouy phase. *)
Lemma gouy kap zf z p m : cis (- ((2 * INR p + INR m) * angle (Dz kap zf z))) = cpow (Bz kap zf z) p * cpow (/ Dz kap zf z) p * (cpow (/ Dz kap zf z) m * cpow (Cmod (Dz kap zf z)) m).
Proof.
  set (D := Dz kap zf z). pose proof (Dz_neq kap zf z) as ND. fold D in ND. pose proof (Cmod_D_pos kap zf z) as PD. fold D in PD.
  pose proof (angle_spec D) as A. set (psi := angle D) in *. pose proof (cis_nonzero psi) as NC.
  assert (NM : RtoC (Cmod D) <> 0) by (apply RtoC_neq; lra).
  assert (E : cis (- psi) = Cmod D * / D) by (rewrite cis_opp_inv; rewrite A at 2; field; auto).
  assert (E2 : Cmod D * / D * (Cmod D * / D) = Bz kap zf z * / D).
  { pose proof (DB kap zf z) as F. fold D in F. pose proof (Cmod_D kap zf z) as G. fold D in G.
    transitivity (RtoC (Cmod D ^ 2) * (/ D * / D)); [rewrite <- Rsqr_pow2; unfold Rsqr; rewrite RtoC_mult; ring|]. rewrite G, <- F. field. exact ND. }
  replace (- ((2 * INR p + INR m) * psi))%R with (INR p * (- psi + - psi) + INR m * - psi)%R by ring.
  rewrite cis_add, <- !cis_cpow, cis_add, E, E2, !cpow_mult. ring.
Qed.

(** ** A mode, from the expressions of the code *)
Lemma scaled_radius t x y z : (0 < t_w0 t)%R ->
  sqrt (2 * (x ^ 2 + y ^ 2) / (t_w0 t * Cmod (diffract_factor t z)) ^ 2) = (sqrt 2 / t_w0 t * Cmod (x + Ci * y)%C / Cmod (diffract_factor t z))%R.
Proof.
  intros Hw. rewrite diffract_D. pose proof (Cmod_D_pos (kap_of t) (t_zf t) z) as P. set (c := Cmod (Dz _ _ _)) in *.
  assert (E : (x ^ 2 + y ^ 2 = Cmod (x + Ci * y)%C ^ 2)%R) by (rewrite Cmod_sq; unfold Re, Im; cbn; ring). rewrite E.
  replace (2 * Cmod (x + Ci * y)%C ^ 2 / (t_w0 t * c) ^ 2)%R with ((sqrt 2 / t_w0 t * Cmod (x + Ci * y)%C / c)²)%R.
  - apply sqrt_Rsqr. apply Rdiv_le_0_compat; [|exact P]. apply Rmult_le_pos; [|apply Cmod_ge_0]. apply Rdiv_le_0_compat; [apply sqrt_pos|exact Hw].
  - unfold Rsqr. replace (sqrt 2 / t_w0 t * Cmod (x + Ci * y)%C / c * (sqrt 2 / t_w0 t * Cmod (x + Ci * y)%C / c))%R with ((sqrt 2 * sqrt 2) * Cmod (x + Ci * y)%C ^ 2 / (t_w0 t * c) ^ 2)%R by (field; lra).
    rewrite sqrt_sqrt by lra. reflexivity.
Qed.
Lemma harm_angle m s x y : s = 1%R \/ s = (-1)%R -> harm m s x y = cpow (Cmod (x + Ci * y)) m * cis (s * (INR m * angle (x + Ci * y))).
Proof.
  intros Hs. unfold harm. set (X := x + Ci * y). pose proof (angle_spec X) as A.
  assert (E : x + Ci * s * y = Cmod X * cis (s * angle X)).
  { destruct Hs as [-> | ->].
    - rewrite Rmult_1_l, <- A. unfold X. ring.
    - replace (-1 * angle X)%R with (- angle X)%R by ring. rewrite cis_neg. transitivity (Cconj X).
      + unfold X, Cconj, Ci, Cplus, Cmult, RtoC. cbn. f_equal; ring.
      + rewrite A at 1. unfold Cconj, Cmult, RtoC. cbn. f_equal; ring. }
  rewrite E, cpow_mult, cis_cpow. f_equal. f_equal. ring.
Qed.
Definition amode (t : transverse) (p m : nat) (r z : R) : C := mode (t_w0 t ^ 2) (kap_of t) (t_zf t) p m (genlaguerre p m) r z.
Lemma mode_code t p m x y z : (0 < t_w0 t)%R ->
  Cexp (- (RtoC (x ^ 2 + y ^ 2) / ((t_w0 t ^ 2)%R * diffract_factor t z))) * cis (- ((2 * INR p + INR m) * angle (diffract_factor t z))) / diffract_factor t z
    * (sqrt (2 * (x ^ 2 + y ^ 2) / (t_w0 t * Cmod (diffract_factor t z)) ^ 2) ^ m)%R * genlaguerre p m (2 * (x ^ 2 + y ^ 2) / (t_w0 t * Cmod (diffract_factor t z)) ^ 2) =
  ((sqrt 2 / t_w0 t) ^ m)%R * cpow (Cmod (x + Ci * y)) m * amode t p m (x ^ 2 + y ^ 2) z.
Proof.
  intros Hw. rewrite (scaled_radius t x y z Hw), diffract_D. pose proof (Cmod_D_pos (kap_of t) (t_zf t) z) as P. pose proof (Dz_neq (kap_of t) (t_zf t) z) as ND.
  rewrite gouy. unfold amode, mode.
  replace (2 * (x ^ 2 + y ^ 2) / (t_w0 t * Cmod (Dz (kap_of t) (t_zf t) z)) ^ 2)%R with (vz (t_w0 t ^ 2) (kap_of t) (t_zf t) (x ^ 2 + y ^ 2) z).
  2:{ unfold vz. rewrite <- Cmod_D. f_equal. f_equal. ring. }
  set (D := Dz (kap_of t) (t_zf t) z) in *. set (B := Bz _ _ _). set (X := Cmod (x + Ci * y)).
  replace (- (RtoC (x ^ 2 + y ^ 2) / ((t_w0 t ^ 2)%R * D))) with (- ((x ^ 2 + y ^ 2) / t_w0 t ^ 2)%R * / D).
  2:{ unfold Rdiv. rewrite RtoC_mult, RtoC_inv by nra. field. split; [exact ND|apply RtoC_neq; nra]. }
  replace ((sqrt 2 / t_w0 t * X / Cmod D) ^ m)%R with ((sqrt 2 / t_w0 t) ^ m * X ^ m * (/ Cmod D) ^ m)%R by (rewrite <- !Rpow_mult_distr; reflexivity).
  assert (NM : RtoC (Cmod D) <> 0) by (apply RtoC_neq; lra).
  assert (K : cpow (Cmod D) m * RtoC ((/ Cmod D) ^ m) = 1).
  { rewrite cpow_R, <- RtoC_mult, <- Rpow_mult_distr, Rinv_r, pow1 by lra. reflexivity. }
  rewrite !RtoC_mult, <- (cpow_R X). cbn [cpow]. rewrite cpow_add.
  match goal with |- ?l = ?r => transitivity (r * (cpow (Cmod D) m * RtoC ((/ Cmod D) ^ m))); [unfold Cdiv; ring|rewrite K; ring] end.
Qed.

(** ** The transverse profiles *)
Lemma amode_paraxial t dir p m s : good t dir -> (s = 1%R \/ s = (-1)%R) -> paraxial (t_k0 t) (IZR dir) (fun x y z => harm m s x y * amode t p m (x ^ 2 + y ^ 2)%R z).
Proof.
  intros (Hw & Hr & Hd) Hs. rewrite <- Hd. unfold amode.
  apply (mode_paraxial (t_w0 t ^ 2) (t_k0 t) (t_dir t) (kap_of t) (t_zf t) p m (genlaguerre p m) (lag1 p m) (lag2 p m)).
  - nra.
  - exact Hr.
  - apply lag_d1.
  - apply lag_d2.
  - apply laguerre_ode.
  - destruct Hs as [-> | ->]; ring.
Qed.
Lemma amode_focus t p m r : t_w0 t <> 0%R -> amode t p m r (t_zf t) = (genlaguerre p m (2 * r / t_w0 t ^ 2) * exp (- (r / t_w0 t ^ 2)))%R.
Proof.
  intros Hw. unfold amode, mode. assert (T : tau (kap_of t) (t_zf t) (t_zf t) = 0%R) by (unfold tau; ring).
  assert (ED : Dz (kap_of t) (t_zf t) (t_zf t) = 1) by (unfold Dz; rewrite T; ring).
  assert (EB : Bz (kap_of t) (t_zf t) (t_zf t) = 1) by (unfold Bz; rewrite T; ring).
  assert (EN : Nz (kap_of t) (t_zf t) (t_zf t) = 1%R) by (unfold Nz; rewrite T; ring).
  assert (I1 : / (1 : C) = 1) by (field; apply RtoC_neq; lra).
  unfold vz. rewrite ED, EB, EN, I1, !cpow_R, !pow1, Rmult_1_r. replace (- RtoC (r / t_w0 t ^ 2) * 1) with (RtoC (- (r / t_w0 t ^ 2))) by (rewrite RtoC_opp; ring).
  rewrite Cexp_real, RtoC_mult. ring.
Qed.
Lemma harm_polar m s r theta : s = 1%R \/ s = (-1)%R -> harm m s (r * cos theta) (r * sin theta) = RtoC (r ^ m) * cis (s * (INR m * theta)).
Proof.
  intros Hs. unfold harm. replace (RtoC (r * cos theta) + Ci * s * RtoC (r * sin theta)) with (r * cis (s * theta)).
  - rewrite cpow_mult, cpow_R, cis_cpow. f_equal. f_equal. ring.
  - destruct Hs as [-> | ->].
    + rewrite Rmult_1_l. unfold cis, Ci, Cplus, Cmult, RtoC. cbn. f_equal; ring.
    + replace (-1 * theta)%R with (- theta)%R by ring. unfold cis. rewrite cos_neg, sin_neg. unfold Ci, Cplus, Cmult, RtoC. cbn. f_equal; ring.
Qed.
Lemma polar_sq r theta : ((r * cos theta) ^ 2 + (r * sin theta) ^ 2 = r ^ 2)%R.
Proof. pose proof (sin2_cos2 theta) as E. unfold Rsqr in E. transitivity (r ^ 2 * (sin theta * sin theta + cos theta * cos theta))%R; [ring|]. rewrite E. ring. Qed.

Lemma donut_form t p m amp x y z : (0 < t_w0 t)%R ->
  donut_evaluate {| d_t := t; d_p := p; d_m := m; d_scaled_amplitude := amp |} x y z =
  (amp * (sqrt 2 / t_w0 t) ^ Z.abs_nat m)%R * (harm (Z.abs_nat m) (if (0 <=? m)%Z then -1 else 1) x y * amode t p (Z.abs_nat m) (x ^ 2 + y ^ 2) z).
Proof.
  intros Hw. unfold donut_evaluate. cbn [d_t d_p d_m d_scaled_amplitude]. cbv zeta. set (am := Z.abs_nat m).
  pose proof (mode_code t p am x y z Hw) as M.
  set (s := (if (0 <=? m)%Z then -1 else 1)%R).
  assert (Hs : s = 1%R \/ s = (-1)%R) by (unfold s; destruct (0 <=? m)%Z; auto).
  assert (Es : (- (IZR m * angle (x + Ci * y)%C))%R = (s * (INR am * angle (x + Ci * y)%C))%R).
  { unfold s, am. rewrite INR_IZR_INZ, Zabs2Nat.id_abs. destruct (Z.leb_spec 0 m); [rewrite Z.abs_eq by lia; ring|rewrite Z.abs_neq, opp_IZR by lia; ring]. }
  rewrite (harm_angle am s x y Hs), <- Es.
  rewrite (Cexp_minus _ (Ci * _)), (Cexp_minus _ (_ / _)).
  replace (- Ci * RtoC (IZR m * angle (x + Ci * y))) with (Ci * RtoC (- (IZR m * angle (x + Ci * y)))) by (rewrite RtoC_opp; ring). rewrite Cexp_imag.
  match goal with |- context [Cexp (- (Ci * RtoC ?a))] => replace (- (Ci * RtoC a)) with (Ci * RtoC (- a)) by (rewrite RtoC_opp; ring) end. rewrite Cexp_imag.
  match goal with |- _ = ?r => transitivity (amp * cis (- (IZR m * angle (x + Ci * y))) * (((sqrt 2 / t_w0 t) ^ am)%R * cpow (Cmod (x + Ci * y)) am * amode t p am (x ^ 2 + y ^ 2) z)); [rewrite <- M; unfold Cdiv; ring|rewrite RtoC_mult; ring] end.
Qed.
Lemma laguerre_form t p m amp theta0 x y z : (0 < t_w0 t)%R ->
  laguerre_evaluate {| l_t := t; l_p := p; l_m := m; l_scaled_amplitude := amp; l_theta0 := theta0 |} x y z =
  (amp * (sqrt 2 / t_w0 t) ^ m / 2)%R * cis (- (INR m * theta0)) * (harm m 1 x y * amode t p m (x ^ 2 + y ^ 2) z) +
  (amp * (sqrt 2 / t_w0 t) ^ m / 2)%R * cis (INR m * theta0) * (harm m (-1) x y * amode t p m (x ^ 2 + y ^ 2) z).
Proof.
  intros Hw. unfold laguerre_evaluate. cbn [l_t l_p l_m l_scaled_amplitude l_theta0]. cbv zeta.
  pose proof (mode_code t p m x y z Hw) as M.
  rewrite (harm_angle m 1 x y), (harm_angle m (-1) x y) by auto. set (th := angle (x + Ci * y)).
  rewrite (Cexp_minus _ (Ci * _)).
  match goal with |- context [Cexp (- (Ci * RtoC ?a))] => replace (- (Ci * RtoC a)) with (Ci * RtoC (- a)) by (rewrite RtoC_opp; ring) end. rewrite Cexp_imag.
  assert (CC : RtoC (cos (INR m * (th - theta0))) = (/ 2)%R * (cis (- (INR m * theta0)) * cis (1 * (INR m * th)) + cis (INR m * theta0) * cis (-1 * (INR m * th)))).
  { rewrite <- !cis_add. replace (- (INR m * theta0) + 1 * (INR m * th))%R with (INR m * (th - theta0))%R by ring.
    replace (INR m * theta0 + -1 * (INR m * th))%R with (- (INR m * (th - theta0)))%R by ring. unfold cis. rewrite cos_neg, sin_neg.
    unfold Cplus, Cmult, RtoC. cbn. f_equal; field. }
  rewrite CC. replace (- RtoC (x ^ 2 + y ^ 2) / ((t_w0 t ^ 2)%R * diffract_factor t z)) with (- (RtoC (x ^ 2 + y ^ 2) / ((t_w0 t ^ 2)%R * diffract_factor t z))) by (unfold Cdiv; ring).
  replace (amp * (sqrt 2 / t_w0 t) ^ m / 2)%R with (amp * (sqrt 2 / t_w0 t) ^ m * / 2)%R by reflexivity. rewrite (RtoC_mult _ (/ 2)), (RtoC_mult amp).
  match goal with |- _ = ?r => transitivity (amp * ((/ 2)%R * (cis (- (INR m * theta0)) * cis (1 * (INR m * th)) + cis (INR m * theta0) * cis (-1 * (INR m * th)))) * (((sqrt 2 / t_w0 t) ^ m)%R * cpow (Cmod (x + Ci * y)) m * amode t p m (x ^ 2 + y ^ 2) z)); [rewrite <- M; unfold Cdiv; ring|ring] end.
Qed.
Lemma gauss_form t x y z : (0 < t_w0 t)%R -> gauss_evaluate t x y z = amode t 0 0 (x ^ 2 + y ^ 2) z.
Proof.
  intros Hw. pose proof (mode_code t 0 0 x y z Hw) as M. unfold gauss_evaluate. cbv zeta. rewrite !pow_O in M; change (INR 0) with 0%R in M; cbn [cpow] in M.
  replace (- RtoC (x ^ 2 + y ^ 2) / ((t_w0 t ^ 2)%R * diffract_factor t z)) with (- (RtoC (x ^ 2 + y ^ 2) / ((t_w0 t ^ 2)%R * diffract_factor t z))) by (unfold Cdiv; ring).
  transitivity (1 * 1 * amode t 0 0 (x ^ 2 + y ^ 2) z); [rewrite <- M|ring].
  replace (- ((2 * 0 + 0) * angle (diffract_factor t z)))%R with 0%R by ring. rewrite cis_0.
  assert (E : forall v, genlaguerre 0 0 v = 1%R) by (intros; unfold genlaguerre, factR; cbn; field). rewrite E. unfold Cdiv. ring.
Qed.
Lemma flattened_form t N cn x y z : (0 < t_w0 t)%R ->
  flattened_evaluate {| f_t := t; f_N := N; f_cn := cn |} x y z = csum (N + 1) (fun n => cn n * amode t n 0 (x ^ 2 + y ^ 2) z).
Proof.
  intros Hw. unfold flattened_evaluate. cbn [f_t f_N f_cn]. cbv zeta.
  replace (- RtoC (x ^ 2 + y ^ 2) / ((t_w0 t ^ 2)%R * diffract_factor t z)) with (- (RtoC (x ^ 2 + y ^ 2) / ((t_w0 t ^ 2)%R * diffract_factor t z))) by (unfold Cdiv; ring).
  unfold Cdiv at 1. rewrite <- !csum_scal_r. apply csum_ext. intros n _. pose proof (mode_code t n 0 x y z Hw) as M. rewrite !pow_O in M; change (INR 0) with 0%R in M; cbn [cpow] in M.
  rewrite laguerre_rec_fst. replace (- (2 * Ci * INR n) * angle (diffract_factor t z)) with (Ci * RtoC (- ((2 * INR n + 0) * angle (diffract_factor t z)))).
  2:{ rewrite RtoC_opp, RtoC_mult, RtoC_plus, RtoC_mult. ring. }
  rewrite Cexp_imag. transitivity (cn n * (1 * 1 * amode t n 0 (x ^ 2 + y ^ 2) z)); [rewrite <- M; unfold Cdiv; ring|ring].
Qed.
