(** Resonances of the moving schemes (C33), and the sources of cross-deposition (C34). *)
From Verif Require Import Base Fourier_Lib Deposit_Model Deposit_Spec Hankel_Model Cross_Model Psatd_Sources
  Psatd_Model Psatd_Spec Psatd_Proofs Psatd_Vacuum.
From Coq Require Import Reals Lra Lia.
From Coquelicot Require Import Coquelicot.
Open Scope C_scope.

Lemma cis_1_small x : (x <> 0)%R -> (Rabs x < 2 * PI)%R -> cis x <> 1.
Proof.
  intros N B E. unfold cis, RtoC in E. injection E as E _. 
  assert (P : (cos (Rabs x) = 1)%R). { unfold Rabs. destruct (Rcase_abs x); [rewrite cos_neg|]; exact E. }
  pose proof (Rabs_pos_lt x N). replace (Rabs x) with (2 * (Rabs x / 2))%R in P by field. rewrite cos_2a_sin in P.
  assert (0 < sin (Rabs x / 2))%R by (apply sin_gt_0; lra). nra.
Qed.
Lemma not_resonant f kz dt : (0 < dt)%R -> (Rabs (kz * speed f) * dt < 2 * PI)%R -> ~ resonant f kz dt.
Proof.
  intros Hdt B [N E]. apply (cis_1_small (kz * speed f * dt)%R); auto.
  - apply Rmult_integral_contrapositive. split; [auto|lra].
  - rewrite Rabs_mult, (Rabs_right dt) by lra. exact B.
Qed.
(** On the grid: |kz| <= pi/dz. *)
Lemma kz_bound Nz dz i : (0 < dz)%R -> (0 <= i < Nz)%Z -> (Rabs (kz_true Nz dz i) <= PI / dz)%R.
Proof.
  intros Hd Hi. unfold kz_true. set (j := if (2 * i <? Nz)%Z then i else (i - Nz)%Z).
  assert (Bj : (Z.abs (2 * j) <= Nz)%Z) by (unfold j; destruct (Z.ltb_spec (2 * i) Nz); lia).
  pose proof PI_RGT_0. assert (HN : (0 < IZR Nz)%R) by (apply IZR_lt; lia).
  replace (2 * PI * (IZR j / (IZR Nz * dz)))%R with (IZR (2 * j) / IZR Nz * (PI / dz))%R by (rewrite mult_IZR; field; lra).
  rewrite Rabs_mult. assert (0 < PI / dz)%R by (apply Rdiv_lt_0_compat; lra). rewrite (Rabs_right (PI / dz)) by lra.
  rewrite <- (Rmult_1_l (PI / dz)) at 2. apply Rmult_le_compat_r; [lra|].
  unfold Rdiv. rewrite Rabs_mult, <- abs_IZR, (Rabs_right (/ IZR Nz)); [|left; apply Rinv_0_lt_compat; auto].
  apply IZR_le in Bj. apply (Rmult_le_reg_r (IZR Nz)); auto. rewrite Rmult_assoc, Rinv_l by lra. lra.
Qed.
Lemma not_resonant_grid f Nz dz i dt : (0 < dt)%R -> (0 < dz)%R -> (0 <= i < Nz)%Z -> (Rabs (speed f) * dt < 2 * dz)%R ->
  ~ resonant f (kz_true Nz dz i) dt.
Proof.
  intros Hdt Hd Hi B. apply not_resonant; auto. rewrite Rabs_mult. pose proof (kz_bound Nz dz i Hd Hi) as K. pose proof PI_RGT_0.
  pose proof (Rabs_pos (speed f)).
  apply Rle_lt_trans with (PI / dz * Rabs (speed f) * dt)%R.
  - apply Rmult_le_compat_r; [lra|]. apply Rmult_le_compat_r; auto.
  - replace (PI / dz * Rabs (speed f) * dt)%R with (PI / dz * (Rabs (speed f) * dt))%R by ring.
    replace (2 * PI)%R with (PI / dz * (2 * dz))%R by (field; lra). apply Rmult_lt_compat_l; auto. apply Rdiv_lt_0_compat; lra.
Qed.

(** The resonant counterexample. *)
Section Res.
Context (c mu_0 epsilon_0 : R) (Hc : (0 < c)%R) (He : (0 < epsilon_0)%R).
Definition res_frame := Galilean (c / 2).
Definition res_dt := (4 * PI / c)%R.
Definition res_state : mode :=
  {| Ep := 0; Em := 0; Ez := 1 / (Ci * epsilon_0); Bp := 0; Bm := 0; Bz := 0; Jp := 0; Jm := 0; Jz := 0;
     rho_prev := 1; rho_next := 1; rho_next_z := 0; rho_next_xy := 0 |}.
Let ps := psatd_coeffs c mu_0 epsilon_0 (frame_V res_frame) (frame_gal res_frame) 1 (3 / 4) res_dt.
Lemma eC : RtoC epsilon_0 <> 0. Proof. apply RtoC_neq; lra. Qed.
Lemma res_gauss : gauss epsilon_0 1 (3 / 4) res_state.
Proof. unfold gauss, div, E_of, res_state; cbn [vp vm vz Ep Em Ez rho_prev]. field. split; [apply eC|apply Ci_neq]. Qed.
Lemma res_T2 : coef_T2 1 (c / 2) res_dt = 1.
Proof.
  unfold coef_T2. replace (1 * (c / 2) * res_dt)%R with (0 + 2 * PI * IZR 1)%R by (unfold res_dt; field; lra).
  rewrite cis_period. apply cis_0.
Qed.
Lemma res_conserves : conserves res_frame 1 res_dt (rho_prev res_state) (rho_next res_state) (div 1 (3 / 4) (J_of res_state)).
Proof.
  apply conserves_iff; [unfold res_dt; pose proof PI_RGT_0; apply Rdiv_lt_0_compat; lra|].
  assert (T : Teb res_frame 1 res_dt = 1) by (exact res_T2). rewrite T. unfold div, J_of, res_state; cbn [rho_prev rho_next Jp Jm Jz vp vm vz]. ring.
Qed.
Lemma res_omega : omega c 1 (3 / 4) = (5 / 4 * c)%R.
Proof.
  unfold omega. replace (1 ^ 2 + (3 / 4) ^ 2)%R with ((5 / 4) ^ 2)%R by field. rewrite sqrt_pow2 by lra. ring.
Qed.
Lemma five_pi : (5 / 4 * c * res_dt = PI + 2 * INR 2 * PI)%R.
Proof. unfold res_dt. simpl INR. field. lra. Qed.
Lemma res_C : coef_C c 1 (3 / 4) res_dt = (-1)%R.
Proof. unfold coef_C. rewrite res_omega, five_pi, cos_period. apply cos_PI. Qed.
Lemma res_S : coef_S_w c 1 (3 / 4) res_dt = 0%R.
Proof. unfold coef_S_w. destruct (Req_EM_T _ 0) as [E|E]; [rewrite res_omega in E; lra|]. rewrite res_omega, five_pi, sin_period, sin_PI. ring. Qed.
Lemma res_push : div 1 (3 / 4) (E_of (push c mu_0 epsilon_0 ps true 1 (3 / 4) res_state)) = RtoC (29 / 21) / epsilon_0.
Proof.
  unfold push, push_rho. change (E_of (set_rho ?a _ _ _ _)) with (E_of a). unfold push_eb_with. cbn [ps co_V psatd_coeffs frame_V res_frame].
  rewrite divE_com. rewrite res_gauss. unfold rho_diff_com. cbn [res_state rho_prev rho_next co_T_eb co_C co_rho_next co_rho_prev frame_gal].
  replace (div 1 (3 / 4) (J_of res_state)) with (RtoC 0) by (unfold div, J_of, res_state; cbn [vp vm vz Jp Jm Jz]; ring).
  set (X := (co_j ps * _ * _ * _ - _)). replace (X * 0) with (RtoC 0) by ring. clear X.
  change (co_T_eb ps) with (coef_T2 1 (c / 2) res_dt). change (co_C ps) with (RtoC (coef_C c 1 (3 / 4) res_dt)).
  change (co_rho_next ps) with (coef_rho_next c epsilon_0 (Some (c / 2)%R) true 1 (3 / 4) res_dt).
  change (co_rho_prev ps) with (coef_rho_prev c epsilon_0 (Some (c / 2)%R) true 1 (3 / 4) res_dt).
  unfold coef_rho_next, coef_rho_prev. rewrite res_T2, res_C.
  destruct (Req_EM_T (omega c 1 (3 / 4)) 0) as [E|_]; [rewrite res_omega in E; lra|].
  destruct (Req_EM_T (c / 2) 0) as [E|_]; [lra|]. unfold xi_2, xi_3. destruct (Req_EM_T 1 0) as [E|_]; [lra|].
  unfold coef_T_eb, inv_1_T2. rewrite res_T2, res_C, res_S. destruct (Ceq_dec 1 1) as [_|N]; [|tauto].
  unfold inv_w_kzV. rewrite res_omega. destruct (Req_EM_T _ 0) as [E|_]; [exfalso; nra|].
  set (W := RtoC (1 ^ 2 * (c / 2) ^ 2 * inv_w c 1 (3 / 4) ^ 2)).
  replace (1 / ((5 / 4 * c) ^ 2 - 1 ^ 2 * (c / 2) ^ 2))%R with (16 / 21 * / c ^ 2)%R by (field; split; [nra|lra]).
  assert (K : RtoC 1 * RtoC 1 + RtoC (3 / 4) * RtoC (3 / 4) = RtoC (25 / 16)) by (rewrite <- !RtoC_mult, <- RtoC_plus; f_equal; field).
  rewrite K. replace (c ^ 2 / epsilon_0)%R with (c ^ 2 * / epsilon_0)%R by reflexivity. assert (Nc2 : (c ^ 2 <> 0)%R) by (apply pow_nonzero; lra).
  rewrite !RtoC_mult, (RtoC_inv (c ^ 2)), (RtoC_inv epsilon_0) by (auto; lra). unfold Cdiv. 
  assert (Hc2 : RtoC (c ^ 2) <> 0) by (apply RtoC_neq; nra).
  transitivity ((RtoC (-1) + RtoC (25 / 16) * (RtoC (16 / 21)) * RtoC (1 - -1)) * / RtoC epsilon_0).
  2:{ f_equal. rewrite <- !RtoC_mult, <- RtoC_plus. f_equal. field. }
  replace (RtoC (1 - -1)) with (1 - RtoC (-1)) by (rewrite <- RtoC_minus; f_equal).
  field. split; [apply eC|split; [|exact Hc2]]. intros E; injection E; lra.
Qed.
Lemma res_not_gauss : ~ gauss epsilon_0 1 (3 / 4) (push c mu_0 epsilon_0 ps true 1 (3 / 4) res_state).
Proof.
  unfold gauss. rewrite res_push. change (rho_prev (push c mu_0 epsilon_0 ps true 1 (3 / 4) res_state)) with (RtoC 1).
  intros E. assert (F : RtoC (29 / 21) = 1).
  { replace (RtoC (29 / 21)) with (RtoC (29 / 21) / epsilon_0 * epsilon_0) by (field; apply eC). rewrite E. field. apply eC. }
  injection F. lra.
Qed.
End Res.

(** The four charge densities of an iteration. *)
Definition cross_sources (tr : transformer) (fz fr : Z -> R) (c v : R) (mv : bool) (dt : R) (m : nat) (nthreads : Z)
  (s0 : pic) (iz ir : Z) (s : mode) : Prop :=
  rho_prev s = spect_rho tr fz fr c m nthreads s0 iz ir /\
  rho_next_xy s = spect_rho tr fz fr c m nthreads (at_xy c v mv dt s0) iz ir /\
  rho_next_z s = spect_rho tr fz fr c m nthreads (at_z c v mv dt s0) iz ir /\
  rho_next s = spect_rho tr fz fr c m nthreads (at_next c v mv dt s0) iz ir.

Lemma cross_sources_ok jn zeros rmax inv pinv Nz Nr (m : nat) fz fr c v mv dt n s0 kz iz ir s :
  let tr := make_transformer jn zeros rmax inv pinv Nz Nr (Z.of_nat m) in
  (0 < rmax)%R -> (forall m i, (0 < zeros m i)%R) -> (0 <= iz < Nz)%Z -> (0 <= ir < Nr)%Z -> (kz = 0%R -> iz = 0%Z \/ fz iz = 0%R) ->
  grid_ok (pic_g s0) -> Nz = g_Nz (pic_g s0) -> Nr = g_Nr (pic_g s0) ->
  deposit_ok n s0 -> deposit_ok n (at_xy c v mv dt s0) -> deposit_ok n (at_z c v mv dt s0) -> deposit_ok n (at_next c v mv dt s0) ->
  cross_sources tr fz fr c v mv dt m n s0 iz ir s -> cross_ok kz (kr_of zeros rmax (Z.of_nat m) ir) s.
Proof.
  intros tr Hr Hz Hiz Hir Hk Hg HNz HNr D0 D1 D2 D3 (E0 & E1 & E2 & E3). split.
  - intros K. apply Hk in K as [->|Hf].
    2:{ rewrite E0, E1, E2, E3. unfold spect_rho. rewrite Hf, Rmult_0_l. split; ring. }
    rewrite E0, E1, E2, E3. split.
    + destruct (next_xy c v mv dt s0) as [S1 S2]. apply spect_rho_kz0; auto.
    + destruct (z_prev c v mv dt s0) as [S1 S2]. apply spect_rho_kz0; auto.
  - intros K. apply kr_zero in K as [Km ->]; auto; [|lia].
    assert (Hm : (m <> 0)%nat) by lia. rewrite E0, E1, E2, E3.
    repeat split; apply (spect_rho_kr0 tr (inv (Z.of_nat m)) (pinv (Z.of_nat m))); auto.
Qed.

(** C37, at the level of the loop. *)
Lemma divE_last (c mu_0 epsilon_0 : R) ps tr corr kz kr : epsilon_0 <> 0%R -> ~ (kz = 0%R /\ kr = 0%R) ->
  forall xs s, xs <> nil -> exists s', field_steps c mu_0 epsilon_0 ps CurlFree tr corr true kz kr xs s = Ok s' /\ gauss epsilon_0 kz kr s'.
Proof.
  intros He N. induction xs as [|x xs IH]; intros s H; [tauto|]. cbn [field_steps]. unfold field_step.
  destruct (Psatd_Vacuum.correct_divE_curlfree epsilon_0 kz kr
     (push c mu_0 epsilon_0 ps tr kz kr (if corr then correct_currents (co_dt ps) ps CurlFree kz kr (load_sources x s) else load_sources x s)) He N)
    as (s1 & E & G & _). rewrite E. cbn [bind]. destruct xs as [|x2 xs]; [exists s1; auto|]. apply IH. discriminate.
Qed.

Lemma steps_V0 c mu_0 epsilon_0 gal cc tr corr dv kz kr dt xs : forall s,
  field_steps c mu_0 epsilon_0 (psatd_coeffs c mu_0 epsilon_0 (Some 0%R) gal kz kr dt) cc tr corr dv kz kr xs s =
  field_steps c mu_0 epsilon_0 (psatd_coeffs c mu_0 epsilon_0 None false kz kr dt) cc tr corr dv kz kr xs s.
Proof.
  induction xs as [|x xs IH]; intros s; [reflexivity|]. cbn [field_steps].
  replace (field_step c mu_0 epsilon_0 (psatd_coeffs c mu_0 epsilon_0 (Some 0%R) gal kz kr dt) cc tr corr dv kz kr x s)
    with (field_step c mu_0 epsilon_0 (psatd_coeffs c mu_0 epsilon_0 None false kz kr dt) cc tr corr dv kz kr x s).
  - destruct (field_step _ _ _ _ _ _ _ _ _ _ _ _); cbn [bind]; [apply IH|reflexivity].
  - unfold field_step. cbn [co_dt psatd_coeffs]. rewrite push_V0, correct_V0. reflexivity.
Qed.
