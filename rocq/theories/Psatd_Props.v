(** C32-C37: the spectral field solver. *)
From Verif Require Import Base Fourier_Lib Deposit_Model Deposit_Spec Hankel_Model Cross_Model Psatd_Sources
  Psatd_Model Psatd_Spec Psatd_Proofs Psatd_Vacuum Psatd_Extra.
From Coq Require Import Reals Lra Lia.
From Coquelicot Require Import Coquelicot.
Open Scope C_scope.

(** The speed of light and the vacuum constants. *)
Definition constants (c mu_0 epsilon_0 : R) : Prop := (0 < c /\ 0 < epsilon_0 /\ mu_0 * epsilon_0 * c ^ 2 = 1)%R.

(** ** C32. Any sources, any coefficients, any number of iterations, with or without the corrections. *)
Theorem C32_divB : forall c mu_0 epsilon_0 ps cc tr corr dv kz kr xs s s', div kz kr (B_of s) = 0 ->
  field_steps c mu_0 epsilon_0 ps cc tr corr dv kz kr xs s = Ok s' -> div kz kr (B_of s') = 0.
Proof. intros c mu_0 epsilon_0 ps cc tr corr dv kz kr xs s s'. apply divB_steps. Qed.
Print Assumptions C32_divB.

(** ** C33. *)
Theorem C33_standard : forall c mu_0 epsilon_0 cc tr kz kr dt xs s, constants c mu_0 epsilon_0 -> (0 < dt)%R ->
  gauss epsilon_0 kz kr s -> all_conserve Standard kz kr dt (rho_prev s) xs ->
  exists s', field_steps c mu_0 epsilon_0 (psatd_coeffs c mu_0 epsilon_0 None false kz kr dt) cc tr false false kz kr xs s = Ok s' /\
  gauss epsilon_0 kz kr s'.
Proof.
  intros c mu_0 epsilon_0 cc tr kz kr dt xs s (Hc & He & Hmu) Hdt G A.
  apply (gauss_steps c mu_0 epsilon_0 Hc He Hmu Standard); auto; [cbn [speed]; nra|]. intros [N _]. cbn [speed] in N. lra.
Qed.
Print Assumptions C33_standard.

(** Moving schemes: missing are speeds of c and above, and the modes for which kz V dt is a multiple of 2 pi
    (not 0), where it is false (C33_refuted). *)
Theorem C33_partial : forall c mu_0 epsilon_0 f cc tr kz kr dt xs s, constants c mu_0 epsilon_0 -> (0 < dt)%R ->
  (Rabs (speed f) < c)%R -> ~ resonant f kz dt ->
  gauss epsilon_0 kz kr s -> all_conserve f kz kr dt (rho_prev s) xs ->
  exists s', field_steps c mu_0 epsilon_0 (psatd_coeffs c mu_0 epsilon_0 (frame_V f) (frame_gal f) kz kr dt) cc tr false false kz kr xs s = Ok s' /\
  gauss epsilon_0 kz kr s'.
Proof.
  intros c mu_0 epsilon_0 f cc tr kz kr dt xs s (Hc & He & Hmu) Hdt V N G A.
  apply (gauss_steps c mu_0 epsilon_0 Hc He Hmu f); auto. apply Rabs_def2 in V. nra.
Qed.
Print Assumptions C33_partial.

(** On the grid of the code (n_order = -1), no mode is resonant if the frame moves by less than two
    cells per timestep. *)
Theorem C33_no_resonance : forall f Nz dz i dt, (0 < dt)%R -> (0 < dz)%R -> (0 <= i < Nz)%Z -> (Rabs (speed f) * dt < 2 * dz)%R ->
  ~ resonant f (kz_true Nz dz i) dt.
Proof. exact not_resonant_grid. Qed.
Print Assumptions C33_no_resonance.

Theorem C33_refuted : forall c mu_0 epsilon_0, constants c mu_0 epsilon_0 ->
  exists V kz kr dt s, (0 < V < c)%R /\ (0 < dt)%R /\ gauss epsilon_0 kz kr s /\
  conserves (Galilean V) kz dt (rho_prev s) (rho_next s) (div kz kr (J_of s)) /\
  ~ gauss epsilon_0 kz kr (push c mu_0 epsilon_0 (psatd_coeffs c mu_0 epsilon_0 (Some V) true kz kr dt) true kz kr s).
Proof.
  intros c mu_0 epsilon_0 (Hc & He & Hmu). exists (c / 2)%R, 1%R, (3 / 4)%R, (res_dt c), (res_state epsilon_0).
  split; [lra|]. split; [unfold res_dt; pose proof PI_RGT_0; apply Rdiv_lt_0_compat; lra|].
  split; [apply res_gauss; auto|]. split; [apply res_conserves; auto|apply res_not_gauss; auto].
Qed.
Print Assumptions C33_refuted.

(** ** C34. *)
Theorem C34_curlfree : forall c mu_0 epsilon_0 f kz kr dt s, (0 < dt)%R -> ~ (kz = 0%R /\ kr = 0%R) -> ~ resonant f kz dt ->
  conserves f kz dt (rho_prev s) (rho_next s)
    (div kz kr (J_of (correct_currents dt (psatd_coeffs c mu_0 epsilon_0 (frame_V f) (frame_gal f) kz kr dt) CurlFree kz kr s))).
Proof. intros c mu_0 epsilon_0 f kz kr dt s. apply correct_curlfree. Qed.
Print Assumptions C34_curlfree.

(** Cross-deposition, where both kz and kr are nonzero: any sources. *)
Theorem C34_cross : forall c mu_0 epsilon_0 f kz kr dt s, (0 < dt)%R -> kz <> 0%R -> kr <> 0%R -> ~ resonant f kz dt ->
  conserves f kz dt (rho_prev s) (rho_next s)
    (div kz kr (J_of (correct_currents dt (psatd_coeffs c mu_0 epsilon_0 (frame_V f) (frame_gal f) kz kr dt) CrossDeposition kz kr s))).
Proof. intros c mu_0 epsilon_0 f kz kr dt s Hdt N1 N2 NR. apply correct_cross; auto. split; tauto. Qed.
Print Assumptions C34_cross.

(** Cross-deposition in every mode, kz = 0 and kr = 0 included, with the sources that one iteration
    deposits: particles in the box, [s0] the state at the beginning of the iteration. *)
Theorem C34_cross_deposited : forall c mu_0 epsilon_0 f jn zeros rmax inv pinv Nz Nr m fz fr v mv dt n s0 kz iz ir s,
  (0 < dt)%R -> ~ resonant f kz dt ->
  let kr := kr_of zeros rmax (Z.of_nat m) ir in
  let tr := make_transformer jn zeros rmax inv pinv Nz Nr (Z.of_nat m) in
  (0 < rmax)%R -> (forall m i, (0 < zeros m i)%R) -> (0 <= iz < Nz)%Z -> (0 <= ir < Nr)%Z -> (kz = 0%R -> iz = 0%Z \/ fz iz = 0%R) ->
  grid_ok (pic_g s0) -> Nz = g_Nz (pic_g s0) -> Nr = g_Nr (pic_g s0) ->
  deposit_ok n s0 -> deposit_ok n (at_xy c v mv dt s0) -> deposit_ok n (at_z c v mv dt s0) -> deposit_ok n (at_next c v mv dt s0) ->
  cross_sources tr fz fr c v mv dt m n s0 iz ir s ->
  conserves f kz dt (rho_prev s) (rho_next s)
    (div kz kr (J_of (correct_currents dt (psatd_coeffs c mu_0 epsilon_0 (frame_V f) (frame_gal f) kz kr dt) CrossDeposition kz kr s))).
Proof.
  intros c mu_0 epsilon_0 f jn zeros rmax inv pinv Nz Nr m fz fr v mv dt n s0 kz iz ir s Hdt NR kr tr H1 H2 H3 H4 H5 H6 H7 H8 H9 H10 H11 H12 H13.
  apply correct_cross; auto. exact (cross_sources_ok jn zeros rmax inv pinv Nz Nr m fz fr c v mv dt n s0 kz iz ir s H1 H2 H3 H4 H5 H6 H7 H8 H9 H10 H11 H12 H13).
Qed.
Print Assumptions C34_cross_deposited.
(** The hypothesis on kz holds for the true kz (n_order = -1). The modified kz of a finite order is also 0 at
    the Nyquist frequency, which the filter of the currents (default) sets to 0. *)
Theorem C34_kz_true : forall Nz dz i, (0 < dz)%R -> (0 <= i < Nz)%Z -> kz_true Nz dz i = 0%R -> i = 0%Z.
Proof. exact kz_zero. Qed.
Print Assumptions C34_kz_true.

(** Corrected currents keep Gauss' law, whatever was deposited. *)
Theorem C34_gauss : forall c mu_0 epsilon_0 f cc tr kz kr dt xs s, constants c mu_0 epsilon_0 -> (0 < dt)%R ->
  (Rabs (speed f) < c)%R -> ~ resonant f kz dt -> ~ (kz = 0%R /\ kr = 0%R) -> (cc = CrossDeposition -> kz <> 0%R /\ kr <> 0%R) ->
  gauss epsilon_0 kz kr s ->
  exists s', field_steps c mu_0 epsilon_0 (psatd_coeffs c mu_0 epsilon_0 (frame_V f) (frame_gal f) kz kr dt) cc tr true false kz kr xs s = Ok s' /\
  gauss epsilon_0 kz kr s'.
Proof.
  intros c mu_0 epsilon_0 f cc tr kz kr dt xs s (Hc & He & Hmu) Hdt V NR N NC G.
  apply (gauss_corrected c mu_0 epsilon_0 Hc He Hmu); auto. apply Rabs_def2 in V. nra.
Qed.
Print Assumptions C34_gauss.

(** ** C35. *)
Theorem C35_energy : forall c mu_0 epsilon_0 tr kz kr dt n s, no_sources s -> transverse kz kr s ->
  energy c (Nat.iter n (push c mu_0 epsilon_0 (psatd_coeffs c mu_0 epsilon_0 None false kz kr dt) tr kz kr) s) = energy c s.
Proof. intros c mu_0 epsilon_0 tr kz kr dt n s N T. apply (pushes_inv c mu_0 epsilon_0); auto. Qed.
Print Assumptions C35_energy.

Theorem C35_dispersion : forall c mu_0 epsilon_0 tr kz kr dt n s, (0 < c)%R -> no_sources s -> transverse kz kr s ->
  ~ (kz = 0%R /\ kr = 0%R) ->
  let s' := Nat.iter n (push c mu_0 epsilon_0 (psatd_coeffs c mu_0 epsilon_0 None false kz kr dt) tr kz kr) s in
  E_of s' = vacuum_E c kz kr (INR n * dt) s /\ B_of s' = vacuum_B c kz kr (INR n * dt) s.
Proof.
  intros c mu_0 epsilon_0 tr kz kr dt n s Hc N T K. apply (pushes_closed c mu_0 epsilon_0); auto.
  intros W. apply K. exact (omega_0 c Hc kz kr W).
Qed.
Print Assumptions C35_dispersion.

Theorem C35_reversible : forall c mu_0 epsilon_0 tr kz kr dt n s, no_sources s -> transverse kz kr s ->
  let steps := Nat.iter n (push c mu_0 epsilon_0 (psatd_coeffs c mu_0 epsilon_0 None false kz kr dt) tr kz kr) in
  steps (flip_B (steps s)) = flip_B s.
Proof. intros c mu_0 epsilon_0 tr kz kr dt n s N T. apply (reverse_pushes c mu_0 epsilon_0); auto. Qed.
Print Assumptions C35_reversible.

(** ** C36. *)
Theorem C36_coefficients : forall c mu_0 epsilon_0 gal kz kr dt,
  let a := psatd_coeffs c mu_0 epsilon_0 (Some 0%R) gal kz kr dt in
  let b := psatd_coeffs c mu_0 epsilon_0 None false kz kr dt in
  co_C a = co_C b /\ co_S_w a = co_S_w b /\ co_j a = co_j b /\ co_rho_prev a = co_rho_prev b /\
  co_rho_next a = co_rho_next b /\ co_T_eb a = 1 /\ co_T_cc a = 1 /\ co_T_rho a = RtoC (- dt) /\ co_j_corr a = RtoC (1 / dt).
Proof. intros. apply coeffs_V0. Qed.
Print Assumptions C36_coefficients.
Theorem C36_iteration : forall c mu_0 epsilon_0 gal cc tr corr dv kz kr dt xs s,
  field_steps c mu_0 epsilon_0 (psatd_coeffs c mu_0 epsilon_0 (Some 0%R) gal kz kr dt) cc tr corr dv kz kr xs s =
  field_steps c mu_0 epsilon_0 (psatd_coeffs c mu_0 epsilon_0 None false kz kr dt) cc tr corr dv kz kr xs s.
Proof. exact steps_V0. Qed.
Print Assumptions C36_iteration.

(** ** C37. With the curl-free setting; missing: the other (default) setting, where it is false. *)
Theorem C37_partial : forall c mu_0 epsilon_0 ps tr corr kz kr xs s, (0 < epsilon_0)%R -> ~ (kz = 0%R /\ kr = 0%R) -> xs <> nil ->
  exists s', field_steps c mu_0 epsilon_0 ps CurlFree tr corr true kz kr xs s = Ok s' /\ gauss epsilon_0 kz kr s'.
Proof. intros c mu_0 epsilon_0 ps tr corr kz kr xs s He N X. apply divE_last; auto. lra. Qed.
Print Assumptions C37_partial.
Theorem C37_only_divE : forall epsilon_0 kz kr s, (0 < epsilon_0)%R -> ~ (kz = 0%R /\ kr = 0%R) ->
  exists s', correct_divE epsilon_0 CurlFree kz kr s = Ok s' /\ gauss epsilon_0 kz kr s' /\
  curl kz kr (E_of s') = curl kz kr (E_of s) /\ B_of s' = B_of s /\ J_of s' = J_of s /\ rho_prev s' = rho_prev s.
Proof. intros epsilon_0 kz kr s He N. apply correct_divE_curlfree; auto. lra. Qed.
Print Assumptions C37_only_divE.
(** With 'cross-deposition' (the default of the constructor) the first iteration raises AttributeError. *)
Theorem C37_refuted : forall c mu_0 epsilon_0 ps tr corr kz kr x xs s,
  field_steps c mu_0 epsilon_0 ps CrossDeposition tr corr true kz kr (x :: xs) s = Err AttributeError.
Proof. reflexivity. Qed.
Print Assumptions C37_refuted.

(** ** Concrete cases that meet the hypotheses. *)
(** A static charge, seen in a Galilean frame, over two iterations. *)
Definition ex_src : sources :=
  {| s_Jp := 0; s_Jm := 0; s_Jz := 0; s_rho := cis (1 / 2); s_rho_z := 0; s_rho_xy := 0 |}.
Definition ex_src2 : sources :=
  {| s_Jp := 0; s_Jm := 0; s_Jz := 0; s_rho := cis 1; s_rho_z := 0; s_rho_xy := 0 |}.
Example C33_met : constants 1 1 1 /\ (Rabs (speed (Galilean (1 / 2))) < 1)%R /\ ~ resonant (Galilean (1 / 2)) 1 1 /\
  gauss 1 1 (3 / 4) (res_state 1) /\ all_conserve (Galilean (1 / 2)) 1 (3 / 4) 1 (rho_prev (res_state 1)) (ex_src :: ex_src2 :: nil).
Proof.
  split; [repeat split; lra|]. cbn [speed]. assert (A : Rabs (1 / 2) = (1 / 2)%R) by (apply Rabs_right; lra). split; [lra|]. split.
  - apply not_resonant; [lra|]. cbn [speed]. rewrite Rmult_1_l, A. pose proof PI2_3_2. lra.
  - split; [apply res_gauss; lra|]. cbn [all_conserve ex_src ex_src2 s_rho].
    assert (Z : forall x, s_Jp x = 0 -> s_Jm x = 0 -> s_Jz x = 0 -> div 1 (3 / 4) (current_of x) = 0)
      by (intros x E1 E2 E3; unfold div, current_of; cbn [vp vm vz]; rewrite E1, E2, E3; ring).
    split; [|split; [|exact I]]; apply conserves_iff; try lra; rewrite Z by reflexivity; rewrite Cmult_0_r, Cplus_0_r; cbn [res_state rho_prev];
      unfold Teb, coef_T_eb, coef_T2; rewrite ?Cmult_1_r, <- ?cis_add; f_equal; field.
Qed.
(** A wave with kz = kr = 1. *)
Example C35_met : let s := {| Ep := 1; Em := 1; Ez := 0; Bp := 2; Bm := 1; Bz := Ci; Jp := 0; Jm := 0; Jz := 0;
     rho_prev := 0; rho_next := 0; rho_next_z := 0; rho_next_xy := 0 |} in
  no_sources s /\ transverse 1 1 s /\ ~ (1%R = 0%R /\ 1%R = 0%R) /\ energy 1 s <> 0%R.
Proof.
  cbv zeta. split; [repeat split|]. split.
  - split; unfold div, E_of, B_of; cbn [vp vm vz Ep Em Ez Bp Bm Bz]; apply injective_projections; simpl; ring.
  - split; [lra|]. unfold energy, norm2, E_of, B_of. cbn [vp vm vz Ep Em Ez Bp Bm Bz].
    assert (0 < Cmod (1 + 1)%C ^ 2)%R.
    { apply pow_lt. apply Cmod_gt_0. intros E. injection E. lra. }
    pose proof (pow2_ge_0 (Cmod (Ci * (1 - 1))%C)). pose proof (pow2_ge_0 (Cmod (RtoC 0))). pose proof (pow2_ge_0 (Cmod (2 + 1)%C)).
    pose proof (pow2_ge_0 (Cmod (Ci * (2 - 1))%C)). pose proof (pow2_ge_0 (Cmod Ci)). lra.
Qed.
(** One particle of a charged species, moving across the axis, in a box of 8 x 2 cells; Galilean frame. *)
Definition ex_pic : pic :=
  {| pic_l := {| sp_q := 1; sp_tracer := false; sp_ionizable := false; sp_shape := Shape_Model.Linear;
       sp_ptcl := {| p_x := 1; p_y := 0; p_z := 4; p_ux := 1; p_uy := 0; p_uz := 1; p_ig := 1 / 2; p_w := 1; p_wl := 0 |} :: nil |} :: nil;
     pic_g := {| g_dz := 1; g_zmin := 0; g_Nz := 8; g_dr := 1; g_Nr := 2; g_vol := fun _ => 1%R; g_beta := fun _ _ _ => 0%R |} |}%R.
Example C34_met : ~ resonant (Galilean (1 / 2)) 0 1 /\ grid_ok (pic_g ex_pic) /\ deposit_ok 2 ex_pic /\
  deposit_ok 2 (at_xy 1 (1 / 2) true 1 ex_pic) /\ deposit_ok 2 (at_z 1 (1 / 2) true 1 ex_pic) /\ deposit_ok 2 (at_next 1 (1 / 2) true 1 ex_pic).
Proof.
  split; [intros [N _]; rewrite Rmult_0_l in N; lra|]. split.
  { repeat split; cbn; intros; try lra; try lia. }
  unfold deposit_ok, threads_ok, all_in_grid, in_grid, depositing. cbn [pic_l pic_g ex_pic filter sp_tracer negb].
  unfold at_next, at_z, at_xy, at_half, move, push_x; cbn [pic_l pic_g ex_pic map filter sp_tracer negb].
  repeat split; try lia; try (constructor; [cbn; lia|constructor]);
    (constructor; [|constructor]; constructor; [|constructor]; cbn [g_zmin g_Nz g_dz shift_grid push_ptcl p_z p_ig p_uz]; lra).
Qed.
