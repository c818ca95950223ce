(** C65: a laser that is added directly to the grid. *)
From Verif Require Import Base Fourier_Lib Deposit_Model Deposit_Spec Boost_Model Decomp_Model Decomp_Spec Decomp_Proofs Hankel_Model Hankel_Spec Hankel_Proofs Psatd_Model Psatd_Spec
  Psatd_Proofs Psatd_Props Maxwell_Spec Maxwell_Props Smooth_Model Smooth_Spec Laser_Model ExtField_Spec Direct_Model Direct_Spec Direct_Proofs Direct_Lasers Direct_Wave Direct_Grid.
From Coq Require Import Reals Lra Lia.
From Coquelicot Require Import Coquelicot.
Open Scope R_scope.

(** The azimuthal modes represent the profile at every angle (not only at the 2 Nm angles that are sampled), with the number of modes
    that is documented for each laser; in the lab frame and in the boosted frame. *)
Theorem C65_modes : forall cl l boost time Nm M z r theta, (M + 2 <= Nm)%nat -> 0 <= r ->
  (forall r z t, 0 <= r -> trig M (fun theta => fst (E_field l (r * cos theta) (r * sin theta) z t)) /\
                           trig M (fun theta => snd (E_field l (r * cos theta) (r * sin theta) z t))) ->
  (azimuthal Nm (fun m => fst (get_laser_Er_Et cl l boost time Nm z r m)) theta,
   azimuthal Nm (fun m => snd (get_laser_Er_Et cl l boost time Nm z r m)) theta) = sample cl l boost time z r theta.
Proof. intros cl l boost time Nm M z r theta HN Hr H. apply (modes_back cl l boost time Nm M); assumption. Qed.
Print Assumptions C65_modes.
Theorem C65_lasers : forall c m_e e a0 waist tau z0 zf theta lambda0 cep dir, 0 < waist ->
  (forall phi2 l, gaussian_laser c m_e e a0 waist tau z0 zf theta lambda0 cep phi2 dir = Ok l -> represented l 0) /\
  (forall N l, flattened_laser c m_e e a0 waist tau z0 N zf theta lambda0 cep dir = Ok l -> represented l 0) /\
  (forall p m theta0 l, laguerre_gauss_laser c m_e e p m a0 waist tau z0 zf theta lambda0 cep theta0 dir = Ok l -> represented l (Z.to_nat m)) /\
  (forall p m l, donut_laser c m_e e p m a0 waist tau z0 zf theta lambda0 cep dir = Ok l -> represented l (Z.abs_nat m)) /\
  (forall fsolve l, few_cycle_laser c m_e e fsolve a0 waist tau z0 zf theta lambda0 cep dir = Ok l -> represented l 0) /\
  (forall M l1 l2 l, cylindrical M l1 -> cylindrical M l2 -> summed_laser l1 l2 = Ok l -> represented l M).
Proof.
  intros c m_e e a0 waist tau z0 zf theta lambda0 cep dir Hw.
  split; [intros; apply cyl_represented; eapply gaussian_cyl; eassumption|].
  split; [intros; apply cyl_represented; eapply flattened_cyl; eassumption|].
  split; [intros; apply cyl_represented; eapply laguerre_cyl; eassumption|].
  split; [intros; apply cyl_represented; eapply donut_cyl; eassumption|].
  split; [intros; apply cyl_represented; eapply few_cycle_cyl; eassumption|].
  intros M l1 l2 l A B D. apply cyl_represented. exact (sum_cyl M l1 l2 l A B D).
Qed.
Print Assumptions C65_lasers.

(** div E = 0 and div B = 0 on every mode with kz <> 0, for the wavenumbers of the solver. *)
Theorem C65_divergence_partial : forall cl dir f kz kr Ep Em, 0 < cl -> dir = 1 \/ dir = -1 -> kz <> 0 ->
  let s := laser_mode cl dir f kz kr Ep Em in div kz kr (E_six s) = RtoC 0 /\ div kz kr (B_six s) = RtoC 0.
Proof. intros. split; [apply laser_div; assumption|apply laser_divB]. Qed.
Print Assumptions C65_divergence_partial.
(** With kz = 0 (the part of the field that is uniform along z), div E is not 0, though the docstring says so. *)
Theorem C65_divergence_refuted : forall cl dir f kr Ep Em, f <> 0 -> kr <> 0 -> Ep <> Em ->
  div 0 kr (E_six (laser_mode cl dir f 0 kr Ep Em)) <> RtoC 0.
Proof.
  intros cl dir f kr Ep Em Hf Hk N. unfold div, E_six, laser_mode. cbn [vp vm vz sEp sEm sEz]. destruct (Req_EM_T 0 0) as [_|X]; [|lra].
  replace (RtoC kr * (Ep * RtoC f - Em * RtoC f) + Ci * 0 * (Ci * RtoC kr * (Ep * RtoC f - Em * RtoC f) * 0))%C with (RtoC kr * (RtoC f * (Ep - Em)))%C by ring.
  apply Cmult_neq_0; [apply RtoC_neq; exact Hk|]. apply Cmult_neq_0; [apply RtoC_neq; exact Hf|]. intros E. apply N.
  transitivity (Ep - Em + Em)%C; [ring|]. rewrite E. ring.
Qed.
Print Assumptions C65_divergence_refuted.

(** The mode is a wave: with the frequency w, exp(- i w t) times it solves Maxwell's equations in vacuum, w has the sign of kz along the
    propagation direction (exp(i (kz z - w t)) moves that way), and energy flows that way. *)
Theorem C65_wave : forall cl eps0 dir f kz kr Ep Em, 0 < cl -> dir = 1 \/ dir = -1 -> kz <> 0 ->
  let s := laser_mode cl dir f kz kr Ep Em in exists w, w ^ 2 = cl ^ 2 * (kz ^ 2 + kr ^ 2) /\ 0 < dir * (w / kz) /\
  (forall dt, maxwell cl eps0 Standard kz kr dt {| vp := RtoC 0; vm := RtoC 0; vz := RtoC 0 |}
    (fun t => vscal (cis (- (w * t))) (E_six s)) (fun t => vscal (cis (- (w * t))) (B_six s))) /\
  0 <= dir * flux (E_six s) (B_six s) /\ (f <> 0 -> Ep <> RtoC 0 \/ Em <> RtoC 0 -> 0 < dir * flux (E_six s) (B_six s)).
Proof.
  intros cl eps0 dir f kz kr Ep Em Hc Hd Hk s. exists (laser_w cl dir kz kr). split; [apply w_sq; assumption|]. split.
  { pose proof (w_dir cl dir kz kr Hc Hd Hk) as P. replace (dir * (laser_w cl dir kz kr / kz)) with (dir * kz * laser_w cl dir kz kr / kz ^ 2) by (field; exact Hk). apply Rdiv_lt_0_compat; [exact P|nra]. }
  split; [apply (wave cl dir f kz kr Hc Hd Hk eps0)|]. destruct (flux_dir cl dir f kz kr Hc Hd Hk Ep Em) as [A B]. fold s in A, B. split; [exact A|].
  intros Hf N. apply B. destruct N as [N|N]; [left|right]; unfold s, laser_mode; cbn [sEp sEm]; apply Cmult_neq_0; auto; apply RtoC_neq; exact Hf.
Qed.
Print Assumptions C65_wave.
(** So the solver propagates it without any change of shape: one timestep multiplies the mode by exp(- i w dt). *)
Theorem C65_push : forall cl mu_0 epsilon_0 dir f kz kr Ep Em tr dt, constants cl mu_0 epsilon_0 -> dir = 1 \/ dir = -1 -> kz <> 0 -> 0 < dt ->
  let s := laser_mode cl dir f kz kr Ep Em in let w := dir * (if Rlt_dec 0 kz then 1 else -1) * (cl * sqrt (kz ^ 2 + kr ^ 2)) in
  let s' := push cl mu_0 epsilon_0 (psatd_coeffs cl mu_0 epsilon_0 None false kz kr dt) tr kz kr (mode_six s) in
  E_of s' = vscal (cis (- (w * dt))) (E_six s) /\ B_of s' = vscal (cis (- (w * dt))) (B_six s).
Proof.
  intros cl mu_0 epsilon_0 dir f kz kr Ep Em tr dt HC Hd Hk Hdt s w s'. pose proof HC as (Hc & He & _).
  assert (W : w = laser_w cl dir kz kr). { unfold w, laser_w, np_sign. destruct (Rlt_dec 0 kz); [ring|]. destruct (Rlt_dec kz 0); [ring|lra]. }
  rewrite W. apply and_comm. pose proof (C62_standard cl mu_0 epsilon_0 tr kz kr dt (mode_six s)
    (vscal (cis (- (laser_w cl dir kz kr * dt))) (E_six s)) (vscal (cis (- (laser_w cl dir kz kr * dt))) (B_six s)) HC Hdt) as P.
  assert (D : div kz kr (J_of (mode_six s)) = RtoC 0) by (unfold div, J_of; cbn; ring). destruct P as [P _].
  - unfold gauss. change (E_of (mode_six s)) with (E_six s). unfold s. rewrite laser_div by assumption. change (rho_prev (mode_six s)) with (RtoC 0). unfold Cdiv. cbn [mode_six rho_prev]. rewrite Cmult_0_l. reflexivity.
  - apply laser_divB.
  - rewrite D. exists (fun _ => RtoC 0). split; [reflexivity|]. split; [reflexivity|]. intros t.
    replace (rho_rate Standard kz dt (RtoC 0) t (RtoC 0)) with (RtoC 0) by (unfold rho_rate; ring). split; (apply (is_derive_ext (fun _ : R => 0)); [reflexivity|]); auto_derive; auto.
  - destruct P as [P1 P2]; [|split; symmetry; assumption]. exists (fun t => vscal (cis (- (laser_w cl dir kz kr * t))) (E_six s)), (fun t => vscal (cis (- (laser_w cl dir kz kr * t))) (B_six s)).
    assert (Z0 : forall v, vscal (cis (- (laser_w cl dir kz kr * 0))) v = v) by (intros [a b d]; rewrite Rmult_0_r, Ropp_0, cis_0; unfold vscal; cbn [vp vm vz]; f_equal; ring).
    split; [apply (wave cl dir f kz kr Hc Hd Hk epsilon_0)|]. split; [apply Z0|]. split; [apply Z0|]. split; reflexivity.
Qed.
Print Assumptions C65_push.

(** In the boosted frame: the field that is sampled is the Lorentz transformation of the wave of the lab frame, at the same event;
    lasers for which this formula would be wrong (backward-propagating) are refused. *)
Theorem C65_boost : forall cl l g boost time z r theta, 0 < cl -> 1 <= g -> make_boost (Some g) l = Ok boost ->
  let b := sqrt (1 - 1 / g ^ 2) in
  let E := E_field l (r * cos theta) (r * sin theta) (g * (z + b * cl * time)) (g * (time + b / cl * z)) in
  let F := transform cl g b (plane_wave cl (propag_direction l) E) in
  sample cl l boost time z r theta = (radial (Ex' F, Ey' F) theta, tangential (Ex' F, Ey' F) theta).
Proof.
  intros cl l g boost time z r theta Hc Hg H b E F. unfold make_boost in H. destruct (boost_factor g Hg) as (_ & _ & K). fold b in K. destruct (Req_EM_T g 1) as [G|G].
  - apply Laser_Final.Ok_eq in H. subst boost. rewrite sample_radial. assert (B0 : b = 0) by (unfold b; rewrite G; replace (1 - 1 / 1 ^ 2) with 0 by field; apply sqrt_0).
    unfold F, E. rewrite B0, G. replace (1 * (z + 0 * cl * time)) with z by ring. replace (1 * (time + 0 / cl * z)) with time by (field; lra).
    destruct (E_field _ _ _ _ _) as [Ex Ey]. unfold transform, plane_wave. cbn [Ex' Ey' fst snd]. unfold radial, tangential. cbn [fst snd Bx' By' Bz' Ez']. f_equal; ring.
  - destruct (Req_EM_T (propag_direction l) 1) as [P|P]; [|discriminate]. apply Laser_Final.Ok_eq in H. subst boost. rewrite sample_boost. unfold F. rewrite P. cbv zeta. cbn [gamma0 beta0 boost_converter].
    fold b. replace (b * 1 / cl) with (b / cl) by (field; lra). fold E. rewrite K. destruct E as [Ex Ey]. unfold transform, plane_wave. cbn [Ex' Ey' Bx' By' Bz' Ez' fst snd]. unfold radial, tangential. cbn [fst snd].
    f_equal; field; lra.
Qed.
Print Assumptions C65_boost.
Theorem C65_backward : forall l g, g <> 1 -> propag_direction l <> 1 -> make_boost (Some g) l = Err ValueError.
Proof. intros l g Hg Hp. unfold make_boost. destruct (Req_EM_T g 1); [contradiction|]. destruct (Req_EM_T _ 1); [contradiction|reflexivity]. Qed.
Print Assumptions C65_backward.

(** On the grid: the transverse electric field is what the transforms (there and back) make of the sampled field, smoothed along z by
    one compensated pass of the binomial filter; no cell reads outside of the grid. *)
Theorem C65_smooth : forall cl dir dz tr cells cells' kz kr Er Et iz ir, (0 < t_Nz tr)%Z -> 0 < dz -> all_cells (t_Nz tr) (t_Nr tr) cells' ->
  (0 <= iz < t_Nz tr)%Z -> (0 <= ir < t_Nr tr)%Z ->
  let out := calculate_laser_fields cl dir dz tr cells cells' (kz_true (t_Nz tr) dz) kz kr Er Et in
  let '(Gp, Gm) := interp2spect_vect tr cells Er Et in let '(Fr, Ft) := spect2interp_vect tr cells' Gp Gm in
  gEr out iz ir = smooth_z (t_Nz tr) 1 true (fun i => Fr i ir) iz /\ gEt out iz ir = smooth_z (t_Nz tr) 1 true (fun i => Ft i ir) iz.
Proof.
  intros cl dir dz tr cells cells' kz kr Er Et iz ir HN Hd A Hz Hr. cbv zeta. unfold calculate_laser_fields, spectral_fields. destruct (interp2spect_vect tr cells Er Et) as [Gp Gm].
  pose proof (smoothed tr dz cells' Gp Gm iz ir HN Hd A Hz Hr) as S. destruct (spect2interp_vect tr cells' Gp Gm) as [Fr Ft]. unfold laser_mode. cbn [sEp sEm sEz sBp sBm sBz].
  destruct (spect2interp_vect tr cells' _ _) as [Fr' Ft']. destruct (spect2interp_vect tr cells' _ _) as [Br' Bt']. exact S.
Qed.
Print Assumptions C65_smooth.
(** Any number of MPI ranks: each rank gets, in its own cells, what was there plus the fields that are calculated on the whole box
    (from the profile at the centres of the cells of the whole box), and its guard cells are left as they were. *)
Theorem C65_ranks : forall c cl dir tr cells cells' zt kz kr Er Et old (F G : R -> Z -> C) Nglob ig,
  valid_comm c -> (0 < t_Nr tr)%Z -> get_Nz_and_iz c false true false None = Ok (Nglob, ig) -> t_Nz tr = Nglob ->
  all_cells (t_Nz tr) (t_Nr tr) cells -> all_cells (t_Nz tr) (t_Nr tr) cells' ->
  (forall k iz ir z, (0 <= k < c_size c)%Z -> local_z c k iz = Ok z -> Er k iz ir = F z ir /\ Et k iz ir = G z ir) ->
  let solve := calculate_laser_fields cl dir (c_dz c) tr cells cells' zt kz kr in
  let zc j := (c_zmin c + (IZR (ig + j) + 0.5) * c_dz c)%R in
  let whole := solve (fun j ir => F (zc j) ir) (fun j ir => G (zc j) ir) in
  forall k Nk ik Na ia, (0 <= k < c_size c)%Z -> get_Nz_and_iz c true true false (Some k) = Ok (Nk, ik) -> get_Nz_and_iz c true true true (Some k) = Ok (Na, ia) ->
  exists new, add_laser_direct c (t_Nr tr) solve Er Et old k = Ok new /\ forall comp, In comp comps ->
    (forall i ir, (ik <= i < ik + Nk)%Z -> (0 <= ir < t_Nr tr)%Z -> comp new (i - ia)%Z ir = (comp (old k) (i - ia)%Z ir + comp whole (i - ig)%Z ir)%C) /\
    (forall i ir, ~ (ik <= i < ik + Nk)%Z -> comp new (i - ia)%Z ir = comp (old k) (i - ia)%Z ir).
Proof.
  intros c cl dir tr cells cells' zt kz kr Er Et old F G Nglob ig Hv HN Hw HT A A' HE solve zc whole k Nk ik Na ia Hk H1 H2.
  rewrite whole_ok in Hw. apply Laser_Final.Ok_eq in Hw. rewrite (guard_ext c true true (Some k) (part c true k)) in H2 by apply part_ok. rewrite part_ok in H1. apply Laser_Final.Ok_eq in H1. apply Laser_Final.Ok_eq in H2.
  pose proof (ranks c (t_Nr tr) solve Er Et old F G Hv HN) as P. rewrite Hw in P. cbn [fst snd] in P. rewrite H1 in H2. cbn [fst snd] in H2. injection H2 as HNa Hia.
  destruct P with (k := k) as (new & E & Q); [|assumption|assumption|].
  { intros X Y X' Y' comp iz ir Hc Hz Hr HX. apply solve_ext; auto. rewrite HT. exact HX. }
  exists new. split; [exact E|]. intros comp Hc. destruct (Q comp Hc) as [Q1 Q2]. rewrite H1 in Q1, Q2. cbn [fst snd] in Q1, Q2. rewrite <- Hia. split.
  - intros i ir Hi Hr. apply Q1; [|exact Hr]. unfold cell_in. cbn [fst snd]. exact Hi.
  - intros i ir Hi. apply Q2. lia.
Qed.
Print Assumptions C65_ranks.

(** The hypotheses are met: a donut laser with m = 1 needs 3 modes; a communicator of 3 ranks; a mode with kz < 0. *)
Example C65_met : exists l, donut_laser 299792458 1 1 1 1 2 (4e-6) (2e-14) 0 None 0 (8e-7) 0 1 = Ok l /\ represented l 1.
Proof.
  destruct (donut_laser 299792458 1 1 1 1 2 (4e-6) (2e-14) 0 None 0 (8e-7) 0 1) as [l|] eqn:E; [|discriminate]. exists l. split; [reflexivity|].
  apply (proj1 (proj2 (proj2 (proj2 (C65_lasers 299792458 1 1 2 (4e-6) (2e-14) 0 None 0 (8e-7) 0 1 ltac:(lra))))) 1%nat 1%Z l E).
Qed.
Example C65_met_wave : let s := laser_mode 1 (-1) 1 (-3) 4 (RtoC 1) (RtoC 0) in sEz s <> RtoC 0 /\ 0 < -1 * flux (E_six s) (B_six s).
Proof.
  cbv zeta. split.
  - unfold laser_mode. cbn [sEz]. destruct (Req_EM_T (-3) 0); [lra|]. intros E. apply (f_equal snd) in E. cbn in E. lra.
  - destruct (C65_wave 1 1 (-1) 1 (-3) 4 (RtoC 1) (RtoC 0)) as (w & _ & _ & _ & _ & P); try lra. apply P; [lra|]. left. apply RtoC_neq. lra.
Qed.
Example C65_met_ranks : valid_comm {| c_rank := 0; c_size := 3; c_left := None; c_right := Some 1%Z; c_Nz := 100; c_zmin := 0; c_dz := 1; c_nguard := 8; c_nzdamp := 4; c_ninject := 2; c_period := 1 |}.
Proof. unfold valid_comm. cbn. lia. Qed.
