(** C83: the PML arrays are the parts of the transverse fields that the radial derivatives generate. *)
From Verif Require Import Base Fourier_Lib Psatd_Model Psatd_Spec Psatd_Proofs Pml_Model Pml_Spec Pml_Proofs.
From Coq Require Import Reals Lra.
From Coquelicot Require Import Coquelicot.
Open Scope C_scope.

(** One push without sources is the exact solution of the split equations if, and only if, the PML arrays hold their share of
    the wave (or the wave makes a whole number of oscillations in the step). *)
Theorem C83_exact : forall c mu_0 epsilon_0 f tr kz kr dt sp, no_sources (fst sp) -> transverse kz kr (fst sp) ->
  let ps := psatd_coeffs c mu_0 epsilon_0 (frame_V f) (frame_gal f) kz kr dt in
  exact_step c f kz kr dt sp (push_pml c mu_0 epsilon_0 ps tr kz kr sp) <->
  cos (c * sqrt (kz ^ 2 + kr ^ 2) * dt) = 1%R \/ in_share kz kr sp.
Proof.
  intros c mu_0 epsilon_0 f tr kz kr dt sp N T. split.
  - exact (exact_only c mu_0 epsilon_0 f tr kz kr dt sp N T).
  - exact (exact_if c mu_0 epsilon_0 f tr kz kr dt sp N T).
Qed.
Print Assumptions C83_exact.

(** Waves that start with the right share keep it for ever; a wrong share is forgotten as |cos(w dt)|^n. *)
Theorem C83_steps : forall c mu_0 epsilon_0 f tr kz kr dt n sp, no_sources (fst sp) -> transverse kz kr (fst sp) ->
  let ps := psatd_coeffs c mu_0 epsilon_0 (frame_V f) (frame_gal f) kz kr dt in
  let sp' := Nat.iter n (push_pml c mu_0 epsilon_0 ps tr kz kr) sp in
  List.map Cmod (defect kz kr sp') = List.map (fun z => (Rabs (cos (c * sqrt (kz ^ 2 + kr ^ 2) * dt)) ^ n * Cmod z)%R) (defect kz kr sp) /\
  (in_share kz kr sp -> in_share kz kr sp' /\ exact_step c f kz kr dt sp' (push_pml c mu_0 epsilon_0 ps tr kz kr sp')).
Proof.
  intros c mu_0 epsilon_0 f tr kz kr dt n sp N T ps sp'.
  destruct (steps_inv c mu_0 epsilon_0 f tr kz kr dt n sp N T) as (N' & T' & D). fold ps in N', T', D. fold sp' in N', T', D. split.
  - rewrite D, List.map_map. apply List.map_ext. intros z.
    rewrite !Cmod_mult, Cmod_cis, Cmod_R, <- RPow_abs. unfold coef_C, omega. ring.
  - intros H. assert (H' : in_share kz kr sp').
    { unfold in_share in *. rewrite D. apply List.Forall_map. revert H. apply List.Forall_impl. intros z ->. ring. }
    split; [exact H'|]. apply C83_exact; auto.
Qed.
Print Assumptions C83_steps.

(** A laser pulse put in the box at the start of a simulation, where the PML arrays are 0. *)
Theorem C83_laser : forall c mu_0 epsilon_0 f tr kz kr dt s, no_sources s -> transverse kz kr s -> kr <> 0%R ->
  Ep s + Em s <> 0 -> cos (c * sqrt (kz ^ 2 + kr ^ 2) * dt) <> 1%R ->
  let ps := psatd_coeffs c mu_0 epsilon_0 (frame_V f) (frame_gal f) kz kr dt in
  ~ exact_step c f kz kr dt (s, pml_zero) (push_pml c mu_0 epsilon_0 ps tr kz kr (s, pml_zero)).
Proof.
  intros c mu_0 epsilon_0 f tr kz kr dt s N T K E NC ps H. apply (C83_exact c mu_0 epsilon_0 f tr kz kr dt (s, pml_zero)) in H; auto.
  destruct H as [H|H]; [auto|]. revert H. apply share_broken; auto.
Qed.
Print Assumptions C83_laser.
Theorem C83_laser_refuted : forall c mu_0 epsilon_0 f tr, (0 < c)%R -> exists kz kr dt s, (0 < dt)%R /\ no_sources s /\ transverse kz kr s /\
  let ps := psatd_coeffs c mu_0 epsilon_0 (frame_V f) (frame_gal f) kz kr dt in
  ~ exact_step c f kz kr dt (s, pml_zero) (push_pml c mu_0 epsilon_0 ps tr kz kr (s, pml_zero)).
Proof.
  intros c mu_0 epsilon_0 f tr Hc. exists 1%R, 1%R, (quarter c), laser_mode.
  assert (N : no_sources laser_mode) by (repeat split; reflexivity).
  assert (T : transverse 1 1 laser_mode) by (split; unfold div, E_of, B_of, laser_mode; cbn [vp vm vz Ep Em Ez Bp Bm Bz]; ring).
  split; [apply quarter_pos; auto|]. split; [exact N|]. split; [exact T|]. cbv zeta. apply C83_laser; auto; try lra.
  - apply two_neq.
  - change (coef_C c 1 1 (quarter c) <> 1%R). rewrite quarter_C by auto. lra.
Qed.
Print Assumptions C83_laser_refuted.

(** A current that flows during one step (an antenna, a plasma): the next step, without current, is not exact. *)
Theorem C83_current_refuted : forall c mu_0 epsilon_0 tr, (0 < c)%R -> mu_0 <> 0%R -> exists kz kr dt x,
  let ps := psatd_coeffs c mu_0 epsilon_0 None false kz kr dt in
  let a := push_pml c mu_0 epsilon_0 ps tr kz kr (load_sources x dark_mode, pml_zero) in
  let b := (load_sources silent (fst a), snd a) in
  (0 < dt)%R /\ no_sources (fst b) /\ transverse kz kr (fst b) /\
  ~ exact_step c Standard kz kr dt b (push_pml c mu_0 epsilon_0 ps tr kz kr b).
Proof.
  intros c mu_0 epsilon_0 tr Hc Hm. exists 1%R, 1%R, (quarter c), emit. cbv zeta.
  destruct (emitted c mu_0 epsilon_0 tr Hc Hm) as (N & T & P & E). cbv zeta in *.
  split; [apply quarter_pos; auto|]. cbn [fst]. split; [exact N|]. split; [exact T|].
  intros H. apply (C83_exact c mu_0 epsilon_0 Standard tr 1 1 (quarter c)) in H; auto. destruct H as [H|H].
  - change (coef_C c 1 1 (quarter c) = 1%R) in H. rewrite quarter_C in H by auto. lra.
  - revert H. apply share_broken; auto.
Qed.
Print Assumptions C83_current_refuted.

(** A wave that propagates radially (kz = 0): all of E is generated by radial derivatives. *)
Example C83_met : let sp := (laser_mode, {| Ep_pml := 1; Em_pml := 1; Bp_pml := 0; Bm_pml := 0 |}) in
  no_sources (fst sp) /\ transverse 0 1 (fst sp) /\ in_share 0 1 sp /\ ~ in_share 0 1 (laser_mode, pml_zero).
Proof.
  cbv zeta. split; [repeat split; reflexivity|].
  split; [split; unfold div, E_of, B_of, laser_mode; cbn [fst vp vm vz Ep Em Ez Bp Bm Bz]; ring|].
  split; [|apply share_broken; [lra|reflexivity|apply two_neq]].
  unfold in_share, defect, laser_mode. cbn [Ep Em Bp Bm Ep_pml Em_pml Bp_pml Bm_pml].
  assert (K : RtoC (2 * (0 ^ 2 + 1 ^ 2)) = 1 + 1) by (rewrite <- RtoC_plus; f_equal; ring).
  assert (K' : RtoC (1 ^ 2) = 1) by (f_equal; ring). rewrite K, K'. repeat constructor; ring.
Qed.
