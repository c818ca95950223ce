(** C46: laser antenna. *)
From Verif Require Import Base Decomp_Model Shape_Model Deposit_Model Deposit_Spec Deposit_Proofs Boost_Model Bunch_Model Bunch_Spec
  Deposit_Props Bunch_Props Antenna_Model Antenna_Spec Antenna_Proofs.
From Coq Require Import Reals Lra Lia.
From Coquelicot Require Import Complex.
From Flocq Require Import IEEE754.BinarySingleNaN.
Open Scope R_scope.

(** Which ranks deposit. After any history [h] of pushes, velocity updates, grid shifts and rank updates, common to all
    ranks, the antenna is a plane at the same z on all ranks; if the rank is then updated, exactly one rank deposits
    if that plane is in the global box with damp cells, none otherwise; and this stays so until the next update.
    Partial: the full statement is "at every time", see the refutations below. *)
Theorem C46_rank_partial : forall cl E r_e e eps0 pd z0 va dr Nr Nm npr ep bo a c h, (1 <= Nr)%Z -> (1 <= Nm)%Z -> (1 <= npr)%Z ->
  antenna_init cl r_e e eps0 pd z0 va dr Nr Nm npr ep bo = Ok a -> valid_comm c -> 0 < c_dz c ->
  exists z c' zmin zmax st,
  (forall r, (0 <= r < c_size c)%Z -> do_ops cl E h {| s_ant := a; s_comm := seen_by c r |} = Ok (st r) /\
     plane_at (s_ant (st r)) z /\ s_comm (st r) = seen_by c' r) /\
  get_zmin_zmax c' false true false None = Ok (zmin, zmax) /\
  forall h', Forall (fun o => o <> OUpdateRank) h' -> exists st',
    (forall r, (0 <= r < c_size c)%Z -> do_ops cl E (h ++ OUpdateRank :: h') {| s_ant := a; s_comm := seen_by c r |} = Ok (st' r)) /\
    (zmin <= z < zmax -> exactly_one (c_size c) (fun r => a_on (s_ant (st' r)) = true)) /\
    (~ zmin <= z < zmax -> no_rank (c_size c) (fun r => a_on (s_ant (st' r)) = true)).
Proof. exact rank_main. Qed.
Print Assumptions C46_rank_partial.
(** Before the first update no rank deposits. *)
Theorem C46_rank_initial : forall cl E r_e e eps0 pd z0 va dr Nr Nm npr ep bo a c h, (1 <= Nr)%Z -> (1 <= Nm)%Z -> (1 <= npr)%Z ->
  antenna_init cl r_e e eps0 pd z0 va dr Nr Nm npr ep bo = Ok a -> valid_comm c -> 0 < c_dz c -> Forall (fun o => o <> OUpdateRank) h ->
  forall r, (0 <= r < c_size c)%Z -> exists s, do_ops cl E h {| s_ant := a; s_comm := seen_by c r |} = Ok s /\ a_on (s_ant s) = false.
Proof. exact rank_none. Qed.
Print Assumptions C46_rank_initial.

(** The box [0, 20), one rank; an antenna that moves one cell per step. *)
Definition ex_box : comm :=
  {| c_rank := 0; c_size := 1; c_left := None; c_right := None; c_Nz := 20; c_zmin := 0; c_dz := 1; c_nguard := 4; c_nzdamp := 0; c_ninject := 0; c_period := 1 |}.
Definition ex_E (x y z t : R) : R * R := (1, 0).
(** "At every time" is false. With the ranks updated at every step, the antenna is at z = 20, outside of the box, at the last
    deposition of the step, but the rank still deposits it. With the ranks updated every second step, the antenna enters
    the box and no rank deposits it at z = 1 and z = 3/2. *)
Theorem C46_every_time_refuted :
  (exists a pre post s, antenna_init 1 1 1 1 1 19 1 1 1 1 1 1 None = Ok a /\
     loop_ops 1 false 0 1 (fun _ => 0) 1 true 0 0 = pre ++ ODeposit :: post /\
     do_ops 1 ex_E pre {| s_ant := a; s_comm := seen_by ex_box 0 |} = Ok s /\
     (exists zmin zmax, get_zmin_zmax (s_comm s) false true false None = Ok (zmin, zmax) /\ zmin = 0 /\ zmax = 20) /\
     plane_at (s_ant s) 20 /\ a_on (s_ant s) = true) /\
  (exists a pre post s, antenna_init 1 1 1 1 1 (-1/2) 1 1 1 1 1 1 None = Ok a /\
     loop_ops 2 false 0 1 (fun _ => 0) 2 true 0 0 = pre ++ ODeposit :: post /\
     do_ops 1 ex_E pre {| s_ant := a; s_comm := seen_by ex_box 0 |} = Ok s /\
     (exists zmin zmax, get_zmin_zmax (s_comm s) false true false None = Ok (zmin, zmax) /\ zmin = 0 /\ zmax = 20) /\
     plane_at (s_ant s) 1 /\ a_on (s_ant s) = false).
Proof.
  assert (V : valid_comm ex_box) by (repeat split; cbn; lia). assert (D : 0 < c_dz ex_box) by (cbn; lra).
  split.
  - destruct (ex_init 19) as (a & I & On & (p & q & P & Zp & Zq & Vp & Vq)).
    exists a, (firstn 9 (loop_ops 1 false 0 1 (fun _ => 0) 1 true 0 0)), [OShift 0].
    eexists. split; [exact I|]. split; [reflexivity|].
    assert (A0 : with_flag false a = a) by (destruct a; cbn in On; subst; reflexivity).
    pose proof (ops_run 1 ex_E (firstn 9 (loop_ops 1 false 0 1 (fun _ => 0) 1 true 0 0)) a ex_box (fun _ => false) V D ltac:(rewrite P; discriminate) 0 ltac:(cbn; lia)) as Q.
    cbn beta in Q. rewrite A0 in Q. change Bunch_Proofs.on_rank with seen_by in Q. split; [exact Q|]. clear Q. split; [|split].
    + eexists. eexists. split; [reflexivity|]. cbn. lra.
    + change (plane_at (ops_ant 1 ex_E (firstn 9 (loop_ops 1 false 0 1 (fun _ => 0) 1 true 0 0)) a) 20).
      replace 20 with (ops_z (firstn 9 (loop_ops 1 false 0 1 (fun _ => 0) 1 true 0 0)) 19 1) by (cbn; lra).
      apply ops_plane_z; [split|]; rewrite P; [discriminate|repeat constructor; assumption|repeat constructor; assumption].
    + cbn [a_on s_ant with_flag]. change (firstn 9 (loop_ops 1 false 0 1 (fun _ => 0) 1 true 0 0)) with ([OUpdateRank] ++ skipn 1 (firstn 9 (loop_ops 1 false 0 1 (fun _ => 0) 1 true 0 0))). rewrite ops_flag_app.
      rewrite (ops_flag_none 1 ex_E (skipn 1 (firstn 9 (loop_ops 1 false 0 1 (fun _ => 0) 1 true 0 0)))) by (cbn; repeat constructor; discriminate).
      cbn [ops_flag is_update]. unfold flag_of. cbn. apply Bunch_Proofs.selected_iff. unfold z_of. rewrite P, Zp. lra.
  - destruct (ex_init (-1/2)) as (a & I & On & (p & q & P & Zp & Zq & Vp & Vq)).
    exists a, (firstn 14 (loop_ops 2 false 0 1 (fun _ => 0) 2 true 0 0)), (skipn 15 (loop_ops 2 false 0 1 (fun _ => 0) 2 true 0 0)).
    eexists. split; [exact I|]. split; [reflexivity|].
    assert (A0 : with_flag false a = a) by (destruct a; cbn in On; subst; reflexivity).
    pose proof (ops_run 1 ex_E (firstn 14 (loop_ops 2 false 0 1 (fun _ => 0) 2 true 0 0)) a ex_box (fun _ => false) V D ltac:(rewrite P; discriminate) 0 ltac:(cbn; lia)) as Q.
    cbn beta in Q. rewrite A0 in Q. change Bunch_Proofs.on_rank with seen_by in Q. split; [exact Q|]. clear Q. split; [|split].
    + eexists. eexists. split; [reflexivity|]. cbn. lra.
    + change (plane_at (ops_ant 1 ex_E (firstn 14 (loop_ops 2 false 0 1 (fun _ => 0) 2 true 0 0)) a) 1).
      assert (Z1 : 1 = ops_z (firstn 14 (loop_ops 2 false 0 1 (fun _ => 0) 2 true 0 0)) (-1/2) 1) by (cbn; lra).
      refine (eq_rect_r (plane_at _) _ Z1).
      apply ops_plane_z; [split|]; rewrite P; [discriminate|repeat constructor; assumption|repeat constructor; assumption].
    + cbn [a_on s_ant with_flag]. change (firstn 14 (loop_ops 2 false 0 1 (fun _ => 0) 2 true 0 0)) with ([OUpdateRank] ++ skipn 1 (firstn 14 (loop_ops 2 false 0 1 (fun _ => 0) 2 true 0 0))). rewrite ops_flag_app.
      rewrite (ops_flag_none 1 ex_E (skipn 1 (firstn 14 (loop_ops 2 false 0 1 (fun _ => 0) 2 true 0 0)))) by (cbn; repeat constructor; discriminate).
      cbn [ops_flag is_update]. apply not_true_is_false. unfold flag_of. cbn. intros Q. apply Bunch_Proofs.selected_iff in Q. unfold z_of in Q. rewrite P, Zp in Q. lra.
Qed.
Print Assumptions C46_every_time_refuted.

(** Another obstacle: the edges of the ranks computed in binary64 do not join (as in C44_double_refuted). *)
Theorem C46_double_refuted : exists zmin zmax lost twice : b64, zmin = of_Z64 (-1) /\ zmax = of_Z64 1 /\
  let dz := div64 (sub64 zmax zmin) (of_Z64 400) in
  Bleb zmin lost && Bltb lost zmax = true /\ Bleb zmin twice && Bltb twice zmax = true /\
  map (fun r => flag64 five zmin dz r lost) (range 5) = [false; false; false; false; false] /\
  map (fun r => flag64 five zmin dz r twice) (range 5) = [false; false; true; true; false].
Proof.
  exists (of_Z64 (-1)), (of_Z64 1), (@binary_normalize 53 1024 Hprec64 Hmax64 mode_NE 0x13333333333333 (-53) false),
    (@binary_normalize 53 1024 Hprec64 Hmax64 mode_NE 0x19999999999998 (-55) false).
  repeat split; vm_compute; reflexivity.
Qed.
Print Assumptions C46_double_refuted.

(** The antennas change neither the total charge nor the total axial current of the sources, whatever their excursions
    and velocities. *)
Theorem C46_neutral : forall cl g nthreads ptcl ants, grid_ok g ->
  let l := filter (fun s => negb (sp_tracer s)) ptcl in
  threads_ok nthreads (l ++ flat_map (antenna_deposits cl) ants) -> all_in_grid g (l ++ flat_map (antenna_deposits cl) ants) ->
  over_cells g (fun iz ir => Cmult (deposit_with_antennas cl g Rho 0 nthreads ptcl ants iz ir) (RtoC (g_vol g ir))) = RtoC (rsum charge l) /\
  over_cells g (fun iz ir => Cmult (deposit_with_antennas cl g Jz 0 nthreads ptcl ants iz ir) (RtoC (g_vol g ir))) = RtoC (rsum (axial_current cl) l).
Proof.
  intros cl g nt ptcl ants G l T I. unfold deposit_with_antennas. split.
  - etransitivity; [exact (total_charge cl g nt [] (Some (l ++ flat_map (antenna_deposits cl) ants)) G T I)|]. cbn [depositing]. rewrite rsum_app, (antennas_zero charge cl ants (antenna_charge cl)), Rplus_0_r. reflexivity.
  - etransitivity; [exact (total_current cl g nt [] (Some (l ++ flat_map (antenna_deposits cl) ants)) G T I)|]. cbn [depositing]. rewrite rsum_app, (antennas_zero _ cl ants (antenna_current cl)), Rplus_0_r. reflexivity.
Qed.
Print Assumptions C46_neutral.

(** After N iterations, with or without cross-deposition, moving window, Galilean frame and exchanges, the excursions are
    the sums of dt times the velocities of the iterations, the plane has moved by N dt vz, and without boosted frame
    the velocity of an iteration is the mobility times the laser field at the centre of the step. *)
Theorem C46_displacement : forall cl E r_e e eps0 pd z0 va dr Nr Nm npr ep bo a c r period cross vg dt d first it time,
  (1 <= Nr)%Z -> (1 <= Nm)%Z -> (1 <= npr)%Z -> valid_comm c -> 0 < c_dz c -> (0 <= r < c_size c)%Z ->
  antenna_init cl r_e e eps0 pd z0 va dr Nr Nm npr ep bo = Ok a ->
  exists st, (forall N, do_ops cl E (loop_ops period cross vg dt d N first it time) {| s_ant := a; s_comm := seen_by c r |} = Ok (st N)) /\
  forall k p0, nth_error (a_ptcl a) k = Some p0 -> exists p : nat -> vptcl, (forall N, nth_error (a_ptcl (s_ant (st N))) k = Some (p N)) /\
  forall N, a_ex (p N) = sum_upto N (fun n => dt * a_vx (p (S n))) /\ a_ey (p N) = sum_upto N (fun n => dt * a_vy (p (S n))) /\
    a_bx (p N) = a_bx p0 /\ a_by (p N) = a_by p0 /\ a_w (p N) = a_w p0 /\ a_vz (p N) = a_vz p0 /\
    a_bz (p N) = a_bz p0 + INR N * dt * a_vz p0 /\
    (bo = None -> (a_vx (p (S N)), a_vy (p (S N))) =
       let '(Ex, Ey) := E (a_bx p0 + a_vx (p N) * (dt / 2)) (a_by p0 + a_vy (p N) * (dt / 2))
                          (a_bz p0 + (INR N + 1 / 2) * dt * a_vz p0) (time + (INR N + 1 / 2) * dt) in (a_mob a * Ex, a_mob a * Ey)).
Proof.
  intros cl E r_e e eps0 pd z0 va dr Nr Nm npr ep bo a c r period cross vg dt d first it time H1 H2 H3 V D Hr I.
  exact (displacement_main cl E r_e e eps0 pd z0 va dr Nr Nm npr ep bo a c r period cross vg dt d first it time H1 H2 H3 V D Hr I).
Qed.
Print Assumptions C46_displacement.

(** The charges that an antenna deposits go in pairs: for each of its points, one charge +w and one charge -w, displaced by the
    excursion in opposite directions from the fixed point, with opposite transverse velocities (so that the currents add up) and the same z. *)
Theorem C46_pairs : forall cl a k p, 0 < cl -> a_on a = true -> nth_error (a_ptcl a) k = Some p ->
  exists neg pos s_neg s_pos, antenna_deposits cl a = [s_neg; s_pos] /\ sp_q s_neg = -1 /\ sp_q s_pos = 1 /\
  nth_error (sp_ptcl s_neg) k = Some neg /\ nth_error (sp_ptcl s_pos) k = Some pos /\
  Deposit_Spec.weight s_neg neg = a_w p /\ Deposit_Spec.weight s_pos pos = a_w p /\
  p_x pos - a_bx p = a_ex p /\ p_x neg - a_bx p = - a_ex p /\ p_y pos - a_by p = a_ey p /\ p_y neg - a_by p = - a_ey p /\
  p_z pos = a_bz p /\ p_z neg = a_bz p /\
  cl * p_ux pos * p_ig pos = a_vx p /\ cl * p_ux neg * p_ig neg = - a_vx p /\
  cl * p_uy pos * p_ig pos = a_vy p /\ cl * p_uy neg * p_ig neg = - a_vy p /\
  cl * p_uz pos * p_ig pos = a_vz p /\ cl * p_uz neg * p_ig neg = a_vz p.
Proof.
  intros cl a k p C On H. unfold antenna_deposits. rewrite On. do 4 eexists. split; [reflexivity|].
  cbn [virtual_species sp_q sp_ptcl]. rewrite !(map_nth_error _ k (a_ptcl a) H).
  do 4 (split; [reflexivity|]). cbn. repeat split; field; lra.
Qed.
Print Assumptions C46_pairs.

(** An antenna of four particles, one rank, and a grid in which it deposits. *)
Example C46_met : exists a, antenna_init 1 1 1 1 1 0 0 1 2 1 1 1 None = Ok a /\ length (a_ptcl a) = 4%nat /\ valid_comm (seen_by ex_box 0) /\
  (let g := ex_grid in let ants := [with_flag true a] in
   grid_ok g /\ threads_ok 3 ([] ++ flat_map (antenna_deposits 1) ants) /\ all_in_grid g ([] ++ flat_map (antenna_deposits 1) ants)).
Proof.
  assert (H : exists a, antenna_init 1 1 1 1 1 0 0 1 2 1 1 1 None = Ok a /\ length (a_ptcl a) = 4%nat /\ Forall (fun p => a_bz p = 0) (a_ptcl a)).
  { eexists. split; [reflexivity|]. split; [reflexivity|]. cbn. repeat constructor. }
  destruct H as (a & I & L & F). exists a. split; [exact I|]. split; [exact L|]. split; [repeat split; cbn; lia|]. cbv zeta. split.
  { unfold grid_ok, ex_grid; cbn. repeat split; try lra; try lia. intros ir Hir.
    assert (0 <= IZR ir)%R by (apply (IZR_le 0); lia). lra. }
  clear I. destruct a as [mob bo on l]. cbn [a_ptcl] in L, F. cbn [app flat_map antenna_deposits with_flag a_on].
  split; [split; [lia|repeat apply Forall_cons; try apply Forall_nil; cbn [virtual_species sp_ptcl a_ptcl with_flag]; rewrite map_length, L; lia]|].
  repeat apply Forall_cons; try apply Forall_nil; cbn [virtual_species sp_ptcl a_ptcl with_flag]; apply Forall_map; revert F; apply Forall_impl;
    intros p Hp; unfold in_grid; cbn; lra.
Qed.
