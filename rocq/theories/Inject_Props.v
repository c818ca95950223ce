(** C17: continuous injection. *)
From Verif Require Import Base Decomp_Model Inject_Model Inject_Spec Inject_Proofs.
From Coq Require Import Reals Lra.
Open Scope Z_scope.

(** On the last rank: the particles loaded there and all the injected ones (each moved back by
    vend times its creation time) are exactly the particles of one lattice, sites 0..N-1, each
    once, with the requested density taken at the site; for any window and plasma speed.
    Moreover, if the window is not slower than the plasma, the edge of the plasma
    is behind the injection position by less than one spacing as soon as the window moved once. *)
Theorem C17_injection_lattice_partial
    c v dt p_nz Npz zmin zmax dzp Npr rmin rmax Nth n d vend ang loaded j0 h :
  c_rank c = c_size c - 1 -> (0 < c_dz c)%R -> 0 <= c_nzdamp c -> 0 <= c_period c -> (0 <= dt)%R ->
  1 <= p_nz -> dzp = (c_dz c / IZR p_nz)%R ->
  0 <= Npz -> 0 <= Npr -> 0 <= Nth -> (Npz <> 0 -> zmax = (zmin + IZR Npz * dzp)%R) ->
  let zphys := (c_zmin c + IZR (c_Nz c) * c_dz c)%R in
  (zmax <= zphys)%R ->
  load_species Npz zmin zmax dzp Npr rmin rmax Nth n d vend ang = (loaded, j0) ->
  durations_ok h ->
  exists j1 out t' j' z0 N ang',
    initialize c v dt (map m_z loaded) j0 = Ok j1 /\
    inject_run v 0 h j1 = Ok (out, t', j') /\ t' = total h /\
    (loaded <> [] -> z0 = zmin) /\ (loaded = [] -> z0 = zphys) /\
    loaded ++ map (in_plasma_frame vend) out = lattice z0 dzp Npr rmin rmax Nth n d ang' 0 N /\
    ((vend <= v)%R -> exists nz zi ze, j_pos j' = Some (nz, zi, ze) /\ 0 <= nz /\
       (zi = zphys + (IZR (c_nzdamp c) + 3) * c_dz c + IZR (c_period c) * dt * (v - vend) + v * t')%R /\
       (ze = z0 + vend * t' + (IZR N + IZR nz) * dzp)%R /\
       (0 <= zi - ze)%R /\ (moved h = true -> (zi - ze < dzp)%R)).
Proof. exact (C17_lattice_main c v dt p_nz Npz zmin zmax dzp Npr rmin rmax Nth n d vend ang loaded j0 h). Qed.
Print Assumptions C17_injection_lattice_partial.

(** With two ranks and a plasma loaded up to z=2 (inside rank 0, spacing 1, box [0,8)), the
    injected particles are all beyond z=8: the sites 2.5, ..., 7.5 stay empty for ever. *)
Theorem C17_gap_between_ranks_refuted :
  let rank0 := generate_evenly_spaced 2 0 2 1 0 1 1 1 NoDens wang in
  let '(rank1, j0) := load_species 0 4 2 1 1 0 1 1 1 NoDens 0 wang in
  adapt_to_grid [0.5; 1.5; 2.5; 3.5]%R 0 2 1 0 = Ok (0%R, 2%R, 2) /\
  adapt_to_grid [4.5; 5.5; 6.5; 7.5]%R 4 2 1 0 = Ok (4%R, 2%R, 0) /\
  map m_z rank0 = [0.5; 1.5]%R /\ rank1 = [] /\
  exists j1, initialize (wcomm 2) 1 1 (map m_z rank1) j0 = Ok j1 /\
    (forall h, durations_ok h -> exists out t j', inject_run 1 0 h j1 = Ok (out, t, j') /\
       forall p, In p (map (in_plasma_frame 0) out) -> (8 < m_z p)%R) /\
    (exists out t j', inject_run 1 0 [Move 1; Gen wang] j1 = Ok (out, t, j') /\ length out = 5%nat).
Proof. exact C17_gap_main. Qed.
Print Assumptions C17_gap_between_ranks_refuted.

(** If the speed of the window is changed during the simulation, from below to above the plasma
    speed, a site is filled twice. *)
Theorem C17_speed_change_refuted :
  let j0 := snd (load_species 0 0 0 1 1 0 1 1 1 NoDens 1 wang) in
  exists j1 out1 t1 j2 out2 t2 j3,
    initialize (wcomm 1) 0 1 [] j0 = Ok j1 /\
    inject_run 0 0 [Move 1; Gen wang; Move 1; Gen wang] j1 = Ok (out1, t1, j2) /\
    inject_run 2 t1 [Move 1; Gen wang] j2 = Ok (out2, t2, j3) /\
    map (fun tp => m_z (in_plasma_frame 1 tp)) (out1 ++ out2) = [8.5; 8.5]%R.
Proof. exact C17_speed_change_main. Qed.
Print Assumptions C17_speed_change_refuted.

(** The hypotheses are met with a non-empty loaded plasma and a history with several injections. *)
Example C17_met : exists loaded j0,
  load_species 1 7 (7 + 1) 1 1 0 1 1 1 NoDens 0 wang = (loaded, j0) /\ loaded = [wp (7 + 0.5)] /\
  c_rank (wcomm 1) = c_size (wcomm 1) - 1 /\ (0 < c_dz (wcomm 1))%R /\
  (7 + 1 <= c_zmin (wcomm 1) + IZR (c_Nz (wcomm 1)) * c_dz (wcomm 1))%R /\
  durations_ok [Move 1; Gen wang; Move 0.3; Move 2; Gen wang].
Proof.
  do 2 eexists. split; [reflexivity|]. split; [apply wgen1|]. cbn. repeat split; try lra.
  unfold durations_ok. simpl. intros d H. repeat (destruct H as [H|H]; [first [discriminate H | injection H as <-; lra]|]).
  destruct H.
Qed.
