(** C27: ionization conserves particles and charge. C28: ionization probabilities. *)
From Verif Require Import Base Sort_Model Ionize_Model Ionize_Spec Ionize_Proofs.
From Coq Require Import Reals Lra.
Open Scope Z_scope.

(** One ionization step, for any ions, levels, draws, batch size, and any assignment of the levels
    to species (also several levels to the same one). It does not fail; each species keeps its
    electrons and receives, in order, a copy of each ion that left a level assigned to it; every
    slot is filled. *)
Theorem C27_electrons c tab level_start level_max Ntot batch_size ion draw (per_level : bool) targets s st :
  0 < batch_size -> 0 <= Ntot -> levels_ok level_start level_max Ntot s -> sizes_ok st ->
  Z.of_nat (length targets) = (if per_level then level_max - level_start else 1) ->
  exists s' st',
    handle_ionization c tab level_start level_max Ntot batch_size ion draw per_level targets s st = Ok (s', st') /\
    forall o, content st' o = content st o ++ map Some (received c tab level_start level_max Ntot ion draw per_level targets s o).
Proof.
  intros Hb HN Hlv Hs Hl.
  destruct (handled_ok c tab level_start level_max Ntot batch_size ion draw per_level Hb HN s st targets Hl) as (s' & st' & E).
  exists s', st'. split; [exact E|].
  exact (proj2 (proj2 (handled c tab level_start level_max Ntot batch_size ion draw per_level Hb HN s st targets s' st' Hlv Hs Hl E))).
Qed.
Print Assumptions C27_electrons.

(** The levels: one more for each event, the others unchanged; bounds and w_times_level are kept. *)
Theorem C27_levels c tab level_start level_max Ntot batch_size ion draw (per_level : bool) targets s st s' st' :
  0 < batch_size -> 0 <= Ntot -> levels_ok level_start level_max Ntot s -> weights_ok Ntot ion s -> sizes_ok st ->
  Z.of_nat (length targets) = (if per_level then level_max - level_start else 1) ->
  handle_ionization c tab level_start level_max Ntot batch_size ion draw per_level targets s st = Ok (s', st') ->
  levels_ok level_start level_max Ntot s' /\ weights_ok Ntot ion s' /\ sizes_ok st' /\
  forall ip, 0 <= ip < Ntot -> ionization_level s' ip =
    (if event c tab level_max ion draw s ip then ionization_level s ip + 1 else ionization_level s ip).
Proof.
  intros Hb HN Hlv Hw Hs Hl E.
  destruct (levels_kept c tab level_start level_max Ntot batch_size ion draw per_level Hb HN s st targets s' st' Hlv Hw Hs Hl E) as (A & B & C).
  split; [exact A|]. split; [exact B|]. split; [exact C|].
  exact (level_each c tab level_start level_max Ntot batch_size ion draw per_level Hb HN s st targets s' st' Hlv Hs Hl E).
Qed.
Print Assumptions C27_levels.

(** Number of electrons created over all the species = number of events. *)
Theorem C27_count c tab level_start level_max Ntot batch_size ion draw (per_level : bool) targets s st s' st' objs :
  0 < batch_size -> 0 <= Ntot -> levels_ok level_start level_max Ntot s -> sizes_ok st ->
  Z.of_nat (length targets) = (if per_level then level_max - level_start else 1) ->
  NoDup objs -> (forall o, In o targets -> In o objs) ->
  handle_ionization c tab level_start level_max Ntot batch_size ion draw per_level targets s st = Ok (s', st') ->
  sumR (fun o => IZR (fst (st' o))) objs =
  (sumR (fun o => IZR (fst (st o))) objs + INR (length (events c tab level_max Ntot ion draw s)))%R.
Proof.
  intros Hb HN Hlv Hs Hl Hn Hi E.
  exact (count_kept c tab level_start level_max Ntot batch_size ion draw per_level Hb HN s st targets s' st' objs Hlv Hs Hl Hn Hi E).
Qed.
Print Assumptions C27_count.

Theorem C27_charge c tab level_start level_max Ntot batch_size ion draw (per_level : bool) targets s st s' st' objs :
  0 < batch_size -> 0 <= Ntot -> levels_ok level_start level_max Ntot s -> weights_ok Ntot ion s -> sizes_ok st ->
  Z.of_nat (length targets) = (if per_level then level_max - level_start else 1) ->
  NoDup objs -> (forall o, In o targets -> In o objs) ->
  handle_ionization c tab level_start level_max Ntot batch_size ion draw per_level targets s st = Ok (s', st') ->
  charge Ntot objs s' st' = charge Ntot objs s st.
Proof.
  intros Hb HN Hlv Hw Hs Hl Hn Hi E.
  exact (charge_kept c tab level_start level_max Ntot batch_size ion draw per_level Hb HN s st targets s' st' objs Hlv Hw Hs Hl Hn Hi E).
Qed.
Print Assumptions C27_charge.

(** C28. The amplitude never fails and is the field in the rest frame of the ion. *)
Theorem C28_amplitude ux uy uz Ex Ey Ez cBx cBy cBz :
  (0 <= E2_on_particle ux uy uz Ex Ey Ez cBx cBy cBz)%R /\
  get_E_amplitude ux uy uz Ex Ey Ez cBx cBy cBz =
    Ok (sqrt (rest_frame_E2 ux uy uz Ex Ey Ez cBx cBy cBz), sqrt (1 + ux ^ 2 + uy ^ 2 + uz ^ 2)).
Proof.
  split; [apply E2_nonneg|]. unfold get_E_amplitude. cbv zeta. pose proof (E2_nonneg ux uy uz Ex Ey Ez cBx cBy cBz).
  destruct (Rlt_dec _ 0); [lra|]. rewrite E2_rest. reflexivity.
Qed.
Print Assumptions C28_amplitude.
Theorem C28_probability c tab ion ip level : (0 <= adk_prefactor tab level)%R ->
  (0 <= probability c tab ion ip level < 1)%R.
Proof.
  intros H. unfold probability. cbv zeta. rewrite (proj2 (C28_amplitude _ _ _ _ _ _ _ _ _)). apply prob_range; [|exact H].
  apply sqrt_lt_R0. set (a := ion ip). pose proof (pow2_ge_0 (ux a)). pose proof (pow2_ge_0 (uy a)). pose proof (pow2_ge_0 (uz a)). lra.
Qed.
Print Assumptions C28_probability.
(** Zero without field; positive as soon as the field in the rest frame is not zero. *)
Theorem C28_no_field c tab ion ip level :
  (Ex (ion ip) = 0 /\ Ey (ion ip) = 0 /\ Ez (ion ip) = 0 /\ Bx (ion ip) = 0 /\ By (ion ip) = 0 /\ Bz (ion ip) = 0)%R ->
  probability c tab ion ip level = 0%R.
Proof.
  intros (H1 & H2 & H3 & H4 & H5 & H6). unfold probability. cbv zeta. rewrite (proj2 (C28_amplitude _ _ _ _ _ _ _ _ _)).
  rewrite H1, H2, H3, H4, H5, H6. rewrite <- E2_rest. unfold E2_on_particle. cbv zeta.
  match goal with |- get_ionization_probability (sqrt ?a) _ _ _ _ = _ => replace a with 0%R by ring end.
  rewrite sqrt_0. unfold get_ionization_probability. destruct (Req_EM_T 0 0); [reflexivity|congruence].
Qed.
Print Assumptions C28_no_field.
Theorem C28_field_ionizes c tab ion ip level : (0 < adk_prefactor tab level)%R ->
  (0 < (let a := ion ip in rest_frame_E2 (ux a) (uy a) (uz a) (Ex a) (Ey a) (Ez a) (c * Bx a) (c * By a) (c * Bz a)))%R ->
  (0 < probability c tab ion ip level)%R.
Proof.
  intros H HE. unfold probability. cbv zeta in *. rewrite (proj2 (C28_amplitude _ _ _ _ _ _ _ _ _)). apply prob_positive; [|exact H|].
  - apply sqrt_lt_R0. set (a := ion ip). pose proof (pow2_ge_0 (ux a)). pose proof (pow2_ge_0 (uy a)). pose proof (pow2_ge_0 (uz a)). lra.
  - apply Rgt_not_eq. apply sqrt_lt_R0. exact HE.
Qed.
Print Assumptions C28_field_ionizes.

(** 12 ions in batches of 10, levels 0 and 1 out of 2, a field along x, draws 0: all are ionized;
    two levels stored in two species, or both in the same one. *)
Definition ex_ion (ip : Z) : ptc :=
  {| x := IZR ip; y := 0; z := 0; ux := 0; uy := 0; uz := 1; inv_gamma := 1; w := 1 + IZR ip; Ex := 1; Ey := 0; Ez := 0; Bx := 0; By := 0; Bz := 0 |}%R.
Definition ex_tab : adk := {| adk_prefactor := fun _ => 1; adk_power := fun _ => 1; adk_exp_prefactor := fun _ => -1 |}%R.
Definition ex_s : istate := {| ionized_from := fun _ => 0; n_ionized := fun _ _ => 7; ionization_level := fun ip => ip mod 2;
  w_times_level := fun ip => ((1 + IZR ip) * IZR (ip mod 2))%R |}.
Definition ex_st : store := fun _ => (1, fun _ => Some (ex_ion 0)).
Example C27_C28_met : levels_ok 0 2 12 ex_s /\ weights_ok 12 ex_ion ex_s /\ sizes_ok ex_st /\
  Z.of_nat (length [0%nat; 1%nat]) = 2 - 0 /\ Z.of_nat (length [3%nat; 3%nat]) = 2 - 0 /\
  (forall ip, 0 <= ip < 12 -> event 1 ex_tab 2 ex_ion (fun _ => 0%R) ex_s ip = true) /\ (0 < adk_prefactor ex_tab 1)%R.
Proof.
  assert (M : forall ip, 0 <= ip mod 2 < 2) by (intros; apply Z.mod_pos_bound; lia).
  split; [intros ip _; cbn [ionization_level ex_s]; specialize (M ip); lia|].
  split; [intros ip _; reflexivity|]. split; [intros o; cbn; lia|]. split; [reflexivity|]. split; [reflexivity|]. split; [|cbn; lra].
  intros ip _. unfold event. cbn [ionization_level ex_s]. specialize (M ip). replace (ip mod 2 <? 2) with true by lia. cbn [andb].
  destruct (Rlt_dec _ _) as [|n]; [reflexivity|]. exfalso. apply n. apply C28_field_ionizes; [cbn; lra|].
  cbv zeta. rewrite <- E2_rest. unfold E2_on_particle. cbn [ex_ion Ex Ey Ez ux uy uz Bx By Bz]. cbv zeta.
  pose proof (sqrt_lt_R0 (1 + 0 ^ 2 + 0 ^ 2 + 1 ^ 2) ltac:(lra)). set (g := sqrt _) in *. nra.
Qed.
