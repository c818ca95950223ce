(** C108: from the output of a simulation to a bunch of another one. *)
From Coq Require Import ZArith Reals List String Lra Lia Permutation.
From Verif Require Import Base Decomp_Model Boost_Model Bunch_Model Bunch_Proofs Pdiag_Model Pdiag_Spec Pdiag_Proofs Pfile_Model Pfile_Spec Pfile_Proofs Trip_Spec Trip_Proofs.
Import ListNotations.
Open Scope R_scope.

Ltac member := unfold described; repeat (first [left; reflexivity | right]).
(** Any species with a mass, written by any number of processes with any selection, into a new or an old file. The file determines the phase space that a reader finds. *)
Theorem C108_phase_space : forall e cl sh data select fraction comm junk rands ranks old t, let s := sh_species sh in
  Forall (fun r => In r can_ask) data -> incl ["position"; "momentum"; "weighting"]%string data -> rules_ok select -> Forall2 (fun r l => List.length r = List.length l) rands ranks ->
  comm = true \/ List.length ranks = 1%nat -> usable s old -> 0 < sp_m s -> 0 < cl ->
  write_hdf5 e cl (particle_diagnostic data select fraction comm s) junk rands sh ranks old = Ok t ->
  exists l, selected select fraction rands ranks l /\ forall bs, in_file t cl bs <-> 
    map b_x bs = map x l /\ map b_y bs = map y l /\ map b_z bs = map z l /\ map b_ux bs = map ux l /\ map b_uy bs = map uy l /\ map b_uz bs = map uz l /\ map b_w bs = map w l.
Proof.
  intros e cl sh data select fraction comm junk rands ranks old t s F I RU F2 Cm U M C E. unfold s in *.
  destruct (file_ok e cl sh data select fraction comm junk rands ranks old F RU F2 Cm U) as (t' & l & E' & Sl & D & G & _). rewrite E in E'. injection E' as <-.
  exists l. split; [exact Sl|]. destruct G as (Gm & _). pose proof (reads_const _ _ _ Gm) as Rm.
  assert (R : forall rec comp f, In (rec, comp, f) (described e (momentum_unit (sp_m (sh_species sh)) cl)) -> In rec data -> reads t (rec, comp) (map (fun p => num (f p)) l)).
  { intros rec comp f H A. rewrite <- (map_map f num). apply reads_dset, (D rec comp f H). left. exact A. }
  assert (Ip : In "position"%string data) by (apply I; repeat (first [left; reflexivity | right])). assert (Im : In "momentum"%string data) by (apply I; repeat (first [left; reflexivity | right])). assert (Iw : In "weighting"%string data) by (apply I; repeat (first [left; reflexivity | right])).
  set (k := sp_m (sh_species sh) * cl) in *. assert (K : k <> 0) by (assert (0 < k) by (apply Rmult_lt_0_compat; assumption); lra).
  assert (MU : momentum_unit (sp_m (sh_species sh)) cl = k) by (unfold momentum_unit; destruct (Rlt_dec _ _); [reflexivity|contradiction]). rewrite MU in R.
  pose proof (R "position" (Some "x") (fun p => VF (x p)) ltac:(member) Ip)%string as Rx.
  pose proof (R "position" (Some "y") (fun p => VF (y p)) ltac:(member) Ip)%string as Ry.
  pose proof (R "position" (Some "z") (fun p => VF (z p)) ltac:(member) Ip)%string as Rz.
  pose proof (R "momentum" (Some "x") (fun p => VF (k * ux p)) ltac:(member) Im)%string as Ru.
  pose proof (R "momentum" (Some "y") (fun p => VF (k * uy p)) ltac:(member) Im)%string as Rv.
  pose proof (R "momentum" (Some "z") (fun p => VF (k * uz p)) ltac:(member) Im)%string as Rt.
  pose proof (R "weighting" None (fun p => VF (w p)) ltac:(member) Iw)%string as Rw.
  clear D E R U Gm. cbn [num] in Rx, Ry, Rz, Ru, Rv, Rt, Rw. intros bs. split.
  - intros (Bx & By & Bz & Bw & m & Bm & Bu & Bv & Bt). pose proof (reads_fun _ _ _ _ Bm Rm) as Em. injection Em as ->. fold k in Bu, Bv, Bt.
    rewrite (beams k K l bs (reads_fun _ _ _ _ Rx Bx) (reads_fun _ _ _ _ Ry By) (reads_fun _ _ _ _ Rz Bz) (reads_fun _ _ _ _ Rw Bw) (reads_fun _ _ _ _ Ru Bu) (reads_fun _ _ _ _ Rv Bv) (reads_fun _ _ _ _ Rt Bt)).
    rewrite !map_map. repeat split; reflexivity.
  - intros (A1 & A2 & A3 & A4 & A5 & A6 & A7). unfold in_file. rewrite A1, A2, A3, A7. split; [exact Rx|]. split; [exact Ry|]. split; [exact Rz|]. split; [exact Rw|].
    exists (sp_m (sh_species sh)). split; [exact Rm|]. fold k.
    rewrite (scale k _ _ _ _ A4), (scale k _ _ _ _ A5), (scale k _ _ _ _ A6). split; [exact Ru|]. split; [exact Rv|exact Rt].
Qed.
Print Assumptions C108_phase_space.

(** The bunch that add_particle_bunch_openPMD loads from this file, with or without boost, on all the processes of the second simulation together: one copy of each of the written
    particles, all moved along z by the same distance, which brings their mean position to z_off, except those that would be outside of the box. *)
Theorem C108_round_trip : forall e cl sh data select fraction comm junk rands ranks old t z_off bs boost c, let s := sh_species sh in
  Forall (fun r => In r can_ask) data -> incl ["position"; "momentum"; "weighting"]%string data -> rules_ok select -> Forall2 (fun r l => List.length r = List.length l) rands ranks ->
  comm = true \/ List.length ranks = 1%nat -> usable s old -> 0 < sp_m s -> 0 < cl ->
  write_hdf5 e cl (particle_diagnostic data select fraction comm s) junk rands sh ranks old = Ok t -> in_file t cl bs ->
  (forall p, In p (List.concat ranks) -> consistent p) -> valid_comm c -> 0 < c_dz c ->
  exists l, selected select fraction rands ranks l /\ (total w l <> 0 ->
  exists bs' zmin zmax, openpmd_beam z_off bs = Ok bs' /\ get_zmin_zmax c false false false None = Ok (zmin, zmax) /\
  total (fun p => (z p + (z_off - centroid l)) * w p) l / total w l = z_off /\
  Permutation (flat_map (loaded_on cl boost bs' c) (range (c_size c)))
    (filter (fun a => Bunch_Model.selected zmin zmax (pz (m_p a))) (map (fun p => in_frame cl boost (copy_of (z_off - centroid l) p)) l))).
Proof.
  intros e cl sh data select fraction comm junk rands ranks old t z_off bs boost c s F I RU F2 Cm U M C E B Co V Dz.
  destruct (C108_phase_space e cl sh data select fraction comm junk rands ranks old t F I RU F2 Cm U M C E) as (l & Sl & H). exists l. split; [exact Sl|]. intros N.
  apply H in B. destruct B as (A1 & A2 & A3 & A4 & A5 & A6 & A7).
  assert (Eb : bs = map beam_of l).
  { apply (beams 1 R1_neq_R0); try (symmetry; assumption); apply scale; symmetry; assumption. }
  assert (Cl : forall p, In p l -> consistent p).
  { intros p Hp. apply Co. destruct Sl as (keep & _ & ->). apply in_map_iff in Hp. destruct Hp as ([q u] & <- & Hq). apply filter_In in Hq. apply (in_combine_l _ _ _ _ (proj1 Hq)). }
  subst bs. exists (map (fun p => {| b_x := x p; b_y := y p; b_z := z p - centroid l + z_off; b_ux := ux p; b_uy := uy p; b_uz := uz p; b_w := w p |}) l).
  destruct (C44_main cl boost (map (fun p => {| b_x := x p; b_y := y p; b_z := z p - centroid l + z_off; b_ux := ux p; b_uy := uy p; b_uz := uz p; b_w := w p |}) l) c V Dz) as (zmin & zmax & Ez & _ & P & _).
  exists zmin, zmax. split; [apply centred, N|]. split; [exact Ez|]. split; [rewrite shifted_mean by exact N; ring|]. rewrite (copies z_off l cl boost Cl) in P. exact P.
Qed.
Print Assumptions C108_round_trip.

(** Nothing to load, or weights that add up to zero: an exception. *)
Theorem C108_empty : forall z_off, openpmd_beam z_off [] = Err ZeroDivisionError.
Proof. intros z_off. unfold openpmd_beam. cbn. destruct (Req_EM_T 0 0) as [_|N]; [reflexivity|exfalso; apply N; reflexivity]. Qed.
Print Assumptions C108_empty.

(** The hypotheses are met: three particles of two processes at z = 0, 5, 3 with weight 2, in a new file; the bunch is centred on z = 1 in a box from -8 to 8. *)
Definition pt1 (i : Z) : pt := {| x := 0; y := 0; z := IZR i; ux := 0; uy := 0; uz := 0; inv_gamma := 1; w := 2; Ex := 0; Ey := 0; Ez := 0; Bx := 0; By := 0; Bz := 0; pid := i; level := 0 |}.
Definition box : comm := {| c_rank := 0; c_size := 2; c_left := None; c_right := None; c_Nz := 16; c_zmin := -8; c_dz := 1; c_nguard := 0; c_nzdamp := 0; c_ninject := 0; c_period := 1 |}.
Example C108_met : let sh := {| sh_species := {| sp_q := -1; sp_m := 1; sp_tracked := false; sp_ionizable := false |}; sh_shape := "linear" |} in
  let ranks := [[pt1 0; pt1 5]; [pt1 3]] in let rands := [[0; 0]; [0]] in let data := ["position"; "momentum"; "weighting"]%string in
  Forall (fun r => In r can_ask) data /\ incl ["position"; "momentum"; "weighting"]%string data /\ rules_ok None /\
  Forall2 (fun (r : list R) (l : list pt) => List.length r = List.length l) rands ranks /\ usable (sh_species sh) None /\
  (forall p, In p (List.concat ranks) -> consistent p) /\ valid_comm box /\ 0 < c_dz box /\ total w (List.concat ranks) <> 0 /\
  exists t bs, write_hdf5 1 1 (particle_diagnostic data None None true (sh_species sh)) (VF 0) rands sh ranks None = Ok t /\ in_file t 1 bs.
Proof.
  cbv zeta. set (sh := Build_shaped _ _). set (data := ["position"; "momentum"; "weighting"]%string).
  assert (H1 : Forall (fun r => In r can_ask) data) by (repeat constructor; cbn; tauto).
  assert (H2 : rules_ok None) by (intros r []).
  assert (H3 : Forall2 (fun (r : list R) (l : list pt) => List.length r = List.length l) [[0; 0]; [0]] [[pt1 0; pt1 5]; [pt1 3]]) by repeat constructor.
  assert (H4 : usable (sh_species sh) None) by (intros t T; discriminate T).
  split; [exact H1|]. split; [intros r H; exact H|]. split; [exact H2|]. split; [exact H3|]. split; [exact H4|]. split.
  { intros p Hp. cbn in Hp. unfold consistent. repeat destruct Hp as [<- | Hp]; try contradiction; cbn; replace (1 + 0 * (0 * 1) + 0 * (0 * 1) + 0 * (0 * 1)) with 1 by ring; rewrite sqrt_1; field. }
  split; [unfold valid_comm; cbn; lia|]. split; [cbn; lra|]. split; [unfold total; cbn; lra|].
  destruct (file_ok 1 1 sh data None None true (VF 0) [[0; 0]; [0]] [[pt1 0; pt1 5]; [pt1 3]] None H1 H2 H3 (or_introl eq_refl) H4) as (t & l & E & _). exists t.
  destruct (C108_phase_space 1 1 sh data None None true (VF 0) [[0; 0]; [0]] [[pt1 0; pt1 5]; [pt1 3]] None t H1 (fun r H => H) H2 H3 (or_introl eq_refl) H4 Rlt_0_1 Rlt_0_1 E) as (l' & _ & H).
  exists (map beam_of l'). split; [exact E|]. apply H. rewrite !map_map. repeat split; reflexivity.
Qed.
