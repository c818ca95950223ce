(** C103: the particle output as openPMD readers see it, in new files and in those of a previous simulation. *)
From Coq Require Import ZArith Reals List String Lra Lia.
From Verif Require Import Base Pdiag_Model Pdiag_Spec Pdiag_Proofs Pfile_Model Pfile_Spec Pfile_Proofs.
Import ListNotations.
Open Scope R_scope.
Open Scope list_scope.

(** A new file, or one of a previous simulation in which no record that has to be a group is a dataset: the output succeeds. A reader then finds,
    for every quantity that was asked for, the values (SI) of the selected particles, in one common order; and the right dimension, time and meaning
    with respect to the weight of the macroparticles. *)
Theorem C103_records : forall e c sh data select fraction comm junk rands ranks old, let s := sh_species sh in
  Forall (fun r => In r can_ask) data -> rules_ok select -> Forall2 (fun r l => List.length r = List.length l) rands ranks ->
  comm = true \/ List.length ranks = 1%nat -> usable s old ->
  exists t l, write_hdf5 e c (particle_diagnostic data select fraction comm s) junk rands sh ranks old = Ok t /\ selected select fraction rands ranks l /\
  forall rec comp f, In (rec, comp, f) (described e (momentum_unit (sp_m s) c)) -> asked data s rec ->
    reads t (rec, comp) (map (fun p => num (f p)) l) /\ (exists d, In (rec, d) dimension_of /\ has_dimension t rec d) /\ at_time_of_file t rec /\
    forall p, of_macroparticle t rec (w p) (num (f p)) (macro_value rec (w p) (num (f p))).
Proof.
  intros e c sh data select fraction comm junk rands ranks old s F RU F2 Cm U. unfold s in *.
  destruct (file_ok e c sh data select fraction comm junk rands ranks old F RU F2 Cm U) as (t & l & E & Sl & D & _).
  exists t, l. split; [exact E|]. split; [exact Sl|]. intros rec comp f H A. destruct (D rec comp f H A) as [D1 D2].
  split; [rewrite <- (map_map f num); apply reads_dset, D1|].
  split; [apply rec_dimension; [exact D2| |]; clear -H; unfold described in H; cbn [In] in H; repeat destruct H as [H | H]; try contradiction; injection H as <- _ _; [cbn; tauto ..|discriminate|discriminate|discriminate|discriminate|discriminate|discriminate|discriminate|discriminate|discriminate|discriminate|discriminate|discriminate|discriminate|discriminate|discriminate|discriminate]|].
  split; [apply rec_time, D2|]. intros p. apply rec_macro, D2.
Qed.
Print Assumptions C103_records.

(** Everything else in the group of the species is as before (in a new file: is absent); the groups stay usable for the next simulation. *)
Theorem C103_rest : forall e c sh data select fraction comm junk rands ranks old t, let s := sh_species sh in
  Forall (fun r => In r can_ask) data -> rules_ok select -> Forall2 (fun r l => List.length r = List.length l) rands ranks ->
  comm = true \/ List.length ranks = 1%nat -> usable s old ->
  write_hdf5 e c (particle_diagnostic data select fraction comm s) junk rands sh ranks old = Ok t ->
  (forall rec comp, ~ asked data s rec -> ~ always s rec -> rec <> "."%string ->
    nodes t (rec, comp) = match old with Some t0 => nodes t0 (rec, comp) | None => None end) /\
  (forall s', sp_ionizable s' = sp_ionizable s -> usable s' (Some t)).
Proof.
  intros e c sh data select fraction comm junk rands ranks old t s F RU F2 Cm U E. subst s.
  destruct (file_ok e c sh data select fraction comm junk rands ranks old F RU F2 Cm U) as (t' & l & E' & _ & _ & G & V & S). rewrite E in E'. injection E' as <-.
  split.
  - intros rec comp A N P. transitivity (nodes (start old) (rec, comp)); [|destruct old; reflexivity]. apply S. intros [C | (r & x & _ & Ar & T)].
    + apply N. unfold always. destruct C as [C | [C | [[I C] | [C | (y & _ & C)]]]]; injection C as C; subst; tauto.
    + assert (rec = r) by (destruct x; cbn in T; [destruct T as [T | T]; injection T; congruence|exact T]). subst r. contradiction.
  - intros s' I t0 T. injection T as <-. destruct G as (Gm & _ & (_ & Gx & Gp) & _ & Gc). split; [|split].
    + intros r R. assert (Rv : In r ["position"; "momentum"; "E"; "B"]%string \/ r = "mass"%string \/ r = po) by (cbn in R |- *; unfold po; intuition congruence).
      destruct Rv as [Rv | [-> | ->]]; [apply V, Rv| |]; intros [d D].
      * destruct Gm as [(Gm & _) _]. congruence.
      * congruence.
    + intros x. destruct (in_dec string_dec x ["x"; "y"; "z"]%string) as [X | X].
      * intros [d D]. destruct (Gx x X) as [(Gn & _) _]. unfold po in Gn. congruence.
      * apply (not_dataset (start old)); [|apply (usable_start _ old U _ eq_refl)]. apply S. intros [C | (r & y & (f & Hf) & _ & T)].
        -- destruct C as [C | [C | [[_ C] | [C | (y & Y & C)]]]]; try discriminate C. injection C as ->. contradiction.
        -- assert (r = "positionOffset"%string) by (destruct y; cbn in T; [destruct T as [T | T]; injection T; congruence|congruence]). subst r.
           unfold described in Hf. cbn [In] in Hf. repeat destruct Hf as [Hf | Hf]; try contradiction; discriminate Hf.
    + intros I'. rewrite I' in I. symmetry in I. destruct (Gc I) as [[(Gn & _) _] _]. intros [d D]. congruence.
Qed.
Print Assumptions C103_rest.

(** The mass, the charge of species that are not ionizable, and the offset of the positions: their value is right, but it is declared for one
    particle, whatever the number of particles in the other records. *)
Theorem C103_constant_refuted : forall e c sh data select fraction comm junk rands ranks old t, let s := sh_species sh in
  Forall (fun r => In r can_ask) data -> In "weighting"%string data -> rules_ok select -> Forall2 (fun r l => List.length r = List.length l) rands ranks ->
  comm = true \/ List.length ranks = 1%nat -> usable s old ->
  write_hdf5 e c (particle_diagnostic data select fraction comm s) junk rands sh ranks old = Ok t ->
  reads t ("mass"%string, None) [sp_m s] /\ (sp_ionizable s = false -> reads t ("charge"%string, None) [sp_q s]) /\
  (forall x, In x ["x"; "y"; "z"]%string -> reads t ("positionOffset"%string, Some x) [0]) /\
  forall l ms ws, selected select fraction rands ranks l -> List.length l <> 1%nat ->
    reads t ("mass"%string, None) ms -> reads t ("weighting"%string, None) ws -> List.length ws = List.length l /\ List.length ms <> List.length ws.
Proof.
  intros e c sh data select fraction comm junk rands ranks old t s F W RU F2 Cm U E. subst s.
  destruct (file_ok e c sh data select fraction comm junk rands ranks old F RU F2 Cm U) as (t' & l' & E' & Sl & D & G & _). rewrite E in E'. injection E' as <-.
  destruct G as (Gm & _ & (_ & Gx & _) & _ & Gc). split; [apply reads_const, Gm|]. split; [intros I; apply reads_const, Gc, I|]. split; [intros x X; apply reads_const, (Gx x X)|].
  intros l ms ws Sl' N Rm Rw.
  assert (El : List.length l' = List.length l).
  { destruct Sl as (k1 & K1 & ->), Sl' as (k2 & K2 & ->). f_equal. f_equal. apply filter_ext. intros [p u]. apply Bool.eq_iff_eq_true. rewrite K1, K2. reflexivity. }
  destruct (D "weighting"%string None (fun p => VF (w p))) as [Dw _]; [unfold described; cbn [In]; tauto|left; exact W|].
  pose proof (reads_dset_length _ _ _ _ Dw Rw) as Lw. rewrite map_length in Lw.
  assert (Lm : List.length ms = 1%nat) by (apply (reads_length t ("mass"%string, None)); [destruct Gm as [Ga Gb]; rewrite Gb; split; [exact Ga|exact Gb]|exact Rm]).
  split; [congruence|]. rewrite Lm, Lw. congruence.
Qed.
Print Assumptions C103_constant_refuted.

(** A record that a previous simulation wrote, and the present one was not asked for, stays, with the values of the particles of then; a reader
    finds it beside those of the present particles. *)
Theorem C103_stale_refuted : forall e c sh1 sh2 junk ranks1 ranks2, let s1 := sh_species sh1 in let s2 := sh_species sh2 in sp_ionizable s1 = sp_ionizable s2 ->
  let zeros := map (map (fun _ : pt => 0)) in
  exists t1 t2, write_hdf5 e c (particle_diagnostic ["weighting"; "gamma"]%string None None true s1) junk (zeros ranks1) sh1 ranks1 None = Ok t1 /\
    write_hdf5 e c (particle_diagnostic ["weighting"]%string None None true s2) junk (zeros ranks2) sh2 ranks2 (Some t1) = Ok t2 /\
    reads t2 ("weighting"%string, None) (map w (List.concat ranks2)) /\ reads t2 ("gamma"%string, None) (map (fun p => / inv_gamma p) (List.concat ranks1)).
Proof.
  intros e c sh1 sh2 junk ranks1 ranks2 s1 s2 I zeros. subst s1 s2.
  assert (Z : forall ranks, Forall2 (fun (r : list R) (l : list pt) => List.length r = List.length l) (zeros ranks) ranks) by (induction ranks; cbn; constructor; [apply map_length|assumption]).
  assert (Sa : forall ranks l, selected None None (zeros ranks) ranks l -> l = List.concat ranks).
  { intros ranks l (k & K & ->). assert (Kt : forall q, k q = true) by (intros [p u]; apply K; split; [intros n lo hi f []|intros f X; discriminate X]).
    replace (List.concat (zeros ranks)) with (map (fun _ : pt => 0) (List.concat ranks)) by (unfold zeros; rewrite concat_map; reflexivity).
    generalize (List.concat ranks). intros q. induction q as [|a q IH]; cbn; [reflexivity|]. rewrite Kt. cbn. f_equal. exact IH. }
  destruct (file_ok e c sh1 ["weighting"; "gamma"]%string None None true junk (zeros ranks1) ranks1 None) as (t1 & l1 & E1 & S1 & D1 & _).
  { repeat constructor; cbn; tauto. } { intros r []. } { apply Z. } { left; reflexivity. } { intros t T; discriminate T. }
  destruct (C103_rest e c sh1 ["weighting"; "gamma"]%string None None true junk (zeros ranks1) ranks1 None t1) as [_ U1]; try exact E1.
  { repeat constructor; cbn; tauto. } { intros r []. } { apply Z. } { left; reflexivity. } { intros t T; discriminate T. }
  destruct (file_ok e c sh2 ["weighting"]%string None None true junk (zeros ranks2) ranks2 (Some t1)) as (t2 & l2 & E2 & S2 & D2 & _ & _ & R2).
  { repeat constructor; cbn; tauto. } { intros r []. } { apply Z. } { left; reflexivity. } { apply U1. symmetry. exact I. }
  apply Sa in S1, S2. subst l1 l2. exists t1, t2. split; [exact E1|]. split; [exact E2|]. split.
  - rewrite <- (map_map (fun p => VF (w p)) num). apply reads_dset. apply D2; [unfold described; cbn [In]; tauto|left; left; reflexivity].
  - rewrite <- (map_map (fun p => VF (/ inv_gamma p)) num). apply reads_dset.
    destruct (D1 "gamma"%string None (fun p => VF (/ inv_gamma p))) as [[Da Db] _]; [unfold described; cbn [In]; tauto|left; right; left; reflexivity|].
    destruct (R2 ("gamma"%string, None)) as [Ra Rb]; [|cbn [start] in *; split; [rewrite Ra; exact Da|rewrite Rb; exact Db]].
    intros [C | (r & x & (f & Hf) & A & T)].
    + destruct C as [C | [C | [[_ C] | [C | (y & _ & C)]]]]; discriminate C.
    + assert (r = "gamma"%string) by (destruct x; cbn in T; [destruct T as [T | T]; injection T; congruence|congruence]). subst r.
      destruct A as [[A | []] | [[A _] | [A _]]]; discriminate A.
Qed.
Print Assumptions C103_stale_refuted.

(** If the species was ionizable in the previous simulation, and is not in this one, the output stops with TypeError. *)
Theorem C103_charge_refuted : forall e c sh1 sh2 data junk ranks1 rands2 ranks2, let s1 := sh_species sh1 in let s2 := sh_species sh2 in
  sp_ionizable s1 = true -> sp_ionizable s2 = false -> Forall (fun r => In r can_ask) data ->
  exists t1, write_hdf5 e c (particle_diagnostic data None None true s1) junk (map (map (fun _ : pt => 0)) ranks1) sh1 ranks1 None = Ok t1 /\
    write_hdf5 e c (particle_diagnostic data None None true s2) junk rands2 sh2 ranks2 (Some t1) = Err TypeError.
Proof.
  intros e c sh1 sh2 data junk ranks1 rands2 ranks2 s1 s2 I1 I2 F. subst s1 s2.
  destruct (file_ok e c sh1 data None None true junk (map (map (fun _ : pt => 0)) ranks1) ranks1 None) as (t1 & l1 & E1 & _ & D1 & G & _).
  { exact F. } { intros r []. } { induction ranks1; cbn; constructor; [apply map_length|assumption]. } { left; reflexivity. } { intros t T; discriminate T. }
  exists t1. split; [exact E1|].
  destruct (D1 "charge"%string None (fun p => VF (e * IZR (level p)))) as [[Dc _] _]; [unfold described; cbn [In]; tauto|right; right; split; [reflexivity|exact I1]|].
  destruct G as ([(Gm & _) _] & _).
  unfold write_hdf5, particle_diagnostic. cbn [pd_const]. unfold setup_openpmd_species_group. 
  change (fun (t1 : tree) (quantity : string) => bind (require_group (quantity, None) t1) _) with const_step.
  unfold constant_quantities. rewrite I2. cbn [app foldM].
  set (t0 := set_attrs self _ t1). assert (A0 : acts self t1 t0) by apply set_acts. clearbody t0.
  destruct (const_step_ok "mass" t0 ltac:(cbn; tauto)) as (t2 & E2 & _ & _ & A2).
  { intros [d D]. rewrite (proj1 (A0 ("mass"%string, None) ltac:(discriminate))) in D. congruence. }
  rewrite E2. cbn [bind]. unfold const_step at 1. unfold require_group at 1.
  rewrite (proj1 (A2 ("charge"%string, None) ltac:(discriminate))), (proj1 (A0 ("charge"%string, None) ltac:(discriminate))), Dc. reflexivity.
Qed.
Print Assumptions C103_charge_refuted.

(** The shape of the particles is said to be linear (order 1), also for the cubic one. *)
Theorem C103_shape_refuted : forall e c sh data select fraction comm junk rands ranks old t, let s := sh_species sh in
  Forall (fun r => In r can_ask) data -> rules_ok select -> Forall2 (fun r l => List.length r = List.length l) rands ranks ->
  comm = true \/ List.length ranks = 1%nat -> usable s old ->
  write_hdf5 e c (particle_diagnostic data select fraction comm s) junk rands sh ranks old = Ok t -> sh_shape sh = "cubic"%string ->
  exists k, attrs t self "particleShape"%string = Some (ANum k) /\ ~ In (sh_shape sh, k) shape_order.
Proof.
  intros e c sh data select fraction comm junk rands ranks old t s F RU F2 Cm U E Q. subst s.
  destruct (file_ok e c sh data select fraction comm junk rands ranks old F RU F2 Cm U) as (t' & l & E' & _ & _ & G & _). rewrite E in E'. injection E' as <-.
  destruct G as (_ & _ & _ & G & _). exists 1. split; [exact G|]. rewrite Q. intros [X | [X | []]]; injection X; [discriminate|intros; lra].
Qed.
Print Assumptions C103_shape_refuted.

(** The hypotheses are met: two ranks, a tracked species, a file that already has a group "position" and a record of another length. *)
Definition pt1 (i : Z) : pt := {| x := 0; y := 0; z := IZR i; ux := 0; uy := 0; uz := IZR i; inv_gamma := 1; w := 2; Ex := 0; Ey := 0; Ez := 0; Bx := 0; By := 0; Bz := 0; pid := i; level := 0 |}.
Example C103_met : let sh := {| sh_species := {| sp_q := -1; sp_m := 1; sp_tracked := true; sp_ionizable := false |}; sh_shape := "cubic" |} in
  let old := Some (link ("position"%string, Some "x"%string) (Dataset [VF 1; VF 2; VF 3; VF 4]) (link ("position"%string, None) Group empty_tree)) in
  let ranks := [[pt1 0; pt1 5]; [pt1 3]] in let rands := [[0; 0]; [0]] in
  Forall (fun r => In r can_ask) ["position"; "weighting"]%string /\ rules_ok None /\ Forall2 (fun (r : list R) (l : list pt) => List.length r = List.length l) rands ranks /\
  usable (sh_species sh) old /\ selected None None rands ranks [pt1 0; pt1 5; pt1 3] /\
  exists t, write_hdf5 1 1 (particle_diagnostic ["position"; "weighting"]%string None None true (sh_species sh)) (VF 0) rands sh ranks old = Ok t /\
    reads t ("weighting"%string, None) [2; 2; 2].
Proof.
  cbv zeta. set (sh := Build_shaped _ _). set (old := Some _).
  assert (H1 : Forall (fun r => In r can_ask) ["position"; "weighting"]%string) by (repeat constructor; cbn; tauto).
  assert (H2 : rules_ok None) by (intros r []).
  assert (H3 : Forall2 (fun (r : list R) (l : list pt) => List.length r = List.length l) [[0; 0]; [0]] [[pt1 0; pt1 5]; [pt1 3]]) by repeat constructor.
  assert (H4 : usable (sh_species sh) old).
  { intros t T. injection T as <-. split; [|split].
    - intros r R [d D]. cbn in R. repeat destruct R as [<- | R]; try contradiction; cbn in D; discriminate D.
    - intros y [d D]. cbn in D. discriminate D.
    - intros _ [d D]. cbn in D. discriminate D. }
  assert (H5 : selected None None [[0; 0]; [0]] [[pt1 0; pt1 5]; [pt1 3]] [pt1 0; pt1 5; pt1 3]).
  { exists (fun _ => true). split; [|reflexivity]. intros p u. split; [|reflexivity]. intros _. split; [intros n lo hi f []|intros f X; discriminate X]. }
  split; [exact H1|]. split; [exact H2|]. split; [exact H3|]. split; [exact H4|]. split; [exact H5|].
  destruct (C103_records 1 1 sh ["position"; "weighting"]%string None None true (VF 0) [[0; 0]; [0]] [[pt1 0; pt1 5]; [pt1 3]] old H1 H2 H3 (or_introl eq_refl) H4) as (t & l & E & Sl & D).
  exists t. split; [exact E|]. destruct (D "weighting"%string None (fun p => VF (w p))) as [Dw _]; [unfold described; cbn [In]; tauto|left; right; left; reflexivity|].
  replace l with [pt1 0; pt1 5; pt1 3] in Dw; [exact Dw|].
  destruct Sl as (k & K & ->). assert (Kt : forall q, k q = true) by (intros [p u]; apply K; split; [intros n lo hi f []|intros f X; discriminate X]). cbn. rewrite !Kt. reflexivity.
Qed.
