(** C79: the particle output. *)
From Verif Require Import Base Pdiag_Model Pdiag_Spec Pdiag_Proofs.
From Coq Require Import Reals String Lra Lia.
Import ListNotations.
Open Scope R_scope.
Open Scope list_scope.

(** For any number of MPI ranks, and any particles on them: the output succeeds; there is one list [l] of particles, which are those that meet the
    rules (and are drawn), each of them once and in the order of the ranks; every dataset that was asked for lists, for these same
    particles, the documented quantity in SI units, with the right dimension; there is no other dataset; mass and charge are given (a constant charge
    if, and only if, the species is not ionizable). *)
Theorem C79_records : forall e c s data select fraction comm junk rands ranks,
  Forall (fun r => In r can_ask) data -> rules_ok select -> Forall2 (fun r l => List.length r = List.length l) rands ranks ->
  comm = true \/ List.length ranks = 1%nat ->
  exists g l, write_hdf5 e c (particle_diagnostic data select fraction comm s) junk rands s ranks = Ok g /\
    (exists keep, (forall p u, keep (p, u) = true <-> meets (rules_of select) p /\ drawn fraction u) /\
      l = map fst (filter keep (combine (List.concat ranks) (List.concat rands)))) /\
    (forall req path f, In (req, path, f) (documented e (momentum_unit (sp_m s) c)) -> asked data s req ->
      dset g path = Some (map f l) /\ exists v, dims g req = Some v /\ In (req, v) dimension_of) /\
    (forall path, (forall req f, In (req, path, f) (documented e (momentum_unit (sp_m s) c)) -> ~ asked data s req) -> dset g path = None) /\
    constv g "mass"%string = Some (sp_m s) /\ constv g "charge"%string = (if sp_ionizable s then None else Some (sp_q s)).
Proof.
  intros e c s data select fraction comm junk rands ranks F RU F2 Cm.
  destruct (write_ok e c s s data select fraction comm junk rands ranks F RU F2 Cm (fun H => H) (fun H => H)) as (g & l & E & K & D & N & M & _ & Q).
  exists g, l. split; [exact E|]. split; [exact K|]. split; [|split; [exact N|split; [exact M|exact Q]]].
  intros req path f H A. destruct (D req path f H A) as (V & v & Dv & Sv). split; [exact V|]. exists v. split; [exact Dv|]. apply dimension_right; [| |exact Sv].
  - intros ->. cbn in H. repeat destruct H as [H | H]; try discriminate H; contradiction.
  - cbn in H. repeat destruct H as [H | H]; try contradiction; injection H as <- _ _; cbn; tauto.
Qed.
Print Assumptions C79_records.

(** The mass is declared to be a length, in every file. *)
Theorem C79_mass_refuted : forall e c s data select fraction comm junk rands ranks g,
  Forall (fun r => In r can_ask) data -> rules_ok select -> Forall2 (fun r l => List.length r = List.length l) rands ranks ->
  comm = true \/ List.length ranks = 1%nat ->
  write_hdf5 e c (particle_diagnostic data select fraction comm s) junk rands s ranks = Ok g -> dims g "mass"%string = Some length_ /\ ~ In ("mass"%string, length_) dimension_of.
Proof.
  intros e c s data select fraction comm junk rands ranks g F RU F2 Cm E.
  destruct (write_ok e c s s data select fraction comm junk rands ranks F RU F2 Cm (fun H => H) (fun H => H)) as (g' & l & E' & _ & _ & _ & _ & (v & Dv & Sv) & _).
  rewrite E in E'. injection E' as <-. cbn in Sv. injection Sv as <-. split; [exact Dv|]. cbn. intros H. repeat destruct H as [H | H]; try discriminate H; contradiction.
Qed.
Print Assumptions C79_mass_refuted.

(** A species that is made ionizable or tracked after the diagnostic was created: the file has one constant charge q = e for all the ions, whatever
    their level, and no identifiers. *)
Theorem C79_late_refuted : forall e c s0 s junk ranks, sp_ionizable s0 = false -> sp_tracked s0 = false -> sp_q s = e ->
  exists g, write_hdf5 e c (particle_diagnostic ["position"%string] None None true s0) junk (map (map (fun _ => 0)) ranks) s ranks = Ok g /\
    dset g "charge"%string = None /\ constv g "charge"%string = Some e /\ dset g "id"%string = None.
Proof.
  intros e c s0 s junk ranks I T Q.
  destruct (write_ok e c s0 s ["position"%string] None None true junk (map (map (fun _ => 0)) ranks) ranks) as (g & l & E & _ & _ & N & _ & _ & K).
  - repeat constructor; cbn; tauto.
  - intros r [].
  - induction ranks; cbn; constructor; [apply map_length|assumption].
  - left. reflexivity.
  - rewrite T. discriminate.
  - rewrite I. discriminate.
  - exists g. split; [exact E|]. split; [|split; [rewrite K, I, Q; reflexivity|]]; apply N; intros req f H; cbn in H;
      repeat destruct H as [H | H]; try contradiction; try discriminate H; injection H as <- _; unfold asked; rewrite I, T; cbn; intros [[X | []] | [[_ X] | [_ X]]]; discriminate X.
Qed.
Print Assumptions C79_late_refuted.

(** The fields at the particles are the gathered ones, for charged species. *)
Theorem C79_fields : forall s junk gathered l, sp_q s <> 0 -> (forall p v, gathered (set_fields v p) = gathered p) ->
  map (fun p => (Ex p, Ey p, Ez p, (Bx p, By p, Bz p))) (exchange_and_gather s junk gathered l) = map gathered l /\
  map (fun p => (x p, y p, z p, (ux p, uy p, uz p))) (exchange_and_gather s junk gathered l) = map (fun p => (x p, y p, z p, (ux p, uy p, uz p))) l.
Proof.
  intros s junk gathered l Q G. unfold exchange_and_gather. destruct (Req_EM_T (sp_q s) 0); [contradiction|]. rewrite !map_map. split; apply map_ext; intros p.
  - rewrite G. unfold set_fields. destruct (gathered p) as [[[a b] d] [[a' b'] d']]. destruct (junk p) as [[[? ?] ?] [[? ?] ?]]. reflexivity.
  - unfold set_fields. destruct (gathered _) as [[[a b] d] [[a' b'] d']]. destruct (junk p) as [[[? ?] ?] [[? ?] ?]]. reflexivity.
Qed.
Print Assumptions C79_fields.
(** For a neutral species, what is written as the field is the content of uninitialized memory. *)
Theorem C79_neutral_refuted : forall e c s v gathered ranks jk, sp_q s = 0 ->
  exists g, write_hdf5 e c (particle_diagnostic ["E"%string] None None true s) jk (map (map (fun _ => 0)) ranks) s (map (exchange_and_gather s (fun _ => (v, v, v, (v, v, v))) gathered) ranks) = Ok g /\
    dset g "E/x"%string = Some (map (fun _ => VF v) (List.concat ranks)).
Proof.
  intros e c s v gathered ranks jk Q.
  destruct (write_ok e c s s ["E"%string] None None true jk (map (map (fun _ => 0)) ranks) (map (exchange_and_gather s (fun _ => (v, v, v, (v, v, v))) gathered) ranks)) as (g & l & E & (keep & K & L) & D & _).
  - repeat constructor; cbn; tauto.
  - intros r [].
  - unfold exchange_and_gather. destruct (Req_EM_T (sp_q s) 0); [|contradiction]. clear -ranks. induction ranks; cbn; constructor; [rewrite !map_length; reflexivity|assumption].
  - left. reflexivity.
  - tauto.
  - tauto.
  - exists g. split; [exact E|]. destruct (D "E"%string "E/x"%string (fun p => VF (Ex p))) as [V _]; [cbn; tauto|left; left; reflexivity|].
    rewrite V. f_equal. clear V D E.
    assert (A : forall q, keep q = true) by (intros [p u]; apply K; split; [intros n lo hi f []|intros f F; discriminate]).
    assert (B : filter keep (combine (List.concat (map (exchange_and_gather s (fun _ => (v, v, v, (v, v, v))) gathered) ranks)) (List.concat (map (map (fun _ => 0)) ranks))) = combine (List.concat (map (exchange_and_gather s (fun _ => (v, v, v, (v, v, v))) gathered) ranks)) (List.concat (map (map (fun _ => 0)) ranks))).
    { generalize (combine (List.concat (map (exchange_and_gather s (fun _ => (v, v, v, (v, v, v))) gathered) ranks)) (List.concat (map (map (fun _ => 0)) ranks))). intros q. induction q as [|a q IH]; cbn; [reflexivity|]. rewrite A, IH. reflexivity. }
    rewrite L, B. clear -Q. unfold exchange_and_gather. destruct (Req_EM_T (sp_q s) 0); [|contradiction].
    rewrite <- !concat_map. generalize (List.concat ranks). intros q. induction q as [|a q IH]; cbn; [reflexivity|]. f_equal. exact IH.
Qed.
Print Assumptions C79_neutral_refuted.

(** The hypotheses are met: two ranks, a tracked species, momenta above a threshold, every second particle drawn. *)
Definition pt0 (i : Z) : pt := {| x := 0; y := 0; z := IZR i; ux := 0; uy := 0; uz := IZR i; inv_gamma := 1; w := 1; Ex := 0; Ey := 0; Ez := 0; Bx := 0; By := 0; Bz := 0; pid := i; level := 0 |}.
Example C79_met : let select := Some [("uz"%string, (Some 1, None)); ("gamma"%string, (None, Some 10))] in
  let ranks := [[pt0 0; pt0 5]; []; [pt0 3]] in let rands := [[0.1; 0.7]; []; [0.2]] in
  Forall (fun r => In r can_ask) ["position"; "momentum"; "gamma"]%string /\ rules_ok select /\ Forall2 (fun (r : list R) (l : list pt) => List.length r = List.length l) rands ranks /\
  meets (rules_of select) (pt0 3) /\ drawn (Some 0.5) 0.2 /\ ~ meets (rules_of select) (pt0 0).
Proof.
  cbv zeta. split; [repeat constructor; cbn; tauto|]. split; [|split; [repeat constructor|split; [|split]]].
  - intros r [<- | [<- | []]]; eexists; cbn; repeat (first [left; reflexivity | right]).
  - intros n lo hi f [E | [E | []]] I; injection E as <- <- <-; cbn in I; repeat destruct I as [I | I]; try discriminate I; try contradiction; injection I as <-;
      split; intros b B; try discriminate B; injection B as <-; cbn; lra.
  - intros f E. injection E as <-. lra.
  - intros M. destruct (M "uz"%string (Some 1) None uz) as [H _]; [left; reflexivity|cbn; tauto|]. specialize (H 1 eq_refl). cbn in H. lra.
Qed.
