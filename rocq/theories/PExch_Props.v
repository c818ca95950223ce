(** C06, C07: particle exchange (CPU path). *)
From Verif Require Import Base Decomp_Model Decomp_Proofs PExch_Model PExch_Spec PExch_Proofs.
From Coq Require Import Reals Lra.
Open Scope Z_scope.

(** Full property: the statement below with [fate (fun i => i)].  What is proved: the
    integer attributes (id, ionization level) of the particles that go to the
    right are replaced by [conv_right] of their value; everything else is conserved. *)
Theorem C06_exchange_conserves_partial b size ng dz L zmin zmax inj tr io P :
  1 <= size -> (b = Periodic -> 2 <= size) -> (inj <> None -> b = Open) ->
  (forall q, 0 <= q < size -> (zmin q + IZR ng * dz <= zmax q - IZR ng * dz)%R) ->
  (forall q, 0 <= q < size -> Forall (has_attrs tr io) (P q)) ->
  (forall l, inj = Some l -> Forall (has_attrs tr io) l) ->
  exists P',
    (forall r, 0 <= r < size ->
       exchange_particles b size ng dz L zmin zmax (option_map (buffer tr io) inj)
         (fun q => arrays tr io (P q)) r = arrays tr io (P' r) /\
       Forall (has_attrs tr io) (P' r)) /\
    Permutation (all_ranks size P')
      (all_ranks size (fun r => flat_map
         (fate conv_right b size L (fun q => (zmin q + IZR ng * dz)%R)
               (fun q => (zmax q - IZR ng * dz)%R) r) (P r))
       ++ match inj with Some l => l | None => [] end).
Proof. exact (C06_main b size ng dz L zmin zmax inj tr io P). Qed.
Print Assumptions C06_exchange_conserves_partial.

(** The full property for species that are neither tracked nor ionizable. *)
Theorem C06_exchange_conserves_untracked b size ng dz L zmin zmax inj P :
  1 <= size -> (b = Periodic -> 2 <= size) -> (inj <> None -> b = Open) ->
  (forall q, 0 <= q < size -> (zmin q + IZR ng * dz <= zmax q - IZR ng * dz)%R) ->
  (forall q, 0 <= q < size -> Forall (has_attrs false false) (P q)) ->
  (forall l, inj = Some l -> Forall (has_attrs false false) l) ->
  exists P',
    (forall r, 0 <= r < size ->
       exchange_particles b size ng dz L zmin zmax (option_map (buffer false false) inj)
         (fun q => arrays false false (P q)) r = arrays false false (P' r)) /\
    Permutation (all_ranks size P')
      (all_ranks size (fun r => flat_map
         (fate (fun i => i) b size L (fun q => (zmin q + IZR ng * dz)%R)
               (fun q => (zmax q - IZR ng * dz)%R) r) (P r))
       ++ match inj with Some l => l | None => [] end).
Proof. exact (C06_no_ints b size ng dz L zmin zmax inj P). Qed.
Print Assumptions C06_exchange_conserves_untracked.

(** The full property is false for tracked species: the particle with id 1 (the only one)
    becomes a particle with id 0x3FF0000000000000 when it moves from rank 0 to rank 1. *)
Theorem C06_integer_attributes_refuted :
  exists (zmin zmax : Z -> R) (P : Z -> list part),
    (forall q, 0 <= q < 2 -> (zmin q + 1 * 1 <= zmax q - 1 * 1)%R) /\
    (forall q, Forall (has_attrs true false) (P q)) /\
    all_ranks 2 (fun q => map pid (P q)) = [Some 1] /\
    let after := exchange_particles Open 2 1 1 20 zmin zmax None (fun q => arrays true false (P q)) in
    s_id (after 0) = Some [] /\ s_id (after 1) = Some [4607182418800017408].
Proof.
  exact (ex_intro _ wit_zmin (ex_intro _ wit_zmax (ex_intro _ wit_P
    (conj wit_boxes (conj wit_attrs (conj eq_refl wit_after)))))).
Qed.
Print Assumptions C06_integer_attributes_refuted.

(** C07.  D: largest distance by which a particle may be outside of its rank's physical
    subdomain before the exchange.  Newly injected particles (last rank) are excluded. *)
Theorem C07_inside_after_exchange b c zmin zmax inj tr io P (D : R) :
  valid_comm c -> (0 < c_dz c)%R ->
  (b = Periodic -> 2 <= c_size c /\ c_nzdamp c = 0 /\ c_ninject c = 0) ->
  (inj <> None -> b = Open) ->
  (forall q, 0 <= q < c_size c -> get_zmin_zmax c true true true (Some q) = Ok (zmin q, zmax q)) ->
  (forall q, 0 <= q < c_size c -> Forall (has_attrs tr io) (P q)) ->
  (forall q, 0 <= q < c_size c ->
     (D <= (zmax q - IZR (c_nguard c) * c_dz c) - (zmin q + IZR (c_nguard c) * c_dz c))%R) ->
  (forall q p, 0 <= q < c_size c -> In p (P q) ->
     ((zmin q + IZR (c_nguard c) * c_dz c) - D <= pz p <= (zmax q - IZR (c_nguard c) * c_dz c) + D)%R) ->
  forall r, 0 <= r < c_size c ->
  exists Q,
    exchange_particles b (c_size c) (c_nguard c) (c_dz c) (IZR (c_Nz c) * c_dz c) zmin zmax
      (option_map (buffer tr io) inj) (fun q => arrays tr io (P q)) r
    = arrays tr io (Q ++ injected (c_size c) inj r) /\
    forall p, In p Q ->
      (zmin r + IZR (c_nguard c) * c_dz c <= pz p <= zmax r - IZR (c_nguard c) * c_dz c)%R.
Proof. exact (C07_main b c zmin zmax inj tr io P D). Qed.
Print Assumptions C07_inside_after_exchange.

(** Non-vacuity of C07: two periodic ranks of 10 cells, guard cells of width 2, one
    particle leaving through the periodic end. *)
Definition exp_comm : comm :=
  {| c_rank := 0; c_size := 2; c_left := Some 1; c_right := Some 1; c_Nz := 20;
     c_zmin := 0; c_dz := 1; c_nguard := 2; c_nzdamp := 0; c_ninject := 0; c_period := 1 |}.
Definition exp_part : part := mkPart 0 0 (-1) 0 0 0 1 1 (Some 7) None.
Example exp_hyps :
  let zmin := fun q => (0 + IZR (if q =? 0 then -2 else 8) * 1)%R in
  let zmax := fun q => (0 + IZR (if q =? 0 then -2 else 8) * 1 + 14 * 1)%R in
  let P := fun q => if q =? 0 then [exp_part] else [] in
  valid_comm exp_comm /\
  (forall q, 0 <= q < 2 -> get_zmin_zmax exp_comm true true true (Some q) = Ok (zmin q, zmax q)) /\
  (forall q, 0 <= q < 2 -> Forall (has_attrs true false) (P q)) /\
  (forall q, 0 <= q < 2 -> (10 <= (zmax q - 2 * 1) - (zmin q + 2 * 1))%R) /\
  (forall q p, 0 <= q < 2 -> In p (P q) ->
     ((zmin q + 2 * 1) - 10 <= pz p <= (zmax q - 2 * 1) + 10)%R).
Proof.
  cbv zeta. split; [unfold valid_comm; simpl; lia|]. split; [|split; [|split]].
  - intros q Hq. assert (q = 0 \/ q = 1) as [->| ->] by lia; reflexivity.
  - intros q _. destruct (q =? 0); repeat constructor; discriminate.
  - intros q Hq. assert (q = 0 \/ q = 1) as [->| ->] by lia; cbn [Z.eqb]; lra.
  - intros q p Hq. assert (q = 0 \/ q = 1) as [->| ->] by lia; cbn [Z.eqb]; intros Hp; [|destruct Hp].
    destruct Hp as [<-|[]]. cbn [exp_part pz]. lra.
Qed.
(** The particle at z = -1 of rank 0 is at z = 19 on rank 1 after the exchange. *)
Example exp_fate : fate conv_right Periodic 2 20 (fun q => (10 * IZR q)%R) (fun q => (10 * IZR q + 10)%R) 0 exp_part
  = [moved 20 exp_part].
Proof.
  unfold fate. cbn [exp_part pz]. destruct (Rlt_dec (-1) (10 * 0)) as [_|H]; [reflexivity|exfalso; lra].
Qed.
