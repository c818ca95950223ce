(** C01, C02: domain decomposition, gather/scatter. *)
From Verif Require Import Base Decomp_Model Decomp_Spec Decomp_Proofs.
From Coq Require Import Reals Lra.
From Flocq Require Import Core.Core.
Open Scope Z_scope.

(** The constructor establishes the precondition used below. *)
Theorem C01_constructor_valid Nz zmin zmax b rank size n_order g st nd ni cdt ep c :
  init Nz zmin zmax b rank size n_order g st nd ni cdt ep = Ok c ->
  1 <= size -> 0 <= rank < size -> 0 <= Nz -> 0 <= st -> 0 <= nd ->
  (forall k, g = Some k -> 0 <= k) -> (forall k, ni = Some k -> 0 <= k) ->
  valid_comm c.
Proof. exact (init_valid Nz zmin zmax b rank size n_order g st nd ni cdt ep c). Qed.
Print Assumptions C01_constructor_valid.

(** C01: the cell ranges of the ranks tile the global range. *)
Theorem C01_decomposition_tiles c damp : valid_comm c ->
  exists parts wh,
    (forall r, 0 <= r < c_size c -> get_Nz_and_iz c true damp false (Some r) = Ok (parts r)) /\
    get_Nz_and_iz c false damp false None = Ok wh /\
    tiles (c_size c) parts wh /\
    (forall r, 0 <= r < c_size c ->
       get_Nz_and_iz c true damp true (Some r)
         = Ok (fst (parts r) + 2 * c_nguard c, snd (parts r) - c_nguard c)) /\
    get_Nz_and_iz c false damp true None
         = Ok (fst wh + 2 * c_nguard c, snd wh - c_nguard c).
Proof. exact (C01_main c damp). Qed.
Print Assumptions C01_decomposition_tiles.

(** C01, edges in z: every position of the global box is in exactly one local box. *)
Theorem C01_edges_tile c damp : valid_comm c -> (0 < c_dz c)%R ->
  exists edg wh,
    (forall r, 0 <= r < c_size c -> get_zmin_zmax c true damp false (Some r) = Ok (edg r)) /\
    get_zmin_zmax c false damp false None = Ok wh /\
    tiles_R (c_size c) edg wh /\
    (forall r, 0 <= r -> r + 1 < c_size c -> snd (edg r) = fst (edg (r + 1))) /\
    (forall r, 0 <= r < c_size c -> (fst (edg r) <= snd (edg r))%R).
Proof. exact (C01_main_R c damp). Qed.
Print Assumptions C01_edges_tile.

(** C01: [int(Nz/size)], computed through a double-precision quotient rounded to
    nearest-even, is the exact integer quotient. *)
Theorem C01_double_quotient_exact a b : 0 <= a -> 0 < b -> a + b <= 2 ^ 53 ->
  Ztrunc (round radix2 (FLT_exp (-1074) 53) ZnearestE (IZR a / IZR b)) = a / b.
Proof. exact (div64_exact a b). Qed.
Print Assumptions C01_double_quotient_exact.

(** C02: gather after scatter is the identity, whatever is in the guard cells. *)
Theorem C02_gather_scatter_roundtrip {A : Type} (zero : A) c Nr damp
        (arr : @array2 A) (arrs : Z -> @array2 A) :
  valid_comm c -> 0 < Nr ->
  (forall k, 0 <= k < c_size c ->
     exists loc Nk ik Nk' ik',
       scatter_grid_array c Nr damp k arr = Ok loc /\
       get_Nz_and_iz c true damp false (Some k) = Ok (Nk, ik) /\
       get_Nz_and_iz c true true true (Some k) = Ok (Nk', ik') /\
       forall i ir, 0 <= i < Nk -> 0 <= ir < Nr -> arrs k (ik - ik' + i) ir = loc i ir) ->
  exists out N ig,
    get_Nz_and_iz c false damp false None = Ok (N, ig) /\
    gather_grid_array zero c Nr damp arrs = Ok out /\
    forall j ir, 0 <= j < N -> 0 <= ir < Nr -> out j ir = arr j ir.
Proof. exact (C02_main zero c Nr damp arr arrs). Qed.
Print Assumptions C02_gather_scatter_roundtrip.

(** C02: each gathered cell is read from the rank that owns it, at the local index of
    the same global cell. *)
Theorem C02_gather_reads_owner {A : Type} (zero : A) c Nr damp (arrs : Z -> @array2 A) :
  valid_comm c -> 0 < Nr ->
  exists out N ig,
    get_Nz_and_iz c false damp false None = Ok (N, ig) /\
    gather_grid_array zero c Nr damp arrs = Ok out /\
    forall j ir, 0 <= j < N -> 0 <= ir < Nr ->
      exists k Nk ik Nk' ik',
        0 <= k < c_size c /\
        get_Nz_and_iz c true damp false (Some k) = Ok (Nk, ik) /\
        get_Nz_and_iz c true true true (Some k) = Ok (Nk', ik') /\
        ik <= ig + j < ik + Nk /\
        out j ir = arrs k (ig + j - ik') ir.
Proof. exact (C02_owner zero c Nr damp arrs). Qed.
Print Assumptions C02_gather_reads_owner.

(** Non-vacuity: 10 cells over 3 ranks, open boundaries, 4 guard cells, 5 damp cells and
    2 injection cells: ranges 3+7, 3, 4+7. *)
Definition ex_comm : comm :=
  {| c_rank := 1; c_size := 3; c_left := Some 0; c_right := Some 2; c_Nz := 10;
     c_zmin := 0; c_dz := 1; c_nguard := 4; c_nzdamp := 5; c_ninject := 2; c_period := 1 |}.
Example ex_valid : valid_comm ex_comm.
Proof. unfold valid_comm; simpl; lia. Qed.
Example ex_ranges :
  map (fun r => get_Nz_and_iz ex_comm true true false (Some r)) [0; 1; 2]
  = [Ok (10, -7); Ok (3, 3); Ok (11, 6)].
Proof. reflexivity. Qed.
(** The constructor returns such a communicator. *)
Example ex_init :
  exists c, init 10 0 10 Open 1 3 32 (Some 4) 20 5 None (1/10) (Some 1) = Ok c /\ valid_comm c
            /\ c_nguard c = 4 /\ c_ninject c = 2 /\ c_nzdamp c = 5.
Proof. eexists. split; [reflexivity|]. unfold valid_comm; simpl. lia. Qed.
(** Hypotheses of the round trip: the local arrays are filled from the scattered ones. *)
Example ex_roundtrip_hyp : exists (arr : @array2 Z) (arrs : Z -> @array2 Z),
  forall k, 0 <= k < 3 ->
     exists loc Nk ik Nk' ik',
       scatter_grid_array ex_comm 2 true k arr = Ok loc /\
       get_Nz_and_iz ex_comm true true false (Some k) = Ok (Nk, ik) /\
       get_Nz_and_iz ex_comm true true true (Some k) = Ok (Nk', ik') /\
       forall i ir, 0 <= i < Nk -> 0 <= ir < 2 -> arrs k (ik - ik' + i) ir = loc i ir.
Proof.
  exists (fun i ir => 100 * i + ir).
  exists (fun k i ir => match scatter_grid_array ex_comm 2 true k (fun i ir => 100 * i + ir) with
                        | Ok loc => if i <? 4 then -1 else loc (i - 4) ir | _ => 0 end).
  intros k Hk. assert (Hc : k = 0 \/ k = 1 \/ k = 2) by lia.
  destruct Hc as [-> | [-> | ->]];
  [eexists; exists 10, (-7), 18, (-11) | eexists; exists 3, 3, 11, (-1) | eexists; exists 11, 6, 19, 2];
  (split; [reflexivity|]; split; [reflexivity|]; split; [reflexivity|];
   intros i ir Hi Hir; cbv beta;
   match goal with |- context [Z.ltb ?a 4] =>
     let H := fresh in assert (H : a = i + 4) by lia; rewrite H;
     destruct (Z.ltb_spec (i + 4) 4); [lia|]; replace (i + 4 - 4) with i by lia; reflexivity end).
Qed.
