(** C18: chunks of the CPU threads, CUDA launch sizes. *)
From Verif Require Import Base Decomp_Proofs Chunk_Model Chunk_Proofs.
From Coq Require Import Reals.
Open Scope Z_scope.

(** The bounds are nthreads+1 non-decreasing numbers in [0, Ntot]; going through the chunks of
    threads 0, 1, ... enumerates 0, 1, ..., Ntot-1, each once. *)
Theorem C18_chunks_cover Ntot nthreads : 0 <= Ntot -> 1 <= nthreads -> Ntot + nthreads <= 2 ^ 53 ->
  length (get_chunk_indices Ntot nthreads) = Z.to_nat (nthreads + 1) /\
  (forall t, 0 <= t < nthreads ->
     0 <= nth (Z.to_nat t) (get_chunk_indices Ntot nthreads) 0 /\
     nth (Z.to_nat t) (get_chunk_indices Ntot nthreads) 0
       <= nth (Z.to_nat (t + 1)) (get_chunk_indices Ntot nthreads) 0 <= Ntot) /\
  flat_map (chunk_of (get_chunk_indices Ntot nthreads)) (range nthreads) = range Ntot.
Proof. exact (chunk_main Ntot nthreads). Qed.
Print Assumptions C18_chunks_cover.

(** In whatever order [ord] the threads of the launch run, the guarded body is executed exactly
    once for each index below n, and for no other index. *)
Theorem C18_launch_1d n T ord : 0 <= n < 2 ^ 52 -> 1 <= T ->
  Permutation ord (threads_1d (cuda_tpb_bpg_1d n T)) -> Permutation (executed n ord) (range n).
Proof. exact (launch_1d n T ord). Qed.
Print Assumptions C18_launch_1d.

Theorem C18_launch_2d nx ny Tx Ty ord : 0 <= nx < 2 ^ 52 -> 0 <= ny < 2 ^ 52 -> 1 <= Tx -> 1 <= Ty ->
  Permutation ord (threads_2d (cuda_tpb_bpg_2d nx ny Tx Ty)) ->
  NoDup (executed_2d nx ny ord) /\
  forall i j, In (i, j) (executed_2d nx ny ord) <-> 0 <= i < nx /\ 0 <= j < ny.
Proof. exact (launch_2d_each nx ny Tx Ty ord). Qed.
Print Assumptions C18_launch_2d.

(** 1000 threads, 7 particles; 513 indices in blocks of 256. *)
Example C18_met : 0 <= 7 /\ 1 <= 1000 /\ 7 + 1000 <= 2 ^ 53 /\ 0 <= 513 < 2 ^ 52 /\ 1 <= 256 /\
  exists ord, Permutation ord (threads_1d (cuda_tpb_bpg_1d 513 256)).
Proof. repeat split; try lia. exists (rev (threads_1d (cuda_tpb_bpg_1d 513 256))). symmetry. apply Permutation_rev. Qed.
