(** Thread chunks and CUDA launch sizes: utils/threading.py, utils/cuda.py. *)
From Verif Require Import Base Decomp_Proofs.
From Coq Require Import Reals.
From Flocq Require Import Core.Core.
Open Scope Z_scope.

(** utils/threading.py:66-93 get_chunk_indices; [int(Ntot/nthreads)] with the binary64 quotient.
    The values are below 2^64, so the uint64 conversion changes nothing (C18 bounds them by Ntot). *)
Definition get_chunk_indices (Ntot nthreads : Z) : list Z :=
  let n_avg_per_chunk := Ztrunc (rnd64 (IZR Ntot / IZR nthreads)) in
  let l := map (fun i_chk => i_chk * n_avg_per_chunk) (range (nthreads + 1)) in
  removelast l ++ [Ntot].            (* ptcl_chunk_indices[-1] = Ntot *)

(** Loops of the threads: particles/deposition/threading_methods.py:95-99 (and the others of
    that file), particles/gathering/threading_methods.py:278-282:
    [for i in range(idx[t], idx[t+1])] in thread [t]. *)
Definition chunk_of (idx : list Z) (t : Z) : list Z :=
  let a := nth (Z.to_nat t) idx 0 in
  let b := nth (Z.to_nat (t + 1)) idx 0 in
  map (Z.add a) (range (b - a)).

(** utils/cuda.py:48-70 cuda_tpb_bpg_1d: (blocks per grid, threads per block), with the two
    binary64 operations of [int(x/TPB + 1)]. *)
Definition cuda_tpb_bpg_1d (x TPB : Z) : Z * Z :=
  (Ztrunc (rnd64 (rnd64 (IZR x / IZR TPB) + 1)), TPB).
(** utils/cuda.py:72-95 cuda_tpb_bpg_2d. *)
Definition cuda_tpb_bpg_2d (x y TPBx TPBy : Z) : (Z * Z) * (Z * Z) :=
  ((Ztrunc (rnd64 (rnd64 (IZR x / IZR TPBx) + 1)), Ztrunc (rnd64 (rnd64 (IZR y / IZR TPBy) + 1))),
   (TPBx, TPBy)).

(** The thread indices of a launch [kernel[grid, block]]: [cuda.grid(1)] is
    blockIdx*blockDim + threadIdx (numba documentation). *)
Definition threads_1d (gb : Z * Z) : list Z :=
  flat_map (fun b => map (fun t => b * snd gb + t) (range (snd gb))) (range (fst gb)).
Definition threads_2d (gb : (Z * Z) * (Z * Z)) : list (Z * Z) :=
  flat_map (fun x => map (pair x) (threads_1d (snd (fst gb), snd (snd gb))))
           (threads_1d (fst (fst gb), fst (snd gb))).
(** A kernel guarded by [if i < n] (e.g. cuda_sorting.py:56-57), executed by the threads in the
    order [ord]: the indices on which its body runs. *)
Definition executed (n : Z) (ord : list Z) : list Z := filter (fun i => i <? n) ord.
Definition executed_2d (nx ny : Z) (ord : list (Z * Z)) : list (Z * Z) :=
  filter (fun ij => (fst ij <? nx) && (snd ij <? ny)) ord.
