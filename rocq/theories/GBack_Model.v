(** Back-transformed particle diagnostic on GPU: openpmd_diag/boosted_particle_diag.py:628-720 and
    openpmd_diag/cuda_methods.py. The CPU version and the transformation to the lab frame: BPart_Model (C49);
    the sort: Sort_Model (C19). Exact arithmetic. *)
From Coq Require Import Reals.
From Flocq Require Import Core.Core.
From Verif Require Import Base Chunk_Model Sort_Model Shape_Model Deposit_Model GDeposit_Model BPart_Model.
Open Scope Z_scope.

(** One particle of the dictionary [particle_data]: the float quantities, and the integer ones (id, charge; the keys present
    are those of the species, in the order of [s_int]). *)
Definition pdata : Type := bptcl * list Z.

(** boosted_particle_diag.py:655-667 [get_particle_data], CPU: all the particles. *)
Definition cpu_row (s : gspecies) (i : Z) : pdata :=
  ({| bx := s_x s i; by_ := s_y s i; bz := s_z s i; bux := attr 0 s i; buy := attr 1 s i; buz := attr 2 s i;
      bw := attr 3 s i; big := attr 4 s i |}, map (fun a => a i) (s_int s)).
Definition cpu_data (s : gspecies) : list pdata := map (cpu_row s) (range (s_N s)).

(** openpmd_diag/cuda_methods.py:66-104 extract_particles_from_gpu (one of the 8 rows of [selected]) and 106-130
    extract_array_from_gpu: thread [i] copies the element part_idx_start + i. *)
Definition extract_array {V} (i0 n : Z) (a : Z -> V) (i : Z) : list (Z * V) := if i <? n then [(i, a (i0 + i))] else [].
Definition extracted {V} (i0 n : Z) (a out : Z -> V) : Prop :=
  exists garbage, launched n (extract_array i0 n a) garbage out.

(** cuda_methods.py:11-62 extract_slice_from_gpu: for an ionizable species the weights are those of w_times_level
    (lines 46-48 and 60; the last float attribute, particles.py:524-525). *)
Definition extract_slice_from_gpu (i0 n : Z) (ionizable : bool) (s : gspecies) (data : list pdata) : Prop :=
  let w := if ionizable then last (s_fl s) (fun _ => 0%R) else attr 3 s in
  exists part ints,
    Forall2 (extracted i0 n) [s_x s; s_y s; s_z s; attr 0 s; attr 1 s; attr 2 s; w; attr 4 s] part /\
    Forall2 (extracted i0 n) (s_int s) ints /\
    let row k i := nth k part (fun _ => 0%R) i in
    data = map (fun i => ({| bx := row 0%nat i; by_ := row 1%nat i; bz := row 2%nat i; bux := row 3%nat i; buy := row 4%nat i;
                             buz := row 5%nat i; bw := row 6%nat i; big := row 7%nat i |}, map (fun a => a i) ints)) (range n).

(** boosted_particle_diag.py:691-704: the index of the first particle of the row of cells [z_cell] or further. *)
Definition pref_sum_at (g : sgrid) (s : gspecies) (z_cell : Z) : Z :=
  if z_cell <=? 0 then 0
  else if z_cell >? Sort_Model.g_Nz g then s_N s
  else s_prefix s (z_cell * (Sort_Model.g_Nr g + 1) - 1).

(** boosted_particle_diag.py:669-720 [get_particle_data], GPU: the species is sorted if it is not; [g]: the present grid. *)
Definition get_particle_data_gpu (d : bdiag) (g : sgrid) (cur prev : R) (sp sp' : gsp) (data : list pdata) : Prop :=
  gs_q sp' = gs_q sp /\ gs_tracer sp' = gs_tracer sp /\ gs_ionizable sp' = gs_ionizable sp /\ gs_shape sp' = gs_shape sp /\
  gs_sorted sp' = true /\
  (if gs_sorted sp then gs_arr sp' = gs_arr sp else sort_particles g (gs_arr sp) (gs_arr sp')) /\
  let s := gs_arr sp' in
  let (iz_curr, iz_prev) := gpu_cells d (Sort_Model.g_zmin g) (Sort_Model.g_dz g) cur prev in
  let pref_sum_curr := pref_sum_at g s (iz_curr + s_shift s) in
  let pref_sum_prev := pref_sum_at g s (iz_prev + s_shift s) in
  let N_area := pref_sum_prev - pref_sum_curr in
  if N_area >? 0 then extract_slice_from_gpu pref_sum_curr N_area (gs_ionizable sp') s data else data = [].

(** boosted_particle_diag.py:722-772 get_particle_slice and 585-605 extract_slice, with the integer quantities. *)
Definition slice (d : bdiag) (cur prev t : R) (data : list pdata) : list (lptcl * list Z) :=
  map (fun q => (to_lab d cur t (fst q), snd q)) (filter (fun q => selected d cur prev (fst q)) data).
(** boosted_particle_diag.py:164-194 store_snapshot_slices: is the output plane in the local grid [lo, hi) and in the snapshot. *)
Definition stored (d : bdiag) (lo hi t : R) : bool :=
  let cur := current_z_boost d t in
  let zl := current_z_lab d t in
  Rle_bool lo cur && Rlt_bool cur hi && Rle_bool (s_zmin d) zl && Rlt_bool zl (s_zmax d).
(** What is appended to the buffer of the snapshot at time [t], on CPU and on GPU (zmax = zmin + Nz*dz). *)
Definition zmax (g : sgrid) : R := (Sort_Model.g_zmin g + IZR (Sort_Model.g_Nz g) * Sort_Model.g_dz g)%R.
Definition store_cpu (d : bdiag) (g : sgrid) (t : R) (s : gspecies) : list (lptcl * list Z) :=
  if stored d (Sort_Model.g_zmin g) (zmax g) t
  then slice d (current_z_boost d t) (prev_z_boost d t) t (cpu_data s) else [].
Definition store_gpu (d : bdiag) (g : sgrid) (t : R) (sp sp' : gsp) (out : list (lptcl * list Z)) : Prop :=
  if stored d (Sort_Model.g_zmin g) (zmax g) t
  then exists data, get_particle_data_gpu d g (current_z_boost d t) (prev_z_boost d t) sp sp' data /\
         out = slice d (current_z_boost d t) (prev_z_boost d t) t data
  else sp' = sp /\ out = [].
