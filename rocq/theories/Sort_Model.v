(** Sorting of the particles on GPU and GPU selection of the particles that stay:
    particles/utilities/cuda_sorting.py, particles/particles.py,
    boundaries/particle_buffer_handling.py.
    A device array of length n is a total function Z -> V of which the indices [0,n) are meaningful.
    A kernel is the list of the writes (index, value) made by all the threads of the launch;
    the kernels below read only arrays that they do not write, so an execution, for whatever
    scheduling of the threads, applies these writes in some order. *)
From Verif Require Import Base Decomp_Proofs Chunk_Model.
From Coq Require Import Reals.
From Flocq Require Import Core.Core.
Open Scope Z_scope.

(** One write to a device array. *)
Definition upd {V} (a : Z -> V) (w : Z * V) : Z -> V := fun j => if j =? fst w then snd w else a j.
Definition apply_writes {V} (a : Z -> V) (ws : list (Z * V)) : Z -> V := fold_left upd ws a.

(** A launch [kernel[cuda_tpb_bpg_1d(n)](...)] (utils/cuda.py:48-70, 256 threads per block),
    whose thread [i] makes the writes [body i], turns the array [a] into [a']. *)
Definition launched {V} (n : Z) (body : Z -> list (Z * V)) (a a' : Z -> V) : Prop :=
  exists ws, Permutation ws (flat_map body (threads_1d (cuda_tpb_bpg_1d n 256))) /\
             a' = apply_writes a ws.

(** interpolation_grid.py:110-130 : the fields of the grid used here. *)
Record sgrid := { g_zmin : R; g_dz : R; g_Nz : Z; g_dr : R; g_Nr : Z }.

(** cuda_sorting.py:57-85, the cell of a particle (exact arithmetic; rmin = 0,
    interpolation_grid.py:104). *)
Definition cell_of (g : sgrid) (x y z : R) : Z :=
  let rj := sqrt (x ^ 2 + y ^ 2) in
  let r_cell := (/ g_dr g * (rj - 0) - / 2)%R in
  let z_cell := (/ g_dz g * (z - g_zmin g) - / 2)%R in
  let ir_upper := Zceil r_cell in
  let iz_upper := Zceil z_cell in
  let ir_upper := if ir_upper >? g_Nr g then g_Nr g else ir_upper in
  let iz_upper := if iz_upper <? 0 then iz_upper + g_Nz g
                  else if iz_upper >? g_Nz g - 1 then iz_upper - g_Nz g else iz_upper in
  ir_upper + iz_upper * (g_Nr g + 1).

(** cuda_sorting.py:22-88 get_cell_idx_per_particle (the two arrays it writes). *)
Definition get_cell_idx (g : sgrid) (N : Z) (x y z : Z -> R) (i : Z) : list (Z * Z) :=
  if i <? N then [(i, cell_of g (x i) (y i) (z i))] else [].
Definition reset_sorted_idx (N : Z) (i : Z) : list (Z * Z) :=
  if i <? N then [(i, i)] else [].

(** cuda_sorting.py:90-122 sort_particles_per_cell: contract of [thrust.argsort]: [cell_idx]
    comes back sorted, and [sorted_idx] holds the permutation that sorts it. *)
Definition sort_particles_per_cell (N : Z) (cell cell' sidx' : Z -> Z) : Prop :=
  Permutation (map sidx' (range N)) (range N) /\
  (forall i, 0 <= i < N -> cell' i = cell (sidx' i)) /\
  (forall i j, 0 <= i <= j /\ j < N -> cell' i <= cell' j).

(** cuda_sorting.py:125-154 incl_prefix_sum. *)
Definition incl_prefix_sum (N : Z) (cell : Z -> Z) (i : Z) : list (Z * Z) :=
  if i <? N - 1 then
    map (fun k => (cell i + k, i + 1)) (range (cell (i + 1) - cell i))
  else [].

(** cuda_sorting.py:157-190 prefill_prefix_sum; [n] = prefix_sum.shape[0]. *)
Definition prefill_prefix_sum (n N : Z) (cell : Z -> Z) (i : Z) : list (Z * Z) :=
  if i <? n then
    if N >? 0 then
      if i <? cell 0 then [(i, 0)]
      else if i >=? cell (N - 1) then [(i, N)] else []
    else [(i, 0)]
  else [].

(** cuda_sorting.py:192-213 write_sorting_buffer. *)
Definition write_sorting_buffer {V} (N : Z) (sidx : Z -> Z) (val : Z -> V) (i : Z) : list (Z * V) :=
  if i <? N then [(i, val (sidx i))] else [].

(** particles.py:526-538 (and 545-555): the loop over the attributes, with the exchange of the
    roles of the buffer and of the attribute array.
    [rearranged N sidx attrs buf attrs' buf']. *)
Inductive rearranged {V} (N : Z) (sidx : Z -> Z) :
  list (Z -> V) -> (Z -> V) -> list (Z -> V) -> (Z -> V) -> Prop :=
| rearr_nil buf : rearranged N sidx [] buf [] buf
| rearr_cons a attrs buf a' attrs' buf' :
    launched N (write_sorting_buffer N sidx a) buf a' ->
    rearranged N sidx attrs a attrs' buf' ->
    rearranged N sidx (a :: attrs) buf (a' :: attrs') buf'.

(** particles.py:222-250: a species on GPU. [s_fl]: the float attributes after x, y, z
    (ux, uy, uz, w, inv_gamma, and if present Ex..Bz and w_times_level, lines 518-525);
    [s_int]: id and ionization_level if present (lines 540-544). *)
Record gspecies := {
  s_N : Z; s_x : Z -> R; s_y : Z -> R; s_z : Z -> R; s_fl : list (Z -> R); s_int : list (Z -> Z);
  s_cell : Z -> Z; s_sidx : Z -> Z; s_prefix : Z -> Z; s_shift : Z;
  s_buf : Z -> R; s_ibuf : Z -> Z }.

(** particles.py:1049-1094 sort_particles: one possible execution. prefix_sum has Nz*(Nr+1)
    elements (particles.py:236-239). *)
Definition sort_particles (g : sgrid) (s s' : gspecies) : Prop :=
  let n := g_Nz g * (g_Nr g + 1) in
  let N := s_N s in
  exists cell1 sidx1 p1,
    launched N (get_cell_idx g N (s_x s) (s_y s) (s_z s)) (s_cell s) cell1 /\
    launched N (reset_sorted_idx N) (s_sidx s) sidx1 /\
    sort_particles_per_cell N cell1 (s_cell s') (s_sidx s') /\
    launched n (prefill_prefix_sum n N (s_cell s')) (s_prefix s) p1 /\
    launched N (incl_prefix_sum N (s_cell s')) p1 (s_prefix s') /\
    rearranged N (s_sidx s') (s_x s :: s_y s :: s_z s :: s_fl s) (s_buf s)
      (s_x s' :: s_y s' :: s_z s' :: s_fl s') (s_buf s') /\
    rearranged N (s_sidx s') (s_int s) (s_ibuf s) (s_int s') (s_ibuf s') /\
    s_N s' = N /\ s_shift s' = 0.

(** boundaries/moving_window.py:112-117: the grid moved by n_move cells since the sort. *)
Definition grids_moved (n_move : Z) (s : gspecies) : gspecies :=
  {| s_N := s_N s; s_x := s_x s; s_y := s_y s; s_z := s_z s; s_fl := s_fl s; s_int := s_int s;
     s_cell := s_cell s; s_sidx := s_sidx s; s_prefix := s_prefix s; s_shift := s_shift s + n_move;
     s_buf := s_buf s; s_ibuf := s_ibuf s |}.

(** particle_buffer_handling.py:218-233: (i_min, i_max). *)
Definition stay_bounds (g : sgrid) (n_guard : Z) (s : gspecies) : Z * Z :=
  let iz_min := Z.max (n_guard + s_shift s) 0 in
  let iz_max := Z.min (g_Nz g - n_guard + s_shift s + 1) (g_Nz g) in
  let i_min := if iz_min * (g_Nr g + 1) - 1 >=? 0 then s_prefix s (iz_min * (g_Nr g + 1) - 1) else 0 in
  (i_min, s_prefix s (iz_max * (g_Nr g + 1) - 1)).

(** particle_buffer_handling.py:562-608 split_particles_to_buffers: writes to the stay buffer. *)
Definition split_stay {V} (i_min i_max : Z) (a : Z -> V) (i : Z) : list (Z * V) :=
  if i <? i_min then [] else if i <? i_max then [(i - i_min, a i)] else [].

(** particle_buffer_handling.py:178-316 remove_particles_gpu on a sorted species: the attribute
    arrays of the particles that stay (the send buffers hold the others; not repeated here). *)
Definition remove_particles_gpu (g : sgrid) (n_guard : Z) (s s' : gspecies) : Prop :=
  let (i_min, i_max) := stay_bounds g n_guard s in
  let kept {V} (a a' : Z -> V) := exists garbage, launched (s_N s) (split_stay i_min i_max a) garbage a' in
  kept (s_x s) (s_x s') /\ kept (s_y s) (s_y s') /\ kept (s_z s) (s_z s') /\
  Forall2 kept (s_fl s) (s_fl s') /\ Forall2 kept (s_int s) (s_int s') /\
  s_N s' = i_max - i_min.

(** particle_buffer_handling.py:88-97 remove_particles_cpu: the particles that stay, with
    zmax = zmin + Nz*dz. *)
Definition stays_cpu (g : sgrid) (n_guard : Z) (z : R) : Prop :=
  (~ (z < g_zmin g + IZR n_guard * g_dz g) /\
   ~ (z > g_zmin g + IZR (g_Nz g) * g_dz g - IZR n_guard * g_dz g))%R.
