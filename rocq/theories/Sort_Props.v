(** C19: sorting on GPU. C20: particles that stay, CPU against GPU. *)
From Verif Require Import Base Sort_Model Sort_Spec Sort_Proofs.
From Coq Require Import Reals Lra.
Open Scope Z_scope.

(** For every execution of the sort (any order of the writes of all the kernels, any valid result
    of the library sort): one permutation moves all the attributes; the prefix sum of a cell is
    the number of particles up to that cell; a cell owns exactly its range of indices; nothing is
    written outside of the prefix sum array. *)
Theorem C19_sorting g s s' : grid_ok g -> sizes_ok g s -> near_box g s -> sort_particles g s s' ->
  (exists pi, permuted_by pi s s') /\
  (forall c, 0 <= c < ncells g -> s_prefix s' c = count_upto g s c) /\
  (forall c i, 0 <= c < ncells g -> 0 <= i < s_N s ->
     (cell g s' i = c <-> (if c =? 0 then 0 else s_prefix s' (c - 1)) <= i < s_prefix s' c)) /\
  (forall j, ~ (0 <= j < ncells g) -> s_prefix s' j = s_prefix s j).
Proof. exact (sorted_ranges g s s'). Qed.
Print Assumptions C19_sorting.

(** Particles kept on GPU (grid moved by [n_move] cells since the sort): exactly those between
    half a cell below the first kept cell edge and half a cell above the last. *)
Theorem C20_gpu_keeps_partial g s s' s2 n_guard n_move : grid_ok g -> sizes_ok g s -> near_box g s ->
  within_guard g n_guard n_move s -> sort_particles g s s' ->
  0 <= n_guard + n_move -> n_move + 1 <= n_guard -> 2 * n_guard <= g_Nz g ->
  remove_particles_gpu g n_guard (grids_moved n_move s') s2 ->
  let zb := g_zmin (moved_grid g n_move) in
  exists i_min, sub_species i_min s' s2 /\
  forall j, 0 <= j < s_N s' -> (i_min <= j < i_min + s_N s2 <->
    (zb + (IZR n_guard - / 2) * g_dz g < s_z s' j <= zb + (IZR (g_Nz g - n_guard) + / 2) * g_dz g)%R).
Proof. exact (gpu_kept g s s' s2 n_guard n_move). Qed.
Print Assumptions C20_gpu_keeps_partial.

(** Hence every particle kept by the CPU test is kept on GPU. *)
Theorem C20_cpu_kept_gpu_kept_partial g s s' s2 n_guard n_move : grid_ok g -> sizes_ok g s -> near_box g s ->
  within_guard g n_guard n_move s -> sort_particles g s s' ->
  0 <= n_guard + n_move -> n_move + 1 <= n_guard -> 2 * n_guard <= g_Nz g ->
  remove_particles_gpu g n_guard (grids_moved n_move s') s2 ->
  exists i_min, sub_species i_min s' s2 /\
  forall j, 0 <= j < s_N s' -> stays_cpu (moved_grid g n_move) n_guard (s_z s' j) ->
            i_min <= j < i_min + s_N s2.
Proof. exact (cpu_kept_gpu_kept g s s' s2 n_guard n_move). Qed.
Print Assumptions C20_cpu_kept_gpu_kept_partial.

(** The two sets differ: a particle that the CPU removes stays on GPU. *)
Theorem C20_same_particles_refuted : exists g s s' s2 n_guard,
  grid_ok g /\ sizes_ok g s /\ near_box g s /\ within_guard g n_guard 0 s /\
  sort_particles g s s' /\ remove_particles_gpu g n_guard (grids_moved 0 s') s2 /\
  (exists j, 0 <= j < s_N s /\ ~ stays_cpu g n_guard (s_z s j)) /\ s_N s2 = s_N s.
Proof. exact kept_differs. Qed.
Print Assumptions C20_same_particles_refuted.

(** An 8x4 grid with a particle. *)
Example C19_C20_met : exists g s s' s2, grid_ok g /\ sizes_ok g s /\ near_box g s /\
  within_guard g 2 0 s /\ sort_particles g s s' /\ remove_particles_gpu g 2 (grids_moved 0 s') s2 /\
  s_N s = 1 /\ 0 <= 2 + 0 /\ 0 + 1 <= 2 /\ 2 * 2 <= g_Nz g.
Proof.
  exists g8, (wit0 0 0 3), (wit1 g8 0 0 3), (wit2 g8 0 0 3 2).
  split; [apply g8_ok|]. split; [apply wit_sizes|]. split; [apply wit_near; lra|].
  split; [apply wit_within; lra|]. split; [apply wit_sorted|]. split; [apply wit_removed|]. cbn. lia.
Qed.
