(** Vocabulary of C19 and C20. *)
From Verif Require Import Base Sort_Model.
From Coq Require Import Reals.
Open Scope Z_scope.

Definition grid_ok (g : sgrid) : Prop := (0 < g_dz g)%R /\ (0 < g_dr g)%R /\ 1 <= g_Nz g /\ 1 <= g_Nr g.
Definition ncells (g : sgrid) : Z := g_Nz g * (g_Nr g + 1).
(** Cell of particle [j] of a species. *)
Definition cell (g : sgrid) (s : gspecies) (j : Z) : Z := cell_of g (s_x s j) (s_y s j) (s_z s j).
(** Number of particles whose cell index is at most [c]. *)
Definition count_upto (g : sgrid) (s : gspecies) (c : Z) : Z :=
  Z.of_nat (length (filter (fun j => cell g s j <=? c) (range (s_N s)))).
(** Every particle is less than one box length away from the box. *)
Definition near_box (g : sgrid) (s : gspecies) : Prop :=
  (forall j, (0 <= j < s_N s)%Z ->
   g_zmin g - IZR (g_Nz g) * g_dz g <= s_z s j <= g_zmin g + 2 * IZR (g_Nz g) * g_dz g - g_dz g)%R.
(** Sizes that the launch computation handles exactly (C18). *)
Definition sizes_ok (g : sgrid) (s : gspecies) : Prop := 0 <= s_N s < 2 ^ 52 /\ ncells g < 2 ^ 52.
(** [s'] is [s] with all the particles, attributes together, moved to new places by [pi]. *)
Definition permuted_by (pi : Z -> Z) (s s' : gspecies) : Prop :=
  let same {V} (a a' : Z -> V) := forall i, 0 <= i < s_N s -> a' i = a (pi i) in
  Permutation (map pi (range (s_N s))) (range (s_N s)) /\ s_N s' = s_N s /\
  same (s_x s) (s_x s') /\ same (s_y s) (s_y s') /\ same (s_z s) (s_z s') /\
  Forall2 same (s_fl s) (s_fl s') /\ Forall2 same (s_int s) (s_int s').
(** The current grid, [n_move] cells further than [g]. *)
Definition moved_grid (g : sgrid) (n_move : Z) : sgrid :=
  {| g_zmin := g_zmin g + IZR n_move * g_dz g; g_dz := g_dz g; g_Nz := g_Nz g; g_dr := g_dr g; g_Nr := g_Nr g |}.
(** Particles that have not gone further than the guard region allows: otherwise the
    GPU takes their cell index modulo the number of cells. *)
Definition within_guard (g : sgrid) (n_guard n_move : Z) (s : gspecies) : Prop :=
  (forall j, (0 <= j < s_N s)%Z ->
    g_zmin g - (IZR (n_guard - n_move) - / 2) * g_dz g < s_z s j <=
    g_zmin g + (IZR (g_Nz g + n_guard + n_move) - / 2) * g_dz g)%R.

(** The particles of [s'] are the particles i_min, ..., i_min + s_N s' - 1 of [s]. *)
Definition sub_species (i_min : Z) (s s' : gspecies) : Prop :=
  let same {V} (a a' : Z -> V) := forall i, 0 <= i < s_N s' -> a' i = a (i_min + i) in
  0 <= i_min /\ 0 <= s_N s' /\ i_min + s_N s' <= s_N s /\
  same (s_x s) (s_x s') /\ same (s_y s) (s_y s') /\ same (s_z s) (s_z s') /\
  Forall2 same (s_fl s) (s_fl s') /\ Forall2 same (s_int s) (s_int s').
