(** Vocabulary of C91. The particles of a rank are the records of PExch_Spec.v: all the attributes of one particle together. *)
From Coq Require Import Reals ZArith List.
From Verif Require Import Base Decomp_Model PExch_Spec Sort_Model GExch_Model.
From Verif Require Import Sort_Spec.
Import ListNotations.
Open Scope Z_scope.

(** The particle at index [j] of the arrays of a species, and the list of its particles. *)
Definition record (s : gsp) (j : Z) : part :=
  mkPart (p_x s j) (p_y s j) (p_z s j) (p_ux s j) (p_uy s j) (p_uz s j) (p_ig s j) (p_w s j)
         (option_map (fun a => a j) (p_id s)) (option_map (fun a => (fst a j, snd a j)) (p_ion s)).
Definition particles (s : gsp) : list part := map (record s) (range (p_N s)).
(** Tracked ([tr]) and ionizable ([io]) species. *)
Definition kind (tr io : bool) (s : gsp) : Prop :=
  (if tr then p_id s <> None else p_id s = None) /\ (if io then p_ion s <> None else p_ion s = None).

(** None of N particles at z has left the local grid (with its guard cells), up to half a cell. *)
Definition on_grid (g : sgrid) (N : Z) (z : Z -> R) : Prop :=
  (forall j, (0 <= j < N)%Z -> g_zmin g - / 2 * g_dz g < z j <= g_zmin g + (IZR (g_Nz g) - / 2) * g_dz g)%R.

(** The two situations at the start of the exchange: the particles have moved since the last sort (flag False); or the sort
    of [s0] on the grid [g0] put them where they are, and the moving window has moved the grid by [n] cells since then. *)
Definition ready (n_guard : Z) (g : sgrid) (s : gsp) : Prop :=
  grid_ok g /\ 0 <= p_N s < 2 ^ 52 /\ ncells g < 2 ^ 52 /\ 2 * n_guard <= g_Nz g /\ 1 <= n_guard /\
  if p_sorted s then
    exists g0 n s0 s1, g = moved_grid g0 n /\ - n_guard <= n < n_guard /\
      on_grid g0 (s_N s0) (s_z s0) /\ sort_particles g0 s0 s1 /\ sort_view s = grids_moved n s1
  else on_grid g (p_N s) (p_z s).

(** The interval of z in which a rank keeps its particles: the physical subdomain of the rank (local grid without its
    guard cells) plus half a cell on each side. *)
Definition keep_lo (n_guard : Z) (g : sgrid) : R := (g_zmin g + (IZR n_guard - / 2) * g_dz g)%R.
Definition keep_hi (n_guard : Z) (g : sgrid) : R := (g_zmin g + (IZR (g_Nz g - n_guard) + / 2) * g_dz g)%R.

(** What must become of a particle of rank r of [size]: it stays, or goes to a neighbour unchanged (with z moved by the
    box length at a periodic end), or is dropped beyond an open end. *)
Definition destiny (b : zbound) (size : Z) (L : R) (lo hi : Z -> R) (r : Z) (p : part) : list part :=
  if Rle_dec (pz p) (lo r) then
    if r =? 0 then match b with Open => [] | Periodic => [moved L p] end else [p]
  else if Rlt_dec (hi r) (pz p) then
    if r =? size - 1 then match b with Open => [] | Periodic => [moved (- L) p] end else [p]
  else [p].

(** The physical subdomains of neighbouring ranks touch (at a periodic end, after a translation by the box length L). *)
Definition contiguous (n_guard : Z) (b : zbound) (size : Z) (L : R) (g : Z -> sgrid) : Prop :=
  forall r q, 0 <= r < size -> right_proc b r size = Some q ->
    g_dz (g q) = g_dz (g r) /\
    (g_zmin (g q) + (if q =? 0 then L else 0) = g_zmin (g r) + IZR (g_Nz (g r) - 2 * n_guard) * g_dz (g r))%R.
