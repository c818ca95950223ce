(** What a user expects from a gathered grid: read at a position (z, r), it has the value that the simulation has at
    that position. *)
From Coq Require Import ZArith Reals List.
From Verif Require Import Base Decomp_Model GGrid_Model.
Open Scope Z_scope.

(** A sampled function: cell (i, j), 0 <= i < nz, 0 <= j < nr, has its center at (zc i, rc j) and value v i j. *)
Record samples (A : Type) := mkSamples { nz : Z; nr : Z; zc : Z -> R; rc : Z -> R; v : Z -> Z -> A }.
Arguments nz {A}. Arguments nr {A}. Arguments zc {A}. Arguments rc {A}. Arguments v {A}. Arguments mkSamples {A}.

Definition sampled {A} (s : samples A) (z r : R) (a : A) : Prop :=
  exists i j, 0 <= i < nz s /\ 0 <= j < nr s /\ zc s i = z /\ rc s j = r /\ v s i j = a.

(** The cells of [s], whose centers are at regular intervals, fill [lo, hi] x [0, R]. *)
Definition fills {A} (s : samples A) (lo hi rmax : R) : Prop :=
  (forall i, 0 <= i < nz s -> zc s i = (lo + (IZR i + 1/2) * ((hi - lo) / IZR (nz s)))%R) /\
  (forall j, 0 <= j < nr s -> rc s j = ((IZR j + 1/2) * (rmax / IZR (nr s)))%R).

(** How the objects of the simulation are read as samples, and the situations considered. *)
Section Setting.
Context {A : Type} (zero : A).
Notation igrid := (igrid A).

(** a grid object as samples of the field [f] *)
Definition view (g : igrid) (f : fname) : samples A :=
  mkSamples (g_Nz g) (g_Nr g) (grid_z g) (grid_r g) (g_arr g f).

(** two grids that differ only by the content of their arrays *)
Definition same_grid (g g' : igrid) : Prop :=
  g_Nz g = g_Nz g' /\ g_Nr g = g_Nr g' /\ g_m g = g_m g' /\ g_dr g = g_dr g' /\ g_dz g = g_dz g' /\
  g_rmin g = g_rmin g' /\ g_rmax g = g_rmax g' /\ g_zmin g = g_zmin g' /\ g_zmax g = g_zmax g'.

Definition moved_comm (ns : list Z) (c : comm) : comm := fold_left (fun c n => move_comm n c) ns c.
Definition moved_grid (ns : list Z) (g : igrid) : igrid := fold_left (fun g n => move_grid n g) ns g.
Definition zsum (ns : list Z) : Z := fold_right Z.add 0 ns.

(** [c], [q]: the communicator at the start of the simulation; the window has moved by [ns] cells since then, step by
    step; rank [k] has the grid [G k] of the mode [m], whose arrays contain anything. *)
Definition setting (c : comm) (q : radial) (m : Z) (ns : list Z) (G : Z -> igrid) : Prop :=
  valid_comm c /\ 0 < c_Nz c /\ (0 < c_dz c)%R /\ 0 < r_Nr q /\ 0 <= r_nrdamp q /\
  forall k, 0 <= k < c_size c -> exists g0, local_grid zero c q m k = Ok g0 /\ same_grid (G k) (moved_grid ns g0).
End Setting.
