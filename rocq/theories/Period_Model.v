(** Rows and cells that the longitudinal part of deposition and gathering touches. *)
From Verif Require Import Base.
From Coq Require Import Reals.
From Flocq Require Import Core.Core.
Open Scope Z_scope.

Inductive shape := Linear | Cubic.

(** deposition/threading_methods.py:120-121, 408-409 (same in gathering/threading_methods.py:101,
    290): position in cell units, [z_cell = invdz*(z - zmin) - 0.5]. *)
Definition z_cell (dz zmin z : R) : R := ((z - zmin) / dz - 1 / 2)%R.

(** First axis of the deposition arrays, which have [Nz+4] rows (two guard rows on each side):
    threading_methods.py:126,138-141 (linear), 414,427-446 (cubic). *)
Definition deposit_rows (sh : shape) (zc : R) : list Z :=
  match sh with
  | Linear => [Zceil zc + 1; Zceil zc + 1 + 1]
  | Cubic => [Zceil zc; Zceil zc + 1; Zceil zc + 2; Zceil zc + 3]
  end.

(** Cells read by the gathering, before the periodic wrap of out-of-range indices:
    gathering/threading_methods.py:103-106 (linear), 300-305 (cubic). *)
Definition gather_cells (sh : shape) (zc : R) : list Z :=
  match sh with
  | Linear => [Zfloor zc; Zfloor zc + 1]
  | Cubic => [Zfloor zc - 1; Zfloor zc; Zfloor zc + 1; Zfloor zc + 2]
  end.
