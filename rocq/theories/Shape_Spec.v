(** Textbook shape functions (B-splines of order 1 and 3), for C21. *)
From Verif Require Import Base Shape_Model.
From Coq Require Import Reals.
Open Scope R_scope.

(** Value at distance [d] of the linear and of the cubic spline. *)
Definition spline (sh : shape) (d : R) : R :=
  match sh with
  | Linear => Rmax 0 (1 - Rabs d)
  | Cubic => (Rmax 0 (2 - Rabs d) ^ 3 - 4 * Rmax 0 (1 - Rabs d) ^ 3) / 6
  end.
(** Sum of [f] over 0, ..., n-1. *)
Definition zsum (n : Z) (f : Z -> R) : R := fold_right (fun i s => f i + s) 0 (range n).
(** Weight that the grid point [k] receives from a particle at [pos] (in cell units): the weights
    of the indices that designate [k]. *)
Definition weight_at (sh : shape) (pos : R) (k : Z) : R :=
  zsum (npts sh) (fun i => if (first_pt sh pos + i =? k)%Z then Sz sh pos i else 0).
