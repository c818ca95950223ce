(** Vocabulary of C38: polynomials, and an antisymmetric finite-difference stencil. *)
From Coq Require Import Reals List.
Import ListNotations.
Open Scope R_scope.

(** Polynomial with coefficients l, by increasing degree. *)
Fixpoint polyn (l : list R) (x : R) : R := match l with [] => 0 | a :: l => a + x * polyn l x end.
(** (sum over n = 1..m) of  a_n (f(x + n dz) - f(x - n dz)) / (2 n dz) *)
Definition stencil (a : nat -> R) (m : nat) (dz : R) (f : R -> R) (x : R) : R :=
  fold_right (fun n s => a n * ((f (x + INR n * dz) - f (x - INR n * dz)) / (2 * INR n * dz)) + s) 0 (seq 1 m).
