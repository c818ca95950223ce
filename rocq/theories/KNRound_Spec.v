(** Vocabulary of C68. *)
From Verif Require Import Base KN_Spec.
From Coq Require Import Reals.
From Coquelicot Require Import Coquelicot.
Open Scope R_scope.

(** Exact total cross-section, in units of pi r_e^2; 8/3 at k = 0 (Thomson). *)
Definition sigma_exact (k : R) : R := RInt (kn k) (-1) 1.
(** A good logarithm: relative error at most 2^-50 (a few units in the last place). *)
Definition good_log (log : R -> R) : Prop := forall x, 0 < x -> Rabs (log x - ln x) <= / 2 ^ 50 * Rabs (ln x).
