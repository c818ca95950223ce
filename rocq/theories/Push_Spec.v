(** Vocabulary of C25 and C26. *)
From Verif Require Import Base Push_Model.
From Coq Require Import Reals.
Open Scope R_scope.

Definition u2 (p : mom) : R := ux p ^ 2 + uy p ^ 2 + uz p ^ 2.
(** The stored inverse Lorentz factor is the right one. *)
Definition consistent (p : mom) : Prop := ig p = 1 / sqrt (1 + u2 p).
Definition subluminal (p : mom) : Prop := 0 < ig p /\ ig p <= 1 /\ (ig p * ux p) ^ 2 + (ig p * uy p) ^ 2 + (ig p * uz p) ^ 2 < 1.
(** E + v x B = 0 with v = c u / gamma. *)
Definition force_free (c : R) (p : mom) (f : field6) : Prop :=
  Ex f + c * ig p * (uy p * Bz f - uz p * By f) = 0 /\
  Ey f + c * ig p * (uz p * Bx f - ux p * Bz f) = 0 /\
  Ez f + c * ig p * (ux p * By f - uy p * Bx f) = 0.
Definition no_E (f : field6) : Prop := Ex f = 0 /\ Ey f = 0 /\ Ez f = 0.
Definition displacement2 (a b : mp) : R := (px b - px a) ^ 2 + (py b - py a) ^ 2 + (pz b - pz a) ^ 2.
