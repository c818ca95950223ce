(** Vocabulary of C44 and C45. *)
From Verif Require Import Base.
From Coq Require Import Reals.
Open Scope Z_scope.
(** Exactly one of the ranks 0..n-1, or none of them. *)
Definition exactly_one (n : Z) (P : Z -> Prop) : Prop :=
  exists r, 0 <= r < n /\ P r /\ forall s, 0 <= s < n -> P s -> s = r.
Definition no_rank (n : Z) (P : Z -> Prop) : Prop := forall r, 0 <= r < n -> ~ P r.
Definition total (l : list R) : R := fold_right Rplus 0%R l.
