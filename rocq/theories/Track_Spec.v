(** What it means that ids are unique. *)
From Verif Require Import Base.
Open Scope Z_scope.

(** No id occurs twice on a rank, and no id occurs on two ranks. *)
Definition unique (size : Z) (ids : Z -> list Z) : Prop :=
  (forall r, 0 <= r < size -> NoDup (ids r)) /\
  (forall r q i, 0 <= r < size -> 0 <= q < size -> r <> q -> In i (ids r) -> ~ In i (ids q)).
