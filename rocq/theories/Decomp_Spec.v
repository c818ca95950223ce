(** What "tiling" means, independently of the decomposition code.
    An interval of cells is a pair (number of cells, index of the first cell). *)
From Coq Require Import ZArith Reals.
Open Scope Z_scope.

Definition cell_in (i : Z) (iv : Z * Z) : Prop := snd iv <= i < snd iv + fst iv.

(** [parts r], for ranks 0 <= r < size, tile [whole]: same cells, no cell twice, and
    consecutive in rank order, starting and ending with [whole]. *)
Definition tiles (size : Z) (parts : Z -> Z * Z) (whole : Z * Z) : Prop :=
  (forall r, 0 <= r < size -> 0 <= fst (parts r)) /\
  (forall i, cell_in i whole <-> exists r, 0 <= r < size /\ cell_in i (parts r)) /\
  (forall r s i, 0 <= r < size -> 0 <= s < size ->
                 cell_in i (parts r) -> cell_in i (parts s) -> r = s) /\
  (forall r, 0 <= r -> r + 1 < size -> snd (parts (r + 1)) = snd (parts r) + fst (parts r)) /\
  snd (parts 0) = snd whole /\
  snd (parts (size - 1)) + fst (parts (size - 1)) = snd whole + fst whole.

(** Real intervals [edges r = (zmin, zmax)] tile [lo,hi): every position is in exactly
    one half-open interval. *)
Definition tiles_R (size : Z) (edges : Z -> R * R) (whole : R * R) : Prop :=
  (forall z, (fst whole <= z < snd whole)%R <->
     exists r, 0 <= r < size /\ (fst (edges r) <= z < snd (edges r))%R) /\
  (forall r s z, 0 <= r < size -> 0 <= s < size ->
     (fst (edges r) <= z < snd (edges r))%R -> (fst (edges s) <= z < snd (edges s))%R -> r = s).
