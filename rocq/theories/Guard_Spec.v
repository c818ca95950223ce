(** Specification vocabulary for the guard-cell exchange. *)
From Verif Require Import Base Decomp_Model.
Open Scope Z_scope.

(** Two global cell indices denote the same place of the simulation box
    (modulo the N cells of the box when it is periodic). *)
Definition same_place (b : zbound) (N p q : Z) : Prop :=
  match b with Open => p = q | Periodic => exists n, p = q + n * N end.

(** Geometry of the local (enlarged) grid of each rank: number of rows and
    global index of row 0, as returned by the communicator. *)
Definition local_geometry (c : comm) (Nz start : Z -> Z) : Prop :=
  forall r, 0 <= r < c_size c -> get_Nz_and_iz c true true true (Some r) = Ok (Nz r, start r).

(** What 'replace' must do to the data [old] of all ranks. *)
Definition replaced {A} (b : zbound) (N ng size : Z) (left right : Z -> option Z)
           (Nz start : Z -> Z) (old new : Z -> Z -> A) : Prop :=
  forall r i, 0 <= r < size -> 0 <= i < Nz r ->
    (forall l, left r = Some l -> i < ng ->
       exists j, ng <= j < Nz l - ng /\ same_place b N (start l + j) (start r + i) /\
                 new r i = old l j) /\
    (forall s, right r = Some s -> Nz r - ng <= i ->
       exists j, ng <= j < Nz s - ng /\ same_place b N (start s + j) (start r + i) /\
                 new r i = old s j) /\
    ((left r = None \/ ng <= i) -> (right r = None \/ i < Nz r - ng) -> new r i = old r i).

(** What 'add' must do: cells shared with a neighbour (2*ng cells around the border) get the
    sum of both contributions, on both ranks; other cells are unchanged. *)
Definition added {A} (plus : A -> A -> A) (b : zbound) (N ng size : Z)
           (left right : Z -> option Z) (Nz start : Z -> Z) (old new : Z -> Z -> A) : Prop :=
  (forall r i, 0 <= r < size -> 0 <= i < Nz r ->
    (forall l, left r = Some l -> i < 2 * ng ->
       exists j, Nz l - 2 * ng <= j < Nz l /\
                 same_place b N (start l + j) (start r + i) /\
                 new r i = plus (old r i) (old l j) /\ new l j = new r i) /\
    (forall s, right r = Some s -> Nz r - 2 * ng <= i ->
       exists j, 0 <= j < 2 * ng /\ same_place b N (start s + j) (start r + i) /\
                 new r i = plus (old r i) (old s j) /\ new s j = new r i) /\
    ((left r = None \/ 2 * ng <= i) -> (right r = None \/ i < Nz r - 2 * ng) ->
       new r i = old r i)).
