(** Vocabulary of C82. *)
From Verif Require Import Base.
From Coq Require Import String.
Import ListNotations.

Definition node_of (nodes : list string) (r : nat) : string := nth r nodes EmptyString.
(** The ranks of a node are consecutive. *)
Definition contiguous (nodes : list string) : Prop :=
  forall i j k, (i <= j <= k)%nat -> (k < List.length nodes)%nat -> node_of nodes i = node_of nodes k -> node_of nodes j = node_of nodes i.
(** The ranks of the node [n] *)
Definition ranks_of (nodes : list string) (n : string) : list nat :=
  filter (fun r => String.eqb (node_of nodes r) n) (List.seq 0 (List.length nodes)).
