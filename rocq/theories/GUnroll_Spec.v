(** Vocabulary of C100. *)
From Coq Require Import Reals.
From Coquelicot Require Import Complex.
From Verif Require Import Base Shape_Model Deposit_Model GDeposit_Model GUnroll_Model.
Open Scope Z_scope.

(** Among the additions made to the arrays, those to the array of component k, mode m: the element and
    the value. *)
Definition to_array (k : comp) (m : nat) (ws : list wadd) : list ((Z * Z) * C) :=
  map snd (filter (fun w => comp_eqb k (fst (fst w)) && (m =? snd (fst w))%nat) ws).
