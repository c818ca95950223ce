(** Vocabulary of C40 and C56. *)
From Verif Require Import Base Deposit_Spec Hankel_Model.
From Coq Require Import Reals.
From Coquelicot Require Import Complex.
Open Scope Z_scope.

(** What numpy's documentation says of inv and pinv: right inverse of a square matrix; right inverse of
    the rows 1.. (of full rank). *)
Definition delta_R (i j : Z) : R := if i =? j then 1%R else 0%R.
Definition right_inverse (Nr : Z) (A B : Z -> Z -> R) : Prop :=
  forall i k, 0 <= i < Nr -> 0 <= k < Nr -> rsum (fun j => (A i j * B j k)%R) (range Nr) = delta_R i k.
Definition right_inverse_rows1 (Nr : Z) (A B : Z -> Z -> R) : Prop :=
  forall i k, 1 <= i < Nr -> 0 <= k < Nr - 1 -> rsum (fun j => (A i j * B j k)%R) (range Nr) = delta_R i (k + 1).
(** A list that goes once through each cell of the grid, in any order. *)
Definition all_cells (Nz Nr : Z) (cells : list (Z * Z)) : Prop :=
  NoDup cells /\ forall i j, 0 <= i < Nz /\ 0 <= j < Nr -> In (i, j) cells.
(** inv and pinv, called by the transformer of the azimuthal mode m, did their work. *)
Definition inverses_ok (jn : Z -> R -> R) (zeros : Z -> Z -> R) (rmax : R) (inv pinv : Z -> Z -> Z -> R) (Nr m : Z) : Prop :=
  forall p, In p [m - 1; m; m + 1] ->
  (m = 0 \/ p = m - 1 -> right_inverse Nr (dht_invM jn zeros rmax Nr p m) (inv p)) /\
  (m <> 0 -> p <> m - 1 -> right_inverse_rows1 Nr (dht_invM jn zeros rmax Nr p m) (pinv p)).
