(** Vocabulary of C98. *)
From Coq Require Import Reals.
From Coquelicot Require Import Complex.
From Verif Require Import Base BField_Model GSlice_Model.
Open Scope R_scope.

(** Sum over m = 1, ..., n. *)
Fixpoint sum1 (n : nat) (f : Z -> R) : R := match n with O => 0 | S k => sum1 k f + f (Z.of_nat n) end.
(** The field [q] of the simulation at the angle [theta] (Lifschitz et al. 2009): the mode 0, and twice the real part of the modes
    1, ..., n times e^{-i m theta}. *)
Definition field_at (F : grids) (n : nat) (q iz ir : Z) (theta : R) : R :=
  Re (F q 0%Z iz ir) + sum1 n (fun m => 2 * Re (Cmult (F q m iz ir) (cos (IZR m * theta), - sin (IZR m * theta)))).
(** The value of a dataset in the openPMD geometry "thetaMode": entry 0, then for each mode a cosine and a sine entry. *)
Definition read_at (sl : key -> R) (n : nat) (q ir : Z) (theta : R) : R :=
  sl (q, 0%Z, ir) + sum1 n (fun m => sl (q, (2 * m - 1)%Z, ir) * cos (IZR m * theta) + sl (q, (2 * m)%Z, ir) * sin (IZR m * theta)).
(** The ten fields read at an angle. *)
Definition read_all (sl : key -> R) (n : nat) (ir : Z) (theta : R) : fields :=
  let f q := read_at sl n q ir theta in
  {| fEr := f 0%Z; fEt := f 1%Z; fEz := f 2%Z; fBr := f 3%Z; fBt := f 4%Z; fBz := f 5%Z; fJr := f 6%Z; fJt := f 7%Z; fJz := f 8%Z; frho := f 9%Z |}.
(** An element of a slice with [n] modes above 0 and [Nr] radial cells. *)
Definition in_slice (n : nat) (Nr : Z) (k : key) : Prop :=
  (0 <= fst (fst k) < 10 /\ 0 <= snd (fst k) <= 2 * Z.of_nat n /\ 0 <= snd k < Nr)%Z.
(** The centre of the cell [i] of a grid whose first [offset] cells are before [zmin]. *)
Definition cell_centre (zmin dz : R) (offset i : Z) : R := zmin + (IZR (i - offset) + 1 / 2) * dz.
