(** Vocabulary of C50. *)
From Verif Require Import Base Boost_Spec BField_Model.
From Coq Require Import Reals.
Open Scope R_scope.

Definition fdiag_ok (d : fdiag) (b : R) : Prop :=
  boost_ok (f_g d) b /\ 0 < b /\ 0 < f_c d /\ 0 < f_dt d /\ (0 < f_period d)%Z.
(** The point of the snapshot at boosted-frame time t: the event whose lab time is the snapshot time. *)
Definition snapshot_event (d : fdiag) (b t z : R) : Prop :=
  e_t (lorentz (f_c d) (f_g d) (- b) {| e_t := t; e_x := 0; e_y := 0; e_z := z |}) = f_t d.
Definition lab_z (d : fdiag) (b t z : R) : R :=
  e_z (lorentz (f_c d) (f_g d) (- b) {| e_t := t; e_x := 0; e_y := 0; e_z := z |}).
(** At iteration n the snapshot is inside the domain (lo, hi) of a process, and inside its own lab limits. *)
Definition seen (d : fdiag) (b lo hi : R) (n : Z) : Prop :=
  exists z, snapshot_event d b (IZR n * f_dt d) z /\ lo < z < hi /\ f_zmin d < lab_z d b (IZR n * f_dt d) z < f_zmax d.
(** The slice of iteration n belongs in cell k of the file, whose cells have the size dz and start at zmin. *)
Definition in_cell (d : fdiag) (b dz : R) (n k : Z) : Prop :=
  exists z, snapshot_event d b (IZR n * f_dt d) z /\
  f_zmin d + IZR k * dz <= lab_z d b (IZR n * f_dt d) z < f_zmin d + IZR (k + 1) * dz.
(** The ends of the domains of the processes, from left to right, at each iteration: process q has (e n q, e n (q+1)).
    They do not move to the left as fast as the snapshot (which moves faster than light). *)
Definition edges_ok (d : fdiag) (b : R) (procs : nat) (e : Z -> nat -> R) : Prop :=
  (forall n q, (q < procs)%nat -> e n q < e n (S q)) /\
  (forall n q, e n q - f_c d / b * f_dt d < e (n + 1)%Z q).
(** Iteration n has been written to the file after N iterations: there was a flush since. *)
Definition flushed (d : fdiag) (N : nat) (n : Z) : Prop := exists m, (n <= m < Z.of_nat N)%Z /\ (m mod f_period d = 0)%Z.

(** Electromagnetic field and source at an event, in the right-handed axes r, theta, z. *)
Definition E_dot_B (f : fields) : R := fEr f * fBr f + fEt f * fBt f + fEz f * fBz f.
Definition E2_c2B2 (c : R) (f : fields) : R :=
  fEr f ^ 2 + fEt f ^ 2 + fEz f ^ 2 - c ^ 2 * (fBr f ^ 2 + fBt f ^ 2 + fBz f ^ 2).
Definition c2rho2_J2 (c : R) (f : fields) : R := c ^ 2 * frho f ^ 2 - (fJr f ^ 2 + fJt f ^ 2 + fJz f ^ 2).
(** The field at the angle theta from the 2 Nm - 1 entries of the file: mode 0, then the real (cosine) and the imaginary
    (sine) part of the modes 1, 2, ... *)
Definition f_zero : fields :=
  {| fEr := 0; fEt := 0; fEz := 0; fBr := 0; fBt := 0; fBz := 0; fJr := 0; fJt := 0; fJz := 0; frho := 0 |}.
Definition f_add (w : R) (f g : fields) : fields :=
  {| fEr := fEr g + w * fEr f; fEt := fEt g + w * fEt f; fEz := fEz g + w * fEz f; fBr := fBr g + w * fBr f;
     fBt := fBt g + w * fBt f; fBz := fBz g + w * fBz f; fJr := fJr g + w * fJr f; fJt := fJt g + w * fJt f;
     fJz := fJz g + w * fJz f; frho := frho g + w * frho f |}.
Fixpoint modes_at (theta : R) (m : nat) (l : list fields) : fields :=
  match l with
  | re :: im :: r => f_add (cos (INR m * theta)) re (f_add (sin (INR m * theta)) im (modes_at theta (S m) r))
  | _ => f_zero end.
Definition at_angle (theta : R) (l : list fields) : fields :=
  match l with [] => f_zero | f0 :: r => f_add 1 f0 (modes_at theta 1 r) end.
