(** Vocabulary of C67. *)
From Verif Require Import Base Compton_Model Gauss_Lib.
From Coq Require Import Reals.
From Coquelicot Require Import Coquelicot.
Open Scope R_scope.

(** l is the integral of f over the whole space. *)
Definition int_R3 (f : R -> R -> R -> R) (l : R) : Prop :=
  exists (fy : R -> R -> R) (fx : R -> R),
    (forall x y, int_R (f x y) (fy x y)) /\ (forall x, int_R (fy x) (fx x)) /\ int_R fx l.

(** Components of a 4-vector (time component first) of the lab frame seen in a frame that moves along
    z with the velocity beta c, and the lab coordinates of an event of that frame. *)
Definition lorentz_z (gamma beta : R) (P : fourmom) : fourmom :=
  {| p0 := gamma * (p0 P - beta * p3 P); p1 := p1 P; p2 := p2 P; p3 := gamma * (p3 P - beta * p0 P) |}.
Definition lab_z (c gamma beta z t : R) : R := gamma * (z + beta * c * t).
Definition lab_t (c gamma beta z t : R) : R := gamma * (t + beta * z / c).
(** Lorentz factor and velocity of the frame of the simulation: the lab, or a boosted frame. *)
Definition is_frame (boost : option R) (gamma beta : R) : Prop :=
  match boost with
  | None => gamma = 1 /\ beta = 0
  | Some gamma0 => gamma = gamma0 /\ 0 <= beta /\ gamma ^ 2 * (1 - beta ^ 2) = 1
  end.
