(** Vocabulary of C81. *)
From Verif Require Import Base Boost_Model Push_Model.
From Coq Require Import Reals.
Open Scope R_scope.

(** A Lorentz boost: gamma >= 1 and beta = sqrt(1 - 1/gamma^2), that is gamma^2 (1 - beta^2) = 1 *)
Definition boost_ok (b : option converter) : Prop :=
  match b with Some b => 0 < gamma0 b /\ 0 <= beta0 b /\ gamma0 b ^ 2 * (1 - beta0 b ^ 2) = 1 | None => True end.
(** Position in the lab frame of the event (z, t) of the simulation frame *)
Definition lab_z (c : R) (b : option converter) (z t : R) : R :=
  match b with Some b => gamma0 b * (z + beta0 b * c * t) | None => z end.
Definition beta_of (b : option converter) : R := match b with Some b => beta0 b | None => 0 end.
(** Velocity, and ballistic motion from [a] for a time [t] *)
Definition vel_x (c : R) (a : mp) := c * ig (pm a) * ux (pm a).
Definition vel_y (c : R) (a : mp) := c * ig (pm a) * uy (pm a).
Definition vel_z (c : R) (a : mp) := c * ig (pm a) * uz (pm a).
Definition ballistic (c : R) (a b : mp) (t : R) : Prop :=
  pm b = pm a /\ px b = px a + vel_x c a * t /\ py b = py a + vel_y c a * t /\ pz b = pz a + vel_z c a * t.
