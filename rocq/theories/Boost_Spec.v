(** Vocabulary of C41, C42, C49 and C50: the Lorentz transformation to a frame that moves along +z with Lorentz
    factor g and velocity b c. *)
From Coq Require Import Reals.
Open Scope R_scope.

Record event := { e_t : R; e_x : R; e_y : R; e_z : R }.
Definition lorentz (c g b : R) (e : event) : event :=
  {| e_t := g * (e_t e - b * e_z e / c); e_x := e_x e; e_y := e_y e; e_z := g * (e_z e - b * c * e_t e) |}.
(** g and b belong together. *)
Definition boost_ok (g b : R) : Prop := 1 <= g /\ 0 <= b < 1 /\ g * g * (1 - b * b) = 1.
(** An event on the world line of a free particle that is at (x, y, z) at time 0 and has momentum u (in units of m c). *)
Definition free_particle (c x y z ux uy uz t : R) : event :=
  let g := sqrt (1 + ux ^ 2 + uy ^ 2 + uz ^ 2) in
  {| e_t := t; e_x := x + ux / g * c * t; e_y := y + uy / g * c * t; e_z := z + uz / g * c * t |}.
