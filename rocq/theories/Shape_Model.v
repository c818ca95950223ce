(** Particle shape factors: particles/deposition/particle_shapes.py (exact arithmetic). *)
From Verif Require Import Base.
From Coq Require Import Reals.
From Flocq Require Import Core.Core.
Open Scope R_scope.

(** particle_shapes.py:17-21 Sz_linear. *)
Definition Sz_linear (cell_position : R) (index : Z) : R :=
  let s := IZR (Zceil cell_position) - cell_position in
  if (index =? 1)%Z then 1 - s else s.

(** particle_shapes.py:24-37 Sr_linear. *)
Definition Sr_linear (cell_position : R) (index : Z) (flip beta_n : R) : R :=
  let ir := (Zceil cell_position - 1)%Z in
  let u := cell_position - IZR ir in
  let s := (1 - u) + beta_n * (1 - u) * u in
  let s := if (index =? 1)%Z then 1 - s else s in
  if (index + ir <? 0)%Z then s * flip else s.

(** particle_shapes.py:42-56 Sz_cubic. *)
Definition Sz_cubic (cell_position : R) (index : Z) : R :=
  let iz := (Zceil cell_position - 2)%Z in
  let u := cell_position - IZR iz - 1 in
  if (index =? 0)%Z then (1 / 6) * (1 - u) ^ 3
  else if (index =? 1)%Z then (1 / 6) * (3 * u ^ 3 - 6 * u ^ 2 + 4)
  else if (index =? 2)%Z then (1 / 6) * (3 * (1 - u) ^ 3 - 6 * (1 - u) ^ 2 + 4)
  else if (index =? 3)%Z then (1 / 6) * u ^ 3
  else 0.

(** particle_shapes.py:59-80 Sr_cubic. *)
Definition Sr_cubic (cell_position : R) (index : Z) (flip beta_n : R) : R :=
  let ir := (Zceil cell_position - 2)%Z in
  let u := cell_position - IZR ir - 1 in
  let s :=
    if (index =? 0)%Z then (1 / 6) * (1 - u) ^ 3
    else if (index =? 1)%Z then (1 / 6) * (3 * u ^ 3 - 6 * u ^ 2 + 4) + beta_n * (1 - u) * u
    else if (index =? 2)%Z then (1 / 6) * (3 * (1 - u) ^ 3 - 6 * (1 - u) ^ 2 + 4) - beta_n * (1 - u) * u
    else if (index =? 3)%Z then (1 / 6) * u ^ 3
    else 0 in
  if (index + ir <? 0)%Z then s * flip else s.

(** particles.py:863 [assert self.particle_shape in ['linear', 'cubic']]. *)
Inductive shape := Linear | Cubic.
Definition Sz (sh : shape) := match sh with Linear => Sz_linear | Cubic => Sz_cubic end.
Definition Sr (sh : shape) := match sh with Linear => Sr_linear | Cubic => Sr_cubic end.
(** Number of points along each direction, and first of them, as a grid index (the index in the
    array with 2 guard cells is 2 more): threading_methods.py:129-130 ([ceil(z_cell)+1] in the
    array) and 414-415 ([ceil(z_cell)]). *)
Definition npts (sh : shape) : Z := match sh with Linear => 2 | Cubic => 4 end.
Definition first_pt (sh : shape) (pos : R) : Z :=
  match sh with Linear => Zceil pos - 1 | Cubic => Zceil pos - 2 end.
