(** Vocabulary of C60: interpolation of the physical field on the line through the axis and the particle. *)
From Coq Require Import Reals.
From Coquelicot Require Import Complex.
From Verif Require Import Base Shape_Model Shape_Spec Gather_Model.
Open Scope R_scope.

Definition scaled (a : R) (v : R * R * R) : R * R * R := let '(x, y, z) := v in (a * x, a * y, a * z).
Definition vsum {A} (f : A -> R * R * R) (l : list A) : R * R * R := fold_right (fun a s => vadd (f a) s) (0, 0, 0) l.
Fixpoint conj_pow (e : C) (m : nat) : C := match m with O => RtoC 1 | S n => Cmult (Re e, - Im e) (conj_pow e n) end.
(** Cartesian vector of mode m in cell (iz, ir), in the direction e = cos theta + i sin theta:
    F_m exp(-i m theta), real part, twice for m > 0; e and i e are the local radial and azimuthal directions. *)
Definition mode_vector (m : nat) (fld : mfield) (iz ir : Z) (e : C) : R * R * R :=
  let factor := match m with O => 1 | _ => 2 end in
  let Fr := factor * Re (Cmult (f_r fld iz ir) (conj_pow e m)) in
  let Ft := factor * Re (Cmult (f_t fld iz ir) (conj_pow e m)) in
  let Fz := factor * Re (Cmult (f_z fld iz ir) (conj_pow e m)) in
  (Fr * Re e - Ft * Im e, Fr * Im e + Ft * Re e, Fz).
(** The field of the grids: all the modes, from number [m]. *)
Fixpoint grid_field (m : nat) (modes : list mfield) (iz ir : Z) (e : C) : R * R * R :=
  match modes with [] => (0, 0, 0) | fld :: l => vadd (mode_vector m fld iz ir e) (grid_field (S m) l iz ir e) end.
(** The field at node (v, j) of the plane through the axis that contains the direction e: j >= 0 on the side of e,
    j < 0 on the opposite side; constant beyond the last cell; periodic along z. *)
Definition node_field (g : ggrid) (modes : list mfield) (e : C) (v j : Z) : R * R * R :=
  let iz := (v mod gg_Nz g)%Z in
  if (j <? 0)%Z then grid_field 0 modes iz (-1 - j) (Copp e)
  else grid_field 0 modes iz (Z.min j (gg_Nr g - 1)) e.
(** Spline interpolation between the nodes (rows and columns -2 .. N+1: all those that the splines of a particle
    of the box can reach). *)
Definition interpolated (sh : shape) (g : ggrid) (dz dr : R) (modes : list mfield) (r z : R) (e : C) : R * R * R :=
  vsum (fun v => vsum (fun j =>
      scaled (spline sh ((z - gg_zmin g) / dz - 1 / 2 - IZR v) * spline sh (r / dr - 1 / 2 - IZR j)) (node_field g modes e v j))
    (map (fun j => j - 2)%Z (range (gg_Nr g + 4)))) (map (fun v => v - 2)%Z (range (gg_Nz g + 4))).
