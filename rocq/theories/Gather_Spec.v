(** Vocabulary of C54. *)
From Verif Require Import Base Gather_Model.
From Coq Require Import Reals.
From Coquelicot Require Import Complex.
Open Scope R_scope.
(** A grid from the axis with steps dr, dz; a position in its box. *)
Definition regular (g : ggrid) (dz dr : R) : Prop :=
  0 < dz /\ 0 < dr /\ gg_invdz g = 1 / dz /\ gg_invdr g = 1 / dr /\ gg_rmin g = 0 /\ (2 <= gg_Nz g)%Z /\ (2 <= gg_Nr g)%Z.
Definition in_box (g : ggrid) (dz dr rmax x y z : R) : Prop :=
  gg_zmin g <= z <= gg_zmin g + IZR (gg_Nz g) * dz /\ sqrt (x ^ 2 + y ^ 2) < rmax <= IZR (gg_Nr g) * dr.
(** The array is equal to [v] at all the cells of the grid. *)
Definition equal_to (g : ggrid) (A : Z -> Z -> C) (v : C) : Prop :=
  forall iz ir, (0 <= iz < gg_Nz g)%Z -> (0 <= ir < gg_Nr g)%Z -> A iz ir = v.
(** The azimuthal modes of the uniform field (Fx, Fy, Fz): with F(theta) = F_0 + 2 Re(F_1 exp(-i theta)) + ...,
    F_r = Fx cos theta + Fy sin theta, F_theta = - Fx sin theta + Fy cos theta. *)
Definition uniform_modes (g : ggrid) (Fx Fy Fz : R) (modes : list mfield) : Prop :=
  forall m fld, nth_error modes m = Some fld ->
    equal_to g (f_r fld) (match m with 1%nat => (Fx / 2, Fy / 2) | _ => RtoC 0 end) /\
    equal_to g (f_t fld) (match m with 1%nat => (Fy / 2, - Fx / 2) | _ => RtoC 0 end) /\
    equal_to g (f_z fld) (match m with 0%nat => RtoC Fz | _ => RtoC 0 end).
