(** Vocabulary of C59: the textbook value of a deposited density. *)
From Coq Require Import Reals.
From Flocq Require Import Core.Core.
From Coquelicot Require Import Complex.
From Verif Require Import Base Shape_Model Shape_Spec Deposit_Model Deposit_Spec.
Open Scope R_scope.

(** Polar coordinates: distance from the axis and direction (a unit complex number; 1 on the axis). *)
Definition polar_r (p : ptcl) : R := sqrt (p_x p * p_x p + p_y p * p_y p).
Definition polar_e (p : ptcl) : C :=
  if Req_EM_T (polar_r p) 0 then RtoC 1 else (p_x p / polar_r p, p_y p / polar_r p).
(** At most at the outer edge of the box. *)
Definition in_radius (g : grid) (p : ptcl) : Prop := polar_r p <= IZR (g_Nr g) * g_dr g.
(** What one unit of charge of the particle contributes to each quantity, in the local cylindrical basis
    of the direction e: charge 1, velocity components along e, along the orthogonal direction, along z. *)
Definition quantity (c : R) (k : comp) (p : ptcl) (e : C) : R :=
  match k with
  | Rho => 1
  | Jr => c * p_ig p * (p_ux p * Re e + p_uy p * Im e)
  | Jt => c * p_ig p * (p_uy p * Re e - p_ux p * Im e)
  | Jz => c * p_ig p * p_uz p
  end.
Fixpoint cpow (e : C) (m : nat) : C := match m with O => RtoC 1 | S n => Cmult e (cpow e n) end.

(** Axial weight of cell iz for a particle at [x] (in cells, the centre of cell i is at i): spline, the
    box is periodic. *)
Definition axial_weight (sh : shape) (Nz : Z) (x : R) (iz : Z) : R :=
  spline sh (x - IZR (iz - Nz)) + spline sh (x - IZR iz) + spline sh (x - IZR (iz + Nz)).
(** Radial weight of node j: spline, plus the Ruyten correction with coefficient [beta] between
    the two nodes next to the particle. *)
Definition radial_weight (sh : shape) (beta x : R) (j : Z) : R :=
  let u := x - (IZR (Zceil x) - 1) in
  spline sh (x - IZR j) +
  (if (j =? Zceil x - 1)%Z then beta * u * (1 - u) else if (j =? Zceil x)%Z then - (beta * u * (1 - u)) else 0).
(** What is beyond the last cell is put in the last cell. *)
Definition outer_weight (sh : shape) (beta x : R) (Nr ir : Z) : R :=
  radial_weight sh beta x ir +
  (if (ir =? Nr - 1)%Z then radial_weight sh beta x Nr + radial_weight sh beta x (Nr + 1) else 0).

(** The Ruyten coefficient used for a particle at x: mode 0, or above. *)
Definition ruyten_at (g : grid) (sh : shape) (m : nat) (x : R) : R :=
  g_beta g sh (match m with O => O | S _ => 1%nat end) (Z.min (Zceil x) (g_Nr g)).

(** Contribution of one particle to cell (iz, ir) of mode m. The
    node -1-ir of the half line of the particle's direction e is the cell ir of the opposite half line (direction -e). *)
Definition textbook (c : R) (g : grid) (k : comp) (m : nat) (iz ir : Z) (s : species) (p : ptcl) : C :=
  let e := polar_e p in
  let x := polar_r p / g_dr g - 1 / 2 in
  let xz := (p_z p - g_zmin g) / g_dz g - 1 / 2 in
  let b := ruyten_at g (sp_shape s) m x in
  Cmult (RtoC (sp_q s * weight s p * axial_weight (sp_shape s) (g_Nz g) xz iz / g_vol g ir))
    (Cplus (Cmult (RtoC (outer_weight (sp_shape s) b x (g_Nr g) ir * quantity c k p e)) (cpow e m))
           (Cmult (RtoC (radial_weight (sp_shape s) b x (-1 - ir) * quantity c k p (Copp e))) (cpow (Copp e) m))).
