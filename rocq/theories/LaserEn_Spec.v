(** Specification of the energy of a laser (C69). *)
From Verif Require Import Base Fourier_Lib Laser_Model.
From Coq Require Import Reals.
From Coquelicot Require Import Coquelicot.
Open Scope R_scope.

(** ** Integrals *)
(** over a plane, in polar coordinates: \int_0^oo r dr \int_0^2pi dtheta f(r cos theta, r sin theta) = l *)
Definition plane_integral (f : R -> R -> R) (l : R) : Prop :=
  exists g : R -> R,
    (forall r, 0 < r -> is_RInt (V := R_NormedModule) (fun th => f (r * cos th) (r * sin th)) 0 (2 * PI) (g r)) /\
    is_RInt_gen (V := R_NormedModule) (fun r => r * g r) (at_point 0) (Rbar_locally p_infty) l.
(** over the line *)
Definition line_integral (f : R -> R) (l : R) : Prop :=
  is_RInt_gen (V := R_NormedModule) f (Rbar_locally m_infty) (Rbar_locally p_infty) l.
(** over space: plane after plane *)
Definition space_integral (f : R -> R -> R -> R) (l : R) : Prop :=
  exists g : R -> R, (forall z, plane_integral (fun x y => f x y z) (g z)) /\ line_integral g l.

(** ** Energy *)
(** Density of energy of an electromagnetic wave, E^2 eps0/2 + B^2/(2 mu0) with B = E/c. *)
Definition energy_density (eps0 : R) (l : laser) (x y z t : R) : R :=
  let '(Ex, Ey) := E_field l x y z t in eps0 * (Ex ^ 2 + Ey ^ 2).

(** ** The transverse profiles that can be given to ParaxialApproximationLaser: constructor, attributes k0 and
    propag_direction, evaluate, squared_profile_integral. *)
Inductive transverse_profile : R -> R -> (R -> R -> R -> C) -> R -> Prop :=
| tp_gauss waist zf lambda0 dir t : 0 < waist -> 0 < lambda0 -> transverse_init waist zf lambda0 dir = Ok t ->
    transverse_profile (t_k0 t) (t_dir t) (gauss_evaluate t) (gauss_squared_integral t)
| tp_laguerre p m waist zf lambda0 theta0 dir l : 0 < waist -> 0 < lambda0 -> laguerre_init p m waist zf lambda0 theta0 dir = Ok l ->
    transverse_profile (t_k0 (l_t l)) (t_dir (l_t l)) (laguerre_evaluate l) (gauss_squared_integral (l_t l))
| tp_donut p m waist zf lambda0 dir l : 0 < waist -> 0 < lambda0 -> donut_init p m waist zf lambda0 dir = Ok l ->
    transverse_profile (t_k0 (d_t l)) (t_dir (d_t l)) (donut_evaluate l) (gauss_squared_integral (d_t l))
| tp_flattened w0 N zf lambda0 dir l : 0 < w0 -> 0 < lambda0 -> flattened_init w0 N zf lambda0 dir = Ok l ->
    transverse_profile (t_k0 (f_t l)) (t_dir (f_t l)) (flattened_evaluate l) (flattened_squared_integral l).
