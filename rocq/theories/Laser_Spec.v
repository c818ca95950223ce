(** Specification for the laser profiles (C63). *)
From Verif Require Import Base Fourier_Lib Psatd_Spec Maxwell_Spec Laser_Model.
From Coq Require Import Reals.
From Coquelicot Require Import Coquelicot.
Open Scope C_scope.

(** ** Propagation *)
(** The paraxial wave equation for the envelope u of a beam of wavevector k0 that goes in the direction dir (1 or -1):
    2 i k0 dir du/dz + d^2u/dx^2 + d^2u/dy^2 = 0, everywhere. *)
Definition paraxial (k0 dir : R) (u : R -> R -> R -> C) : Prop :=
  exists ux uxx uy uyy uz : R -> R -> R -> C, forall x y z : R,
    der (fun x => u x y z) x (ux x y z) /\ der (fun x => ux x y z) x (uxx x y z) /\
    der (fun y => u x y z) y (uy x y z) /\ der (fun y => uy x y z) y (uyy x y z) /\
    der (fun z => u x y z) z (uz x y z) /\
    2 * Ci * k0 * dir * uz x y z + uxx x y z + uyy x y z = 0.

(** The paraxial wave equation for a whole pulse u(x, y, z, zeta), zeta = dir z - c t:
    2 d^2u/(dz dzeta) + dir (d^2u/dx^2 + d^2u/dy^2) = 0.  (For u = exp(i k0 zeta) v(x, y, z), this is the equation above.) *)
Definition paraxial_pulse (dir : R) (u : R -> R -> R -> R -> C) : Prop :=
  exists ux uxx uy uyy us uzs : R -> R -> R -> R -> C, forall x y z s : R,
    der (fun x => u x y z s) x (ux x y z s) /\ der (fun x => ux x y z s) x (uxx x y z s) /\
    der (fun y => u x y z s) y (uy x y z s) /\ der (fun y => uy x y z s) y (uyy x y z s) /\
    der (fun s => u x y z s) s (us x y z s) /\ der (fun z => us x y z s) z (uzs x y z s) /\
    2 * uzs x y z s + dir * (uxx x y z s + uyy x y z s) = 0.

(** ** A linearly-polarized pulse *)
(** Amplitude E0, polarization angle theta, waveform g (a function of zeta = dir (z - z0) - c t only), transverse envelope u. *)
Definition is_pulse (c dir z0 E0 theta : R) (g : R -> C) (u : R -> R -> R -> C) (l : laser) : Prop :=
  propag_direction l = dir /\
  forall x y z t : R,
    let field := (E0 * Re (g (dir * (z - z0) - c * t)%R * u x y z)%C)%R in
    E_field l x y z t = (cos theta * field, sin theta * field)%R.
(** The amplitude for a0 = 1. *)
Definition E_unit (c m_e e lambda0 : R) : R := (m_e * c ^ 2 * (2 * PI / lambda0) / e)%R.
(** exp(-zeta^2/(c tau)^2) exp(i (k0 zeta - cep)) *)
Definition gaussian_waveform (c tau k0 cep zeta : R) : C := exp (- (zeta ^ 2 / (c ^ 2 * tau ^ 2))) * cis (k0 * zeta - cep).
(** The same with a chirp phi2 = X tau^2: the envelope is longer (in zeta^2) and weaker (in energy: the same), the
    phase has a quadratic term. *)
Definition chirp_stretch (tau phi2 : R) : R := (1 + 4 * (phi2 / tau ^ 2) ^ 2)%R.
Definition chirped_amplitude (c tau phi2 zeta : R) : R :=
  (/ sqrt (sqrt (chirp_stretch tau phi2)) * exp (- (zeta ^ 2 / (c ^ 2 * tau ^ 2 * chirp_stretch tau phi2))))%R.
Definition chirped_phase (c tau k0 cep phi2 zeta : R) : R :=
  (k0 * zeta - cep - 2 * (phi2 / tau ^ 2) * (zeta ^ 2 / (c ^ 2 * tau ^ 2 * chirp_stretch tau phi2)) + atan (2 * (phi2 / tau ^ 2)) / 2)%R.
Definition chirped_waveform (c tau k0 cep phi2 zeta : R) : C := chirped_amplitude c tau phi2 zeta * cis (chirped_phase c tau k0 cep phi2 zeta).

(** ** Documented transverse shapes in the focal plane, in polar coordinates *)
Definition laguerre := genlaguerre.
Definition gaussian_shape (w r : R) : R := exp (- (r ^ 2 / w ^ 2)).
Definition laguerre_shape (p m : nat) (w theta0 r theta : R) : R :=
  (sqrt (factR p * (2 - if Nat.eqb m 0 then 1 else 0) / factR (m + p)) * (sqrt 2 * r / w) ^ m * laguerre p m (2 * r ^ 2 / w ^ 2) *
   cos (INR m * (theta - theta0)) * exp (- (r ^ 2 / w ^ 2)))%R.
Definition donut_shape (p : nat) (m : Z) (w r theta : R) : C :=
  (sqrt (factR p / factR (Z.abs_nat m + p)) * (sqrt 2 * r / w) ^ Z.abs_nat m * laguerre p (Z.abs_nat m) (2 * r ^ 2 / w ^ 2) *
   exp (- (r ^ 2 / w ^ 2)))%R * cis (- (IZR m * theta)).
Definition flattened_coefficient (N n : nat) : R := rsum (N + 1 - n) (fun i => / 2 ^ (n + i) * Binomial.C (n + i) n)%R.
Definition flattened_shape (N : nat) (w r : R) : R :=
  (/ (INR N + 1) * exp (- (r ^ 2 / ((INR N + 1) * w ^ 2))) *
   rsum (N + 1) (fun n => flattened_coefficient N n * laguerre n 0 (2 * r ^ 2 / ((INR N + 1) * w ^ 2))))%R.
(** Far from focus: a flattened Gaussian. *)
Definition flattened_far_shape (N : nat) (X : R) : R := (exp (- X) * rsum (N + 1) (fun n => X ^ n / factR n))%R.

(** The position of the focal plane: [zf], by default [z0]. *)
Definition focus (z0 : R) (zf : option R) : R := match zf with Some z => z | None => z0 end.

(** ** Duration (C64) *)
(** An intensity I(t) of maximum 1 has the full width at half maximum [fwhm]. *)
Definition has_fwhm (I : R -> R) (fwhm : R) : Prop :=
  (forall t, I t <= 1)%R /\ exists t0, I t0 = 1%R /\ forall t, (1 / 2 <= I t <-> Rabs (t - t0) <= fwhm / 2)%R.
