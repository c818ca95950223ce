(** Vocabulary of C65: a laser added directly to the grid. *)
From Verif Require Import Base Fourier_Lib Psatd_Model Psatd_Spec Laser_Model Direct_Model ExtField_Spec.
From Coq Require Import Reals.
From Coquelicot Require Import Coquelicot.
Open Scope R_scope.

(** The function of the angle that Nm azimuthal modes represent: F_m exp(-i m theta), real part, twice for m > 0. *)
Definition azimuthal (Nm : nat) (F : nat -> C) (theta : R) : R :=
  rsum Nm (fun m => (match m with O => 1 | _ => 2 end) * Re (F m * cis (- (INR m * theta)))%C).
(** Trigonometric polynomials of degree at most M. *)
Definition trig (M : nat) (f : R -> R) : Prop :=
  exists a b : nat -> R, forall theta, f theta = rsum (S M) (fun n => a n * cos (INR n * theta) + b n * sin (INR n * theta)).
(** Components of a vector of the transverse plane along the local radial and azimuthal directions. *)
Definition radial (v : R * R) (theta : R) : R := fst v * cos theta + snd v * sin theta.
Definition tangential (v : R * R) (theta : R) : R := - fst v * sin theta + snd v * cos theta.

(** At each radius, the Cartesian components of the profile are trigonometric polynomials of degree at most M. *)
Definition cylindrical (M : nat) (l : laser) : Prop := forall r z t, 0 <= r ->
  trig M (fun theta => fst (E_field l (r * cos theta) (r * sin theta) z t)) /\ trig M (fun theta => snd (E_field l (r * cos theta) (r * sin theta) z t)).
(** M + 2 azimuthal modes are enough to represent the profile at every angle. *)
Definition represented (l : laser) (M : nat) : Prop := forall cl time Nm z r theta, (M + 2 <= Nm)%nat -> 0 <= r ->
  let F := fun m => get_laser_Er_Et cl l None time Nm z r m in let E := E_field l (r * cos theta) (r * sin theta) z time in
  azimuthal Nm (fun m => fst (F m)) theta = radial E theta /\ azimuthal Nm (fun m => snd (F m)) theta = tangential E theta.

(** The fields of a spectral mode, as vectors. *)
Definition E_six (s : six) : vec := {| vp := sEp s; vm := sEm s; vz := sEz s |}.
Definition B_six (s : six) : vec := {| vp := sBp s; vm := sBm s; vz := sBz s |}.
(** The state of the solver with these fields, without charge nor current. *)
Definition mode_six (s : six) : mode :=
  {| Ep := sEp s; Em := sEm s; Ez := sEz s; Bp := sBp s; Bm := sBm s; Bz := sBz s; Jp := 0; Jm := 0; Jz := 0;
     rho_prev := 0; rho_next := 0; rho_next_z := 0; rho_next_xy := 0 |}%C.
(** Flux of energy along z of the mode (up to a constant): Re (Er conj(Bt) - Et conj(Br)), with Er = Ep + Em, Et = i (Ep - Em). *)
Definition flux (E B : vec) : R :=
  Re ((vp E + vm E) * Cconj (Ci * (vp B - vm B)) - (Ci * (vp E - vm E)) * Cconj (vp B + vm B))%C.

(** Electromagnetic field of a wave that goes along z in the direction dir, of transverse electric field (Ex, Ey). *)
Definition plane_wave (cl dir : R) (E : R * R) : emf :=
  {| Ex' := fst E; Ey' := snd E; Ez' := 0; Bx' := - dir * snd E / cl; By' := dir * fst E / cl; Bz' := 0 |}.

(** The six arrays of the grid *)
Definition comps : list (Direct_Model.interp -> Z -> Z -> C) := cons gEr (cons gEt (cons gEz (cons gBr (cons gBt (cons gBz nil))))).
