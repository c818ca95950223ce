(** Vocabulary of C101. *)
From Coq Require Import Reals.
From Verif Require Import Base Inject_Model Shape_Model Deposit_Model Ring_Model.
Open Scope Z_scope.

(** The density does not depend on the angle: no density function, or one of z and r. *)
Definition axisymmetric (d : dens) : Prop := match d with DensXYZ _ => False | _ => True end.
(** No temperature; no transverse mean velocity. *)
Definition cold (u : momenta) : Prop := (ux_th u = 0 /\ uy_th u = 0 /\ uz_th u = 0)%R.
Definition longitudinal (u : momenta) : Prop := (ux_m u = 0 /\ uy_m u = 0)%R.
(** What must hold of the momenta for component k: nothing for rho; same velocity for all the
    particles, for the current; and along z, for the transverse current. *)
Definition same_velocity (k : comp) (u : momenta) : Prop :=
  match k with Rho => True | Jz => cold u | Jr | Jt => cold u /\ longitudinal u end.
(** The species was loaded with [Nptheta] particles per ring, for any density of z and r, any
    numbers drawn. *)
Definition loaded_with (Nptheta : Z) (u : momenta) (sp : species) : Prop :=
  exists Npz zmin zmax Npr rmin rmax n d rand nx ny nz level,
    (0 <= rmin <= rmax)%R /\ axisymmetric d /\
    generate Npz zmin zmax Npr rmin rmax Nptheta n d u rand nx ny nz level = Ok (sp_ptcl sp).
