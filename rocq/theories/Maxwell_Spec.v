(** Maxwell's equations on one mode of the spectral representation (C62). *)
From Verif Require Import Base Fourier_Lib Psatd_Model Psatd_Spec.
From Coq Require Import Reals.
From Coquelicot Require Import Coquelicot.
Open Scope C_scope.

(** Derivative with respect to time of a complex number, of a vector. *)
Definition der (f : R -> C) (t : R) (l : C) : Prop :=
  is_derive (fun t => Re (f t)) t (Re l) /\ is_derive (fun t => Im (f t)) t (Im l).
Definition der_vec (f : R -> vec) (t : R) (l : vec) : Prop :=
  der (fun t => vp (f t)) t (vp l) /\ der (fun t => vm (f t)) t (vm l) /\ der (fun t => vz (f t)) t (vz l).

(** V d/dz: how the fields change on a grid that moves at speed V. *)
Definition drift (f : frame) (kz : R) (v : vec) : vec :=
  match f with Galilean V => vscal (Ci * kz * V) v | _ => vscal 0 v end.
(** The current during a timestep: constant on the grid, or moving across the (fixed) grid at speed V,
    in which case [J] is the current at the middle of the timestep. *)
Definition current (f : frame) (kz dt : R) (J : vec) (t : R) : vec :=
  match f with Comoving V => vscal (cis (- (kz * V * (t - dt / 2)))) J | _ => J end.

(** dE/dt = V dE/dz + c^2 curl B - J/epsilon_0, dB/dt = V dB/dz - curl E *)
Definition maxwell (c epsilon_0 : R) (f : frame) (kz kr dt : R) (J : vec) (E B : R -> vec) : Prop :=
  forall t,
  der_vec E t (vadd (drift f kz (E t)) (vadd (vscal (c ^ 2)%R (curl kz kr (B t))) (vscal (- (1 / epsilon_0))%R (current f kz dt J t)))) /\
  der_vec B t (vadd (drift f kz (B t)) (vscal (- (1))%R (curl kz kr (E t)))).

(** The fields [E'], [B'] are what Maxwell's equations make of [E], [B] in one timestep, with the current [J]. *)
Definition evolves (c epsilon_0 : R) (f : frame) (kz kr dt : R) (J E B E' B' : vec) : Prop :=
  exists Et Bt, maxwell c epsilon_0 f kz kr dt J Et Bt /\ Et 0%R = E /\ Bt 0%R = B /\ Et dt = E' /\ Bt dt = B'.
(** The same over several timesteps, with one current per timestep. *)
Fixpoint evolves_all (c epsilon_0 : R) (f : frame) (kz kr dt : R) (xs : list sources) (E B E' B' : vec) : Prop :=
  match xs with
  | nil => E' = E /\ B' = B
  | cons x xs => exists E1 B1, evolves c epsilon_0 f kz kr dt (current_of x) E B E1 B1 /\
      evolves_all c epsilon_0 f kz kr dt xs E1 B1 E' B'
  end.
