(** Specification of the split fields: Maxwell's equations in vacuum, in which the transverse components of E and B are
    separated in the part that the radial derivatives generate (the only one a radial PML absorbs) and the rest. *)
From Verif Require Import Base Fourier_Lib Psatd_Model Psatd_Spec Pml_Model.
From Coq Require Import Reals.
From Coquelicot Require Import Coquelicot.
Open Scope C_scope.

(** [l] is the derivative at [t] of the complex function [f]. *)
Definition dC (f : R -> C) (t : R) (l : C) : Prop :=
  is_derive (fun t => Re (f t)) t (Re l) /\ is_derive (fun t => Im (f t)) t (Im l).
(** In a grid that moves at speed V, the time derivative has an additional V d/dz. *)
Definition drift (f : frame) (kz : R) : R := match f with Galilean V => (kz * V)%R | _ => 0%R end.
(** The histories E, B, P satisfy dE/dt = c^2 curl B, dB/dt = - curl E and, for the transverse components of P, the same
    equations with the derivatives along z left out (wavenumber 0 along z). *)
Definition split_maxwell (c : R) (f : frame) (kz kr : R) (E B : R -> vec) (P : R -> pml) : Prop :=
  forall t, let D := Ci * drift f kz in let c2 := RtoC (c ^ 2) in
  dC (fun t => vp (E t)) t (D * vp (E t) + c2 * vp (curl kz kr (B t))) /\
  dC (fun t => vm (E t)) t (D * vm (E t) + c2 * vm (curl kz kr (B t))) /\
  dC (fun t => vz (E t)) t (D * vz (E t) + c2 * vz (curl kz kr (B t))) /\
  dC (fun t => vp (B t)) t (D * vp (B t) - vp (curl kz kr (E t))) /\
  dC (fun t => vm (B t)) t (D * vm (B t) - vm (curl kz kr (E t))) /\
  dC (fun t => vz (B t)) t (D * vz (B t) - vz (curl kz kr (E t))) /\
  dC (fun t => Ep_pml (P t)) t (D * Ep_pml (P t) + c2 * vp (curl 0 kr (B t))) /\
  dC (fun t => Em_pml (P t)) t (D * Em_pml (P t) + c2 * vm (curl 0 kr (B t))) /\
  dC (fun t => Bp_pml (P t)) t (D * Bp_pml (P t) - vp (curl 0 kr (E t))) /\
  dC (fun t => Bm_pml (P t)) t (D * Bm_pml (P t) - vm (curl 0 kr (E t))).
(** The step from [a] to [b], of duration dt, is the exact solution of these equations. *)
Definition exact_step (c : R) (f : frame) (kz kr dt : R) (a b : mode * pml) : Prop :=
  exists E B P, E 0%R = E_of (fst a) /\ B 0%R = B_of (fst a) /\ P 0%R = snd a /\
    E dt = E_of (fst b) /\ B dt = B_of (fst b) /\ P dt = snd b /\ split_maxwell c f kz kr E B P.

(** The share of a transverse wave of wavevector (kz, kr) that the radial derivatives generate is
    kr^2/(kz^2 + kr^2) of its radial component Fp + Fm (divided equally between Fp and Fm). [defect]: how far the PML
    arrays are from it, times 2 (kz^2 + kr^2). *)
Definition defect (kz kr : R) (sp : mode * pml) : list C :=
  let (s, p) := sp in let k2 := RtoC (2 * (kz ^ 2 + kr ^ 2)) in let kr2 := RtoC (kr ^ 2) in
  cons (k2 * Ep_pml p - kr2 * (Ep s + Em s)) (cons (k2 * Em_pml p - kr2 * (Ep s + Em s))
  (cons (k2 * Bp_pml p - kr2 * (Bp s + Bm s)) (cons (k2 * Bm_pml p - kr2 * (Bp s + Bm s)) nil))).
Definition in_share (kz kr : R) (sp : mode * pml) : Prop := List.Forall (fun z : C => z = 0) (defect kz kr sp).
