(** Specification for the spectral solver: vector calculus on one mode of the spectral
    (quasi-cylindrical) representation, and the charge conservation law in the three frames.
    A vector field F is represented by Fp = (Fr - i Ft)/2, Fm = (Fr + i Ft)/2 and Fz. *)
From Verif Require Import Base Fourier_Lib Psatd_Model.
From Coq Require Import Reals.
From Coquelicot Require Import Coquelicot.
Open Scope C_scope.

Record vec := { vp : C; vm : C; vz : C }.
Definition E_of (s : mode) : vec := {| vp := Ep s; vm := Em s; vz := Ez s |}.
Definition B_of (s : mode) : vec := {| vp := Bp s; vm := Bm s; vz := Bz s |}.
Definition J_of (s : mode) : vec := {| vp := Jp s; vm := Jm s; vz := Jz s |}.
Definition current_of (x : sources) : vec := {| vp := s_Jp x; vm := s_Jm x; vz := s_Jz x |}.

Definition vadd (a b : vec) : vec := {| vp := vp a + vp b; vm := vm a + vm b; vz := vz a + vz b |}.
Definition vscal (l : C) (a : vec) : vec := {| vp := l * vp a; vm := l * vm a; vz := l * vz a |}.
(** Divergence, curl and gradient at the wavevector (kz, kr). *)
Definition div (kz kr : R) (f : vec) : C := kr * (vp f - vm f) + Ci * kz * vz f.
Definition curl (kz kr : R) (f : vec) : vec :=
  {| vp := kz * vp f - Ci * (kr / 2) * vz f; vm := - (kz * vm f) - Ci * (kr / 2) * vz f; vz := Ci * kr * (vp f + vm f) |}.
Definition grad (kz kr : R) (a : C) : vec :=
  {| vp := - (kr / 2) * a; vm := (kr / 2) * a; vz := Ci * kz * a |}.

(** |F|^2 = |Fr|^2 + |Ft|^2 + |Fz|^2, with Fr = Fp + Fm and Ft = i (Fp - Fm). *)
Definition norm2 (f : vec) : R :=
  (Cmod (vp f + vm f)%C ^ 2 + Cmod (Ci * (vp f - vm f))%C ^ 2 + Cmod (vz f) ^ 2)%R.
(** The electromagnetic energy of the mode, up to the factor eps0/2. *)
Definition energy (c : R) (s : mode) : R := (norm2 (E_of s) + c ^ 2 * norm2 (B_of s))%R.

(** Gauss' law, with the charge density at the present time. *)
Definition gauss (eps0 kz kr : R) (s : mode) : Prop := div kz kr (E_of s) = rho_prev s / eps0.

(** The frame of the solver: standard, Galilean (the grid moves at speed V) or comoving (the grid is
    fixed, the current moves at speed V). *)
Inductive frame := Standard | Galilean (V : R) | Comoving (V : R).
Definition frame_V (f : frame) : option R :=
  match f with Standard => None | Galilean V | Comoving V => Some V end.
Definition frame_gal (f : frame) : bool := match f with Galilean _ => true | _ => false end.
Definition speed (f : frame) : R := match f with Standard => 0 | Galilean V | Comoving V => V end.

(** d rho/dt = - div J during the step, for the time dependence of J that the scheme assumes. *)
Definition rho_rate (f : frame) (kz dt : R) (divJ : C) (t : R) (r : C) : C :=
  match f with
  | Standard => - divJ
  | Galilean V => Ci * (kz * V)%R * r - divJ
  | Comoving V => - divJ * cis (- (kz * V * (t - dt / 2)))
  end.
(** There is a history of the charge density from [rp] to [rn] over the step, that satisfies the
    continuity equation. *)
Definition conserves (f : frame) (kz dt : R) (rp rn divJ : C) : Prop :=
  exists r : R -> C, r 0%R = rp /\ r dt = rn /\
    forall t, is_derive (fun t => Re (r t)) t (Re (rho_rate f kz dt divJ t (r t))) /\
              is_derive (fun t => Im (r t)) t (Im (rho_rate f kz dt divJ t (r t))).

(** A sequence of sources (one per step), starting from the charge [rp], that conserves charge. *)
Fixpoint all_conserve (f : frame) (kz kr dt : R) (rp : C) (xs : list sources) : Prop :=
  match xs with
  | nil => True
  | cons x xs => conserves f kz dt rp (s_rho x) (div kz kr (current_of x)) /\ all_conserve f kz kr dt (s_rho x) xs
  end.

(** The exact solution of the Maxwell equations without sources, after a time t. *)
Definition vacuum_E (c kz kr t : R) (s : mode) : vec :=
  let w := (c * sqrt (kz ^ 2 + kr ^ 2))%R in
  vadd (vscal (cos (w * t)%R) (E_of s)) (vscal (c ^ 2 * (sin (w * t) / w))%R (curl kz kr (B_of s))).
Definition vacuum_B (c kz kr t : R) (s : mode) : vec :=
  let w := (c * sqrt (kz ^ 2 + kr ^ 2))%R in
  vadd (vscal (cos (w * t)%R) (B_of s)) (vscal (- (sin (w * t) / w))%R (curl kz kr (E_of s))).

(** No sources: currents and densities are 0. *)
Definition no_sources (s : mode) : Prop :=
  Jp s = 0 /\ Jm s = 0 /\ Jz s = 0 /\ rho_prev s = 0 /\ rho_next s = 0.
Definition transverse (kz kr : R) (s : mode) : Prop := div kz kr (E_of s) = 0 /\ div kz kr (B_of s) = 0.
