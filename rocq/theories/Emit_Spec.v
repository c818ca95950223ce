(** Vocabulary of C61: the wave radiated by a plane sheet of current, and the current of the antenna. *)
From Verif Require Import Base Deposit_Model Deposit_Spec Antenna_Model.
From Coq Require Import Reals.
Open Scope R_scope.

(** A plane sheet of surface current K along x, normal to z, that moves at the velocity v along z: amplitudes of the
    wave (Ex, By) just in front of it (larger z) and just behind it. The wave in front propagates towards +z, the one behind
    towards -z; the jumps across the sheet are those of the equations of Faraday and Ampere (for the y axis: Ey and -Bx). *)
Record radiated := { E_front : R; B_front : R; E_back : R; B_back : R }.
Definition radiates (eps0 cl v K : R) (f : radiated) : Prop :=
  E_front f = cl * B_front f /\ E_back f = - (cl * B_back f) /\
  E_front f - E_back f = v * (B_front f - B_back f) /\
  - (B_front f - B_back f) = K / (eps0 * cl ^ 2) - v / cl ^ 2 * (E_front f - E_back f).
(** The field on the side towards which the laser propagates ([pd]: 1 or -1). *)
Definition towards (pd : R) (f : radiated) : R := if Rlt_dec 0 pd then E_front f else E_back f.

(** Currents (charge times velocity) carried by the k-th particles of the species. *)
Definition current_x (cl : R) (k : nat) (l : list species) : R :=
  rsum (fun s => match nth_error (sp_ptcl s) k with Some p => sp_q s * p_w p * (cl * p_ux p * p_ig p) | None => 0 end) l.
Definition current_y (cl : R) (k : nat) (l : list species) : R :=
  rsum (fun s => match nth_error (sp_ptcl s) k with Some p => sp_q s * p_w p * (cl * p_uy p * p_ig p) | None => 0 end) l.
(** Area that one point of the antenna represents: 2 Nm azimuths, npr radii in each radial cell. *)
Definition area (dr : R) (Nm npr : Z) (p : vptcl) : R :=
  sqrt (a_bx p ^ 2 + a_by p ^ 2) * (2 * PI / IZR (2 * Nm)) * (dr / IZR npr).
