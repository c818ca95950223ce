(** Specification for C79: what a user expects in the particle output. *)
From Verif Require Import Base Pdiag_Model.
From Coq Require Import Reals String.
Import ListNotations.
Open Scope R_scope.
Open Scope list_scope.

(** The documented contents: the request, the dataset, and the value (SI) for one particle. [mc]: the unit of the arrays ux, uy, uz. *)
Definition documented (e mc : R) : list (string * string * (pt -> val)) := [
  ("position", "position/x", fun p => VF (x p)); ("position", "position/y", fun p => VF (y p)); ("position", "position/z", fun p => VF (z p));
  ("momentum", "momentum/x", fun p => VF (mc * ux p)); ("momentum", "momentum/y", fun p => VF (mc * uy p)); ("momentum", "momentum/z", fun p => VF (mc * uz p));
  ("E", "E/x", fun p => VF (Ex p)); ("E", "E/y", fun p => VF (Ey p)); ("E", "E/z", fun p => VF (Ez p));
  ("B", "B/x", fun p => VF (Bx p)); ("B", "B/y", fun p => VF (By p)); ("B", "B/z", fun p => VF (Bz p));
  ("weighting", "weighting", fun p => VF (w p)); ("gamma", "gamma", fun p => VF (/ inv_gamma p));
  ("id", "id", fun p => VU (pid p)); ("charge", "charge", fun p => VF (e * IZR (level p)))]%string.
(** m c for a species with a mass; photons: kg m / s *)
Definition momentum_unit (m c : R) : R := if Rlt_dec 0 m then m * c else 1.
(** What is asked for: by the user, or by default for tracked / ionizable species. *)
Definition asked (particle_data : list string) (s : species) (r : string) : Prop :=
  In r particle_data \/ (r = "id"%string /\ sp_tracked s = true) \/ (r = "charge"%string /\ sp_ionizable s = true).
Definition can_ask : list string := ["position"; "momentum"; "weighting"; "E"; "B"; "gamma"]%string.

(** The quantities of the rules of selection *)
Definition coordinate : list (string * (pt -> R)) := [("x", x); ("y", y); ("z", z); ("ux", ux); ("uy", uy); ("uz", uz); ("w", w); ("gamma", fun p => / inv_gamma p)]%string.
(** A particle meets the rules. *)
Definition meets (rules : list rule) (p : pt) : Prop :=
  forall name lo hi f, In (name, (lo, hi)) rules -> In (name, f) coordinate ->
    (forall b, lo = Some b -> b < f p) /\ (forall b, hi = Some b -> f p < b).
(** ... and is drawn: [u] is its random number. *)
Definition drawn (fraction : option R) (u : R) : Prop := forall f, fraction = Some f -> u < f.

(** Dimensions: powers of length, mass, time, current, temperature, amount, luminous intensity *)
Definition dmul (a b : list Z) : list Z := map (fun '(i, j) => i + j)%Z (combine a b).
Definition dinv (a : list Z) : list Z := map Z.opp a.
Definition ddiv a b := dmul a (dinv b).
Definition length_ : list Z := [1; 0; 0; 0; 0; 0; 0]%Z.
Definition mass_ : list Z := [0; 1; 0; 0; 0; 0; 0]%Z.
Definition time_ : list Z := [0; 0; 1; 0; 0; 0; 0]%Z.
Definition current_ : list Z := [0; 0; 0; 1; 0; 0; 0]%Z.
Definition one_ : list Z := [0; 0; 0; 0; 0; 0; 0]%Z.
Definition velocity_ := ddiv length_ time_.
Definition momentum_ := dmul mass_ velocity_.
Definition force_ := ddiv momentum_ time_.
Definition charge_ := dmul current_ time_.
Definition efield_ := ddiv force_ charge_.
Definition bfield_ := ddiv efield_ velocity_.
Definition area_ := dmul length_ length_.
Definition dimension_of : list (string * list Z) := [("position", length_); ("positionOffset", length_); ("momentum", momentum_); ("E", efield_); ("B", bfield_);
  ("Er_pml", efield_); ("Et_pml", efield_); ("Br_pml", bfield_); ("Bt_pml", bfield_); ("weighting", one_); ("id", one_); ("gamma", one_);
  ("charge", charge_); ("mass", mass_); ("rho", ddiv charge_ (dmul area_ length_)); ("J", ddiv current_ area_)]%string.
