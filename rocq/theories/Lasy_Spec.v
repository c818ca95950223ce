(** The pulse described by a lasy file (openPMD, laser envelope). *)
From Coq Require Import ZArith List Reals String.
From Coquelicot Require Import Complex.
From Verif Require Import Base Fourier_Lib Lasy_Model.
Import ListNotations.
Open Scope R_scope.

(** Linear interpolation: the hat function. *)
Definition tent (u : R) : R := Rmax 0 (1 - Rabs u).
(** Position of the node [i] of an axis, in SI units. *)
Definition node (unit offset spacing : R) (i : nat) : R := (offset + INR i * spacing) * unit.
(** Value at [x] of what is interpolated linearly between the nodes. *)
Definition linear (unit offset spacing : R) (n : nat) (x : R) (v : nat -> C) : C :=
  csum n (fun i => Cmult (RtoC (tent ((x - node unit offset spacing i) / (spacing * unit)))) (v i)).
(** Between the first node (included) and the last (excluded) *)
Definition within (unit offset spacing : R) (n : nat) (x : R) : Prop := node unit offset spacing 0 <= x /\ x < node unit offset spacing (n - 1).
(** The angular modes (openPMD, thetaMode): 1, cos th, sin th, cos 2th, ... *)
Definition angular (f : lfile) (nm : nat) (th : R) (it ir : nat) : C :=
  Cplus (f_data f 0 (Z.of_nat it) (Z.of_nat ir))
    (csum nm (fun k => Cplus (Cmult (RtoC (cos (INR (k + 1) * th))) (f_data f (2 * Z.of_nat k + 1)%Z (Z.of_nat it) (Z.of_nat ir)))
                             (Cmult (RtoC (sin (INR (k + 1) * th))) (f_data f (2 * Z.of_nat k + 2)%Z (Z.of_nat it) (Z.of_nat ir))))).
(** The field, from the envelope and the carrier exp(-i omega (t - t_start + tmin)). *)
Definition field_of (f : lfile) (t_start : R) (env : C) (t : R) : R * R :=
  let tmin := fst (fst (f_offset f)) in
  let E := Cmult env (cis (- (f_omega f * (t - t_start + tmin)))) in
  (Re (Cmult (fst (f_pol f)) E), Re (Cmult (snd (f_pol f)) E)).
(** A recent file of lasy *)
Definition recent (f : lfile) : Prop := exists a b c, f_software f = Some "lasy"%string /\ f_version f = Some [Some a; Some b; Some c] /\
  (0 < a \/ a = 0 /\ 3 < b \/ a = 0 /\ b = 3 /\ 0 <= c)%Z.
