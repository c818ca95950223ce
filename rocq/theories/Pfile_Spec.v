(** What C103 says: how a reader that follows the openPMD standard (version 1.0) reads the records of a species, and what it should find. *)
From Coq Require Import ZArith Reals List String.
From Verif Require Import Base Pdiag_Model Pdiag_Spec Pfile_Model.
Import ListNotations.
Open Scope R_scope.
Open Scope list_scope.

Definition num (v : val) : R := match v with VF r => r | VU n => IZR n end.
(** ** The standard *)
(** The values, in SI units, of a component: a dataset, or a constant repeated [shape] times. *)
Definition reads (t : tree) (p : path) (l : list R) : Prop :=
  exists u, attrs t p "unitSI"%string = Some (ANum u) /\
  ((exists d, nodes t p = Some (Dataset d) /\ l = map (fun v => u * num v) d) \/
   (exists v n, nodes t p = Some Group /\ attrs t p "value"%string = Some (ANum v) /\ attrs t p "shape"%string = Some (AVec [INR n]) /\ l = repeat (u * v) n)).
(** The same quantity for a macroparticle that stands for [w] real particles, from the value [x] in the file. *)
Definition of_macroparticle (t : tree) (rec : string) (w x y : R) : Prop :=
  exists m k, attrs t (rec, None) "macroWeighted"%string = Some (ANum m) /\ attrs t (rec, None) "weightingPower"%string = Some (ANum (IZR k)) /\
  ((m = 0 /\ y = x * powerRZ w k) \/ (m = 1 /\ y = x)).
Definition has_dimension (t : tree) (rec : string) (d : list Z) : Prop := attrs t (rec, None) "unitDimension"%string = Some (AVec (map IZR d)).
Definition at_time_of_file (t : tree) (rec : string) : Prop := attrs t (rec, None) "timeOffset"%string = Some (ANum 0).

(** ** What should be there *)
(** The documented records and their components. [mc]: the unit of the momenta in the simulation. *)
Definition described (e mc : R) : list (string * option string * (pt -> val)) := [
  ("position", Some "x", fun p => VF (x p)); ("position", Some "y", fun p => VF (y p)); ("position", Some "z", fun p => VF (z p));
  ("momentum", Some "x", fun p => VF (mc * ux p)); ("momentum", Some "y", fun p => VF (mc * uy p)); ("momentum", Some "z", fun p => VF (mc * uz p));
  ("E", Some "x", fun p => VF (Ex p)); ("E", Some "y", fun p => VF (Ey p)); ("E", Some "z", fun p => VF (Ez p));
  ("B", Some "x", fun p => VF (Bx p)); ("B", Some "y", fun p => VF (By p)); ("B", Some "z", fun p => VF (Bz p));
  ("weighting", None, fun p => VF (w p)); ("gamma", None, fun p => VF (/ inv_gamma p));
  ("id", None, fun p => VU (pid p)); ("charge", None, fun p => VF (e * IZR (level p)))]%string.
(** Extensive quantities: those of a macroparticle are w times those of a particle. The weight is that of the macroparticle already. *)
Definition extensive (rec : string) : bool := isin rec ["momentum"; "charge"; "mass"]%string.
Definition macro_value (rec : string) (w x : R) : R := if extensive rec then w * x else x.
(** Records that every species has. *)
Definition always (s : species) (rec : string) : Prop :=
  rec = "mass"%string \/ rec = "positionOffset"%string \/ (rec = "charge"%string /\ sp_ionizable s = false).
(** A file of a previous simulation in which the records that will be groups are not datasets. *)
Definition is_dataset (t : tree) (p : path) : Prop := exists d, nodes t p = Some (Dataset d).
Definition usable (s : species) (old : option tree) : Prop := forall t, old = Some t ->
  (forall r, In r ["position"; "momentum"; "E"; "B"; "mass"; "positionOffset"]%string -> ~ is_dataset t (r, None)) /\
  (forall x, ~ is_dataset t ("positionOffset"%string, Some x)) /\
  (sp_ionizable s = false -> ~ is_dataset t ("charge"%string, None)).
(** The particles that are written. *)
Definition selected (select : option (list rule)) (fraction : option R) (rands : list (list R)) (ranks : list (list pt)) (l : list pt) : Prop :=
  exists keep, (forall p u, keep (p, u) = true <-> meets (match select with Some r => r | None => [] end) p /\ drawn fraction u) /\
  l = map fst (filter keep (combine (List.concat ranks) (List.concat rands))).
(** Order of the shapes of particles *)
Definition shape_order : list (string * R) := [("linear", 1); ("cubic", 3)]%string.
