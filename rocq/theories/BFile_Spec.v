(** What the files of the back-transformed particle diagnostic must contain. *)
From Verif Require Import Base Pdiag_Model BFile_Model.
From Coq Require Import Reals String.
Import ListNotations.
Open Scope R_scope.
Open Scope list_scope.

(** The value of a quantity of a particle, in SI units (openPMD). *)
Definition si (e c : R) (s : species) (q : string) (p : lab) : val :=
  let u r := VF (if Rlt_dec 0 (sp_m s) then r * (sp_m s * c) else r) in
  if String.eqb q "x" then VF (l_x p) else if String.eqb q "y" then VF (l_y p) else if String.eqb q "z" then VF (l_z p)
  else if String.eqb q "ux" then u (l_ux p) else if String.eqb q "uy" then u (l_uy p) else if String.eqb q "uz" then u (l_uz p)
  else if String.eqb q "w" then VF (l_w p) else if String.eqb q "charge" then VF (IZR (l_level p) * e) else VU (l_id p).
(** The number a rule of the selection is about (momentum in units of m*c, charge in units of e). *)
Definition raw (q : string) (p : lab) : R :=
  if String.eqb q "x" then l_x p else if String.eqb q "y" then l_y p else if String.eqb q "z" then l_z p
  else if String.eqb q "ux" then l_ux p else if String.eqb q "uy" then l_uy p else if String.eqb q "uz" then l_uz p
  else if String.eqb q "w" then l_w p else if String.eqb q "charge" then IZR (l_level p) else IZR (l_id p).
(** The quantities that a species has. *)
Definition has (s : species) (q : string) : Prop :=
  In q ["x"; "y"; "z"; "ux"; "uy"; "uz"; "w"]%string \/ (q = "charge"%string /\ sp_ionizable s = true) \/ (q = "id"%string /\ sp_tracked s = true).
(** A particle that satisfies the rules. *)
Definition keeps (rules : list rule) (p : lab) : Prop :=
  forall q lo hi, In (q, (lo, hi)) rules -> (forall b, lo = Some b -> b < raw q p) /\ (forall b, hi = Some b -> raw q p < b).
Definition chosen (select : option (list rule)) (p : lab) : Prop := match select with Some rules => keeps rules p | None => True end.

(** A usable diagnostic: one rank or more, species of different names, snapshots of different numbers, quantities that the species have, none of
    them twice, rules about such quantities. *)
Definition diag_ok (d : bdiag) : Prop :=
  (1 <= b_ranks d)%nat /\ NoDup (b_names d) /\ NoDup (b_snaps d) /\ (0 < b_period d)%Z /\
  (forall n, In n (b_names d) -> quantities d n <> [] /\ NoDup (quantities d n) /\
     (forall q, In q (quantities d n) -> has (b_species d n) q) /\
     (forall rules r, b_select d = Some rules -> In r rules -> has (b_species d n) (fst r))).
(** The particles caught at an iteration, on all the ranks. *)
Definition all_caught (caught : Z -> key -> list (option (list lab))) (k : key) (i : Z) : list lab :=
  flat_map (fun o => match o with Some l => l | None => [] end) (caught i k).
(** The iterations up to the last one that is a multiple of the period. *)
Fixpoint upto_flush (period : Z) (rev_its : list Z) : list Z :=
  match rev_its with
  | [] => []
  | i :: l => if (i mod period =? 0)%Z then rev_its else upto_flush period l
  end.
Definition on_disk (period : Z) (its : list Z) : list Z := rev (upto_flush period (rev its)).
(** [a]: the particles of [l] that are chosen, in any order. *)
Definition choice_of (select : option (list rule)) (a l : list lab) : Prop :=
  exists f : lab -> bool, (forall p, f p = true <-> chosen select p) /\ Permutation.Permutation a (filter f l).
(** The record of each quantity in the file (openPMD, ED-PIC). *)
Definition record_of : list (string * string) :=
  [("x", "position/x"); ("y", "position/y"); ("z", "position/z"); ("ux", "momentum/x"); ("uy", "momentum/y"); ("uz", "momentum/z");
   ("w", "weighting"); ("charge", "charge"); ("id", "id")]%string.
(** The file of a snapshot and a species: for every quantity, its record holds the values for the particles [P], in the same order. *)
Definition file_holds (e c : R) (s : species) (qs : list string) (f : dsets) (P : list lab) : Prop :=
  forall q path, In q qs -> In (q, path) record_of -> f path = Some (map (si e c s q) P).
