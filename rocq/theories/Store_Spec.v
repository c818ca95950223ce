(** Vocabulary of C55. *)
From Verif Require Import Base Store_Model.
From Coq Require Import Reals String.
Open Scope R_scope.
(** The quantities on which one can select *)
Definition value (q : string) (p : particle) : R := if (q =? "gamma")%string then 1 / p "inv_gamma"%string else p q.
Definition available (s : species) (q : string) : Prop := s_has s (if (q =? "gamma")%string then "inv_gamma"%string else q) = true.
(** The particle is strictly between the bounds of every rule *)
Definition within (rules : list rule) (p : particle) : Prop :=
  forall q lo hi, In (q, (lo, hi)) rules -> (forall b, lo = Some b -> b < value q p) /\ (forall b, hi = Some b -> value q p < b).
(** The unit in which a quantity is written *)
Definition unit_of (cc m : R) (q : string) : R :=
  if ((q =? "ux") || (q =? "uy") || (q =? "uz"))%string then if Rlt_dec 0 m then m * cc else 1 else 1.
