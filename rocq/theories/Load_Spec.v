(** Total weight of the particles that are strictly inside a ring of section (z1,z2) x (r1,r2). *)
From Verif Require Import Base Inject_Model.
From Coq Require Import Reals.
Definition sumR (l : list R) : R := fold_right Rplus 0%R l.
Definition inside (a b x : R) : bool := (if Rlt_dec a x then true else false) && (if Rlt_dec x b then true else false).
Definition weight_in (l : list mp) (z1 z2 r1 r2 : R) : R :=
  sumR (map m_w (filter (fun p => inside z1 z2 (m_z p) && inside r1 r2 (m_r p)) l)).
