(** Vocabulary of C47. *)
From Verif Require Import Base Mirror_Model.
From Coq Require Import Reals.
Open Scope R_scope.
(** Centre of the cell [iz] of a grid that starts at [zmin]. *)
Definition centre (zmin dz : R) (iz : Z) : R := zmin + (IZR iz + 1 / 2) * dz.
(** The arrays that the mirror is asked to act on: E, B (and their PML parts) of the selected modes. *)
Definition concerned {A} (mi : mirror) (mode : Z) (g : @igrid A) (f : fname) : Prop :=
  match m_modes mi with None => True | Some l => In mode l end /\
  match f with Er | Et | Ez | Br | Bt | Bz => True | Other _ => False | _ => ig_pml g = true end.
