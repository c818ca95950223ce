(** Vocabulary of C97. *)
From Coq Require Import Reals.
From Verif Require Import Base Sort_Model Sort_Spec Shape_Model Deposit_Model GDeposit_Model BPart_Model GBack_Model.
Open Scope Z_scope.

(** The table of a species describes its particles on the grid [g]: as many particles come first as are in the cells up to [c]. *)
Definition described_on (g : sgrid) (s : gspecies) : Prop :=
  forall c, 0 <= c < ncells g -> 0 <= s_prefix s c <= s_N s /\
  forall i, 0 <= i < s_N s -> (cell g s i <= c <-> i < s_prefix s c).
(** A species that claims to be sorted was sorted when the grid was [s_shift] cells behind. *)
Definition order_kept (g : sgrid) (sp : gsp) : Prop :=
  gs_sorted sp = true -> described_on (moved_grid g (- s_shift (gs_arr sp))) (gs_arr sp).
(** The grid of the sort. *)
Definition sort_grid (g : sgrid) (sp : gsp) : sgrid :=
  if gs_sorted sp then moved_grid g (- s_shift (gs_arr sp)) else g.
(** No particle is in the outermost half cells or outside of the grid. *)
Definition inside (g : sgrid) (s : gspecies) : Prop :=
  forall j, 0 <= j < s_N s ->
  (Sort_Model.g_zmin g - Sort_Model.g_dz g / 2 < s_z s j <=
   Sort_Model.g_zmin g + Sort_Model.g_dz g * (IZR (Sort_Model.g_Nz g) - 1 / 2))%R.
(** No particle is faster than light along z; all have the five attributes ux, uy, uz, w, inv_gamma, and w_times_level for an
    ionizable species. *)
Definition slow (s : gspecies) : Prop := forall j, 0 <= j < s_N s -> (Rabs (attr 2 s j * attr 4 s j) <= 1)%R.
Definition complete (sp : gsp) : Prop :=
  (if gs_ionizable sp then 6 else 5) <= Z.of_nat (length (s_fl (gs_arr sp))).
(** An entry of the file without its weight. *)
Definition no_weight (q : lptcl * list Z) : R * R * R * R * R * R * list Z :=
  (lx (fst q), ly (fst q), lz (fst q), lux (fst q), luy (fst q), luz (fst q), snd q).
