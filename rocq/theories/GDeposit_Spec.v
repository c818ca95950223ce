(** Vocabulary of C57. *)
From Coq Require Import Reals.
From Coquelicot Require Import Complex.
From Verif Require Import Base Shape_Model Sort_Model Sort_Spec Deposit_Model Deposit_Spec GDeposit_Model.
Open Scope Z_scope.

(** The species as the CPU code holds it: the same particles, in the order of the device arrays. *)
Definition cpu_of (sp : gsp) : species :=
  {| sp_q := gs_q sp; sp_tracer := gs_tracer sp; sp_ionizable := gs_ionizable sp; sp_shape := gs_shape sp;
     sp_ptcl := map (gptcl_at (gs_ionizable sp) (gs_arr sp)) (range (s_N (gs_arr sp))) |}.
(** All the arrays that the deposition uses are there; particle and cell numbers fit in int32;
    the particles are between the two z boundaries. *)
Definition gsp_ok (g : grid) (sp : gsp) : Prop :=
  (if gs_ionizable sp then 6 else 5) <= Z.of_nat (length (s_fl (gs_arr sp))) /\
  0 <= s_N (gs_arr sp) < 2 ^ 31 /\ ncells (sgrid_of g) < 2 ^ 31 /\
  Forall (in_grid g) (sp_ptcl (cpu_of sp)).
(** The arrays of a species whose [sorted] flag is set are the result of a sort on this grid. *)
Definition flag_ok (g : grid) (sp : gsp) : Prop :=
  gs_sorted sp = true ->
  exists s0, sizes_ok (sgrid_of g) s0 /\ near_box (sgrid_of g) s0 /\ sort_particles (sgrid_of g) s0 (gs_arr sp).
(** All the modes above 0 have the same Ruyten coefficients (interpolation_grid.py:83-138: the
    volume depends on the mode only through m = 0 or not). *)
Definition beta_ok (g : grid) : Prop := forall sh m k, (1 <= m)%nat -> g_beta g sh m k = g_beta g sh 1 k.
