(** Vocabulary of C46. *)
From Verif Require Import Base Decomp_Model Antenna_Model.
From Coq Require Import Reals.
Open Scope R_scope.
(** The antenna is the plane of position [z]. *)
Definition plane_at (a : antenna) (z : R) : Prop := a_ptcl a <> [] /\ Forall (fun p => a_bz p = z) (a_ptcl a).
(** The same communicator as seen by rank [r]. *)
Definition seen_by (c : comm) (r : Z) : comm :=
  {| c_rank := r; c_size := c_size c; c_left := c_left c; c_right := c_right c; c_Nz := c_Nz c; c_zmin := c_zmin c;
     c_dz := c_dz c; c_nguard := c_nguard c; c_nzdamp := c_nzdamp c; c_ninject := c_ninject c; c_period := c_period c |}.
(** Sum for n = 0 .. N-1 *)
Fixpoint sum_upto (N : nat) (f : nat -> R) : R := match N with O => 0 | S n => sum_upto n f + f n end.
