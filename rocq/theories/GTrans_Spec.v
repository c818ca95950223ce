(** Vocabulary of C86. *)
From Verif Require Import Base Hankel_Model Cuda_Model GTrans_Model.
From Coq Require Import Reals.
From Coquelicot Require Import Complex.
Open Scope Z_scope.

(** The 2d array at address a. *)
Definition grid_at (M : tmem) (a : Z) : Z -> Z -> C := fun iz ir => M (T2 a iz ir).
Definition same_grid (Nz Nr : Z) (F G : Z -> Z -> C) : Prop := forall iz ir, 0 <= iz < Nz -> 0 <= ir < Nr -> F iz ir = G iz ir.
(** Addresses other than those of the two buffers of the transformer. *)
Definition user_array (a : Z) : Prop := a <> buf_r /\ a <> buf_t.
(** No other array than the ones at the addresses [l] and the buffers is modified. *)
Definition only_writes (l : list Z) (M M' : tmem) : Prop :=
  forall a, user_array a -> ~ In a l -> forall iz ir, grid_at M' a iz ir = grid_at M a iz ir.
(** A grid that the launch geometry can handle. *)
Definition grid_ok (Nz Nr : Z) : Prop := 0 < Nz <= 2 ^ 52 /\ 0 < Nr <= 2 ^ 52.
(** A numpy array with the memory layout of a new array. *)
Definition c_order (Nz Nr : Z) (a : ndarray) : Prop := nd_rows a = Nz /\ nd_cols a = Nr /\ nd_s0 a = Nr /\ nd_s1 a = 1.
