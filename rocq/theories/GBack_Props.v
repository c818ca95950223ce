(** C97: the back-transformed particle diagnostic on GPU. *)
From Coq Require Import Reals.
From Verif Require Import Base Sort_Model Sort_Spec Shape_Model Deposit_Model GDeposit_Model BPart_Model BPart_Spec
  GOrder_Model GOrder_Spec GBack_Model GBack_Spec GBack_Proofs.
Open Scope Z_scope.

(** The particles that go to the buffer of a snapshot, with their positions, momenta and integer quantities, are the same on GPU as on
    CPU. Missing: the weights (below), and particles in the outermost half cells of the grid (below). *)
Theorem C97_which_partial : forall d b t g sp sp' out,
  diag_ok d b -> Sort_Spec.grid_ok g -> sizes_ok g (gs_arr sp) -> complete sp -> inside (sort_grid g sp) (gs_arr sp) -> slow (gs_arr sp) ->
  order_kept g sp -> store_gpu d g t sp sp' out ->
  Permutation (map no_weight out) (map no_weight (store_cpu d g t (gs_arr sp))).
Proof. exact gpu_which. Qed.
Print Assumptions C97_which_partial.

(** Also with their weights, unless the species is ionizable. *)
Theorem C97_same_partial : forall d b t g sp sp' out,
  diag_ok d b -> Sort_Spec.grid_ok g -> sizes_ok g (gs_arr sp) -> complete sp -> inside (sort_grid g sp) (gs_arr sp) -> slow (gs_arr sp) ->
  order_kept g sp -> gs_ionizable sp = false -> store_gpu d g t sp sp' out ->
  Permutation out (store_cpu d g t (gs_arr sp)).
Proof. exact gpu_same. Qed.
Print Assumptions C97_same_partial.

(** Every time the diagnostics are called in the PIC loop, after any number of window moves since the last sort, the order is kept:
    the two theorems above apply. *)
Theorem C97_loop_partial : forall k it Ns ops1 ops2 st tr st' d b t sp sp' out,
  l_move_positions k = true -> l_wrap k = false -> grids_ok k (st_g st) -> Forall created (st_sp st) ->
  calls_ops k it Ns = ops1 ++ ODiags :: ops2 -> execs k ops1 st tr st' -> Forall fits tr ->
  let g := sgrid_of (st_g st') in
  In sp (st_sp st') -> diag_ok d b -> sizes_ok g (gs_arr sp) -> complete sp -> inside (sort_grid g sp) (gs_arr sp) -> slow (gs_arr sp) ->
  gs_ionizable sp = false -> store_gpu d g t sp sp' out ->
  Permutation out (store_cpu d g t (gs_arr sp)).
Proof.
  intros k it Ns ops1 ops2 st tr st' d b t sp sp' out Em Ew Hg Hc E He Hf g Hin OK Hs Hcm Hi Hsl Ei H.
  destruct (loop_kept_at k it Ns ops1 ops2 st tr st' Em Ew Hg Hc E He Hf) as [Hg' Ho]. rewrite Forall_forall in Ho.
  apply (gpu_same d b t g sp sp' out OK); auto. exact (GDeposit_Proofs.sgrid_ok _ (GOrder_Proofs.grid_of k _ Hg')).
Qed.
Print Assumptions C97_loop_partial.

(** REFUTED: for an ionizable species the weight in the file is the weight times the ionization level on GPU: a neutral atom has weight 0. *)
Theorem C97_weights_refuted : exists d b t g sp sp' out,
  diag_ok d b /\ Sort_Spec.grid_ok g /\ sizes_ok g (gs_arr sp) /\ complete sp /\ inside (sort_grid g sp) (gs_arr sp) /\ slow (gs_arr sp) /\
  order_kept g sp /\ store_gpu d g t sp sp' out /\
  map (fun q => lw (fst q)) out = [0%R] /\ map (fun q => lw (fst q)) (store_cpu d g t (gs_arr sp)) = [1%R].
Proof. exact ion_weights. Qed.
Print Assumptions C97_weights_refuted.

(** REFUTED: a particle of the box in its last half cell is missed on GPU. *)
Theorem C97_edge_refuted : exists d b t g sp,
  diag_ok d b /\ Sort_Spec.grid_ok g /\ sizes_ok g (gs_arr sp) /\ complete sp /\ slow (gs_arr sp) /\ gs_sorted sp = false /\
  (forall j, 0 <= j < s_N (gs_arr sp) -> (Sort_Model.g_zmin g < s_z (gs_arr sp) j < zmax g)%R) /\
  (exists sp' out, store_gpu d g t sp sp' out) /\ (forall sp' out, store_gpu d g t sp sp' out -> out = []) /\
  length (store_cpu d g t (gs_arr sp)) = 1%nat.
Proof. exact edge_missed. Qed.
Print Assumptions C97_edge_refuted.

(** A particle is recorded. *)
Example C97_met : exists d b t g sp sp' out,
  diag_ok d b /\ Sort_Spec.grid_ok g /\ sizes_ok g (gs_arr sp) /\ complete sp /\ inside (sort_grid g sp) (gs_arr sp) /\ slow (gs_arr sp) /\
  order_kept g sp /\ gs_ionizable sp = false /\ store_gpu d g t sp sp' out /\ length out = 1%nat.
Proof. exact same_met. Qed.
(** The loop reaches its diagnostics (C96_met gives executions): the first one of a call of [step]. *)
Example C97_loop_met : forall k it N Ns, 1 <= N -> exists ops1 ops2, calls_ops k it (N :: Ns) = ops1 ++ ODiags :: ops2.
Proof.
  intros k it N Ns H. cbn [calls_ops]. unfold step_ops. replace N with (1 + (N - 1)) by lia.
  rewrite range_add by lia. change (range 1) with [0]. cbn [app flat_map]. unfold iteration at 1. cbn zeta.
  set (p := if _ || _ then _ else _). set (q := if 0 =? 0 then _ else _).
  exists (p ++ q ++ [OAttributes]). eexists. rewrite <- !app_assoc. cbn [app]. reflexivity.
Qed.
