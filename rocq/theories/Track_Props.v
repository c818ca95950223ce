(** C10, C11: uniqueness of particle ids. *)
From Verif Require Import Base PExch_Model Track_Model Track_Spec Track_Proofs.
Open Scope Z_scope.

(** The ids of two different places in the world never coincide, for any history, when the
    exchange does not alter ids (GPU buffers). *)
Theorem C10_ids_unique_gpu size N h : 0 < size -> Forall (op_ok size) h ->
  let w := run conv_gpu h (start size N) in
  (forall r, 0 <= r < size -> t_next (w r) <= 2 ^ 64) ->
  unique size (fun r => t_id (w r)).
Proof. exact (fun Hz Ho => C10_main conv_gpu size N h Hz Ho (fun _ _ _ _ _ _ => eq_refl)). Qed.
Print Assumptions C10_ids_unique_gpu.

(** On the CPU: full statement is the one above with [conv_cpu]; proved for histories in which
    no particle goes to its right neighbour. *)
Theorem C10_ids_unique_cpu_partial size N h : 0 < size -> Forall (op_ok size) h ->
  (forall r q k, ~ In (Send ToRight r q k) h) ->
  let w := run conv_cpu h (start size N) in
  (forall r, 0 <= r < size -> t_next (w r) <= 2 ^ 64) ->
  unique size (fun r => t_id (w r)).
Proof.
  exact (fun Hz Ho Hr => C10_main conv_cpu size N h Hz Ho
    (fun d r q k i => match d with ToLeft => fun _ => eq_refl
                               | ToRight => fun H => False_ind _ (Hr r q k H) end)).
Qed.
Print Assumptions C10_ids_unique_cpu_partial.

(** Non-vacuity: a history with creation, transfers both ways and a loss on three ranks. *)
Example C10_met : let h := [Gen 1 2; Send ToRight 1 2 0; Lose 0 1; Send ToLeft 2 1 0; Gen 2 1]%nat in
  Forall (op_ok 3) h /\ map (fun r => t_id (run conv_gpu h (start 3 (fun _ => 2%nat)) r)) [0; 1; 2]
    = [[0]; [4; 7; 10; 1]; [2; 5; 8]].
Proof. split; [repeat constructor; simpl; lia|vm_compute; reflexivity]. Qed.

(** False on the CPU: ids 8 and 16 become equal after both particles moved from rank 0 to
    rank 7 (seven transfers to the right each). *)
Theorem C10_ids_unique_cpu_refuted :
  exists h N, Forall (op_ok 8) h /\
    let w := run conv_cpu h (start 8 N) in
    (forall r, 0 <= r < 8 -> t_next (w r) <= 2 ^ 64) /\
    exists i, t_id (w 7) = [i; i].
Proof.
  exists (map (fun r => Send ToRight r (r + 1) 1) [0] ++ map (fun r => Send ToRight r (r + 1) 0) [1; 2; 3; 4; 5; 6]
       ++ map (fun r => Send ToRight r (r + 1) 1) [0] ++ map (fun r => Send ToRight r (r + 1) 0) [1; 2; 3; 4; 5; 6]),
    (fun r => if r =? 0 then 3%nat else 0%nat).
  split; [repeat constructor; simpl; lia|]. split.
  - intros r Hr. assert (K : r = 0 \/ r = 1 \/ r = 2 \/ r = 3 \/ r = 4 \/ r = 5 \/ r = 6 \/ r = 7) by lia.
    destruct K as [->|[->|[->|[->|[->|[->|[->| ->]]]]]]]; vm_compute; discriminate.
  - exists 4886674138783273204. vm_compute. reflexivity.
Qed.
Print Assumptions C10_ids_unique_cpu_refuted.

(** The GPU kernel that fills the ids gives the ids of the CPU routine, whatever the order of
    its threads and the previous content of the array. *)
Theorem C10_gpu_generation_is_cpu threads junk t :
  (forall i, (i < length junk)%nat -> In i threads) ->
  gen_gpu threads junk t = gen_cpu (length junk) t.
Proof. exact (gpu_eq_cpu threads junk t). Qed.
Print Assumptions C10_gpu_generation_is_cpu.
Example C10_gpu_met : t_id (gen_gpu [5; 1; 0]%nat [77; 78] (tracker_init 3 1 2)) = [1; 4; 7; 10].
Proof. vm_compute. reflexivity. Qed.

(** C11, full statement: as below without the hypothesis on the restored ids.  What is missing
    in the code is the assignment of the next id; uniqueness after a restart needs the restored
    ids of each residue class to be below the number of particles restored on that rank. *)
Theorem C11_restart_unique_partial conv size ids h : 0 < size -> unique size ids ->
  (forall r i, 0 <= r < size -> In i (ids r) ->
      0 <= i < i mod size + Z.of_nat (length (ids (i mod size))) * size) ->
  Forall (op_ok size) h ->
  (forall d r q k i, In (Send d r q k) h -> conv d i = i) ->
  let w := run conv h (restart size ids) in
  (forall r, 0 <= r < size -> t_next (w r) <= 2 ^ 64) ->
  unique size (fun r => t_id (w r)).
Proof. exact (C11_main conv size ids h). Qed.
Print Assumptions C11_restart_unique_partial.
Example C11_met : unique 1 (fun _ => [1; 0]) /\
  forall i, In i [1; 0] -> 0 <= i < i mod 1 + Z.of_nat (length [1; 0]) * 1.
Proof.
  split.
  - split; [|intros r q; lia]. intros. repeat constructor; simpl; lia.
  - intros i [<-|[<-|[]]]; simpl; lia.
Qed.

(** False in general: three particles are loaded, the one with id 0 is lost, the simulation is
    restarted and one particle is injected: it gets the id of an existing particle. *)
Theorem C11_restart_unique_refuted :
  let before := run conv_gpu [Lose 0 0] (start 1 (fun _ => 3%nat)) in
  let after := run conv_gpu [Gen 0 1] (restart 1 (fun r => t_id (before r))) in
  unique 1 (fun r => t_id (before r)) /\ t_id (after 0) = [1; 2; 2] /\
  ~ unique 1 (fun r => t_id (after r)).
Proof.
  cbv zeta. split; [|split; [vm_compute; reflexivity|]].
  - apply (C10_ids_unique_gpu 1 (fun _ => 3%nat) [Lose 0 0]); [lia|repeat constructor; simpl; lia|].
    intros r Hr. replace r with 0 by lia. vm_compute. discriminate.
  - intros [U _]. specialize (U 0 ltac:(lia)). vm_compute in U.
    inversion U as [|a l A B]. inversion B as [|a' l' A' B']. apply A'. left. reflexivity.
Qed.
Print Assumptions C11_restart_unique_refuted.

(** The value that the code computes and stores under a misspelt name is above all restored ids
    and in the residue class of the rank: assigning it would make C11 true. *)
Theorem C11_computed_value_is_safe size ids rank : 0 < size -> 0 <= rank < size ->
  exists v, t_misspelt (restart size ids rank) = Some v /\ v mod size = rank /\
    forall r i, 0 <= r < size -> In i (ids r) -> i < v.
Proof. exact (C11_value size ids rank). Qed.
Print Assumptions C11_computed_value_is_safe.
