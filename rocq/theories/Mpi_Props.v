(** C05: the neighbour exchange delivers the right messages and cannot deadlock. *)
From Verif Require Import Base Decomp_Model Mpi_Model Mpi_Proofs.
Open Scope Z_scope.

(** In every reachable state, whatever a rank found in its left (right) receive buffer in its
    i-th finished call is what its left (right) neighbour passed as right (left) send buffer
    in its own i-th call.  Covers two periodic ranks, where both neighbours coincide. *)
Theorem C05_delivery {M : Type} b size K n (st : state M) r i :
  steps b size K n init_state st -> 0 <= r < size -> (i < rnd st r)%nat ->
  (forall l, left_proc b r size = Some l ->
     exists m, nth_error (got st r Lf) i = Some m /\ nth_error (sent st l Rt) i = Some m) /\
  (forall l, right_proc b r size = Some l ->
     exists m, nth_error (got st r Rt) i = Some m /\ nth_error (sent st l Lf) i = Some m).
Proof.
  exact (fun H Hr Hi => conj
    (fun l Hl => delivered b size K st r Lf l i (Inv_steps b size K n st H) Hr Hl Hi)
    (fun l Hl => delivered b size K st r Rt l i (Inv_steps b size K n st H) Hr Hl Hi)).
Qed.
Print Assumptions C05_delivery.

(** No deadlock, even if no send ever completes before it is matched (eager = false), in every
    state reached with or without buffered sends. *)
Theorem C05_no_deadlock {M : Type} (m : M) b size K n (st : state M) :
  0 < size -> steps b size K n init_state st -> ~ finished size K st ->
  exists st', step b size K false st st'.
Proof. exact (fun Hs H Hf => progress b size K st m Hs (Inv_steps b size K n st H) Hf). Qed.
Print Assumptions C05_no_deadlock.

(** Every execution of K exchanges by all the ranks is finite. *)
Theorem C05_terminates {M : Type} b size K n (st : state M) :
  steps b size K n init_state st -> (n <= Z.to_nat size * (18 * K + 2))%nat.
Proof. exact (steps_bounded b size K n st). Qed.
Print Assumptions C05_terminates.

(** When all the ranks have finished, each receive buffer was filled exactly once per call. *)
Theorem C05_filled_once_per_call {M : Type} b size K n (st : state M) r s d :
  steps b size K n init_state st -> finished size K st -> 0 <= r < size ->
  nb b size s r = Some d -> length (got st r s) = K.
Proof.
  exact (fun H Hf Hr Hn => got_length b size K st r s d (Inv_steps b size K n st H) Hr Hn (Hf r Hr)).
Qed.
Print Assumptions C05_filled_once_per_call.

(** Non-vacuity: a complete execution of one exchange by two periodic ranks (each sends
    different data to its left and to its right, although both are the same rank),
    with rank 1 running entirely after rank 0 has blocked. *)
Lemma steps_more {M} b size K n (st st' : state M) :
  steps b size K n init_state st -> step b size K true st st' -> steps b size K (S n) init_state st'.
Proof. intros H1 H2. exact (steps_S _ _ _ n _ _ _ H1 H2). Qed.

Tactic Notation "nxt" hyp(H) uconstr(c) ident(X) :=
  eassert (X : steps _ _ _ _ _ _);
  [eapply steps_more; [exact H|eapply c; try reflexivity; try (left; reflexivity); cbn; lia]|].
Example two_ranks_run : exists n (st : state Z),
  steps Periodic 2 1 n init_state st /\ finished 2 1 st /\
  got st 0 Lf = [12] /\ got st 0 Rt = [11] /\ got st 1 Lf = [2] /\ got st 1 Rt = [1].
Proof.
  pose proof (steps_0 (M := Z) Periodic 2 1 init_state) as H.
  nxt H (st_send _ _ _ _ _ 0 Lf 1 1) S1.
  nxt S1 (st_recv _ _ _ _ _ 0 Lf 1) S2.
  nxt S2 (st_send _ _ _ _ _ 0 Rt 1 2) S3.
  nxt S3 (st_recv _ _ _ _ _ 0 Rt 1) S4.
  nxt S4 (st_send _ _ _ _ _ 1 Lf 0 11) T1.
  nxt T1 (st_recv _ _ _ _ _ 1 Lf 0) T2.
  nxt T2 (st_send _ _ _ _ _ 1 Rt 0 12) T3.
  nxt T3 (st_recv _ _ _ _ _ 1 Rt 0) T4.
  nxt T4 (st_deliver _ _ _ _ _ 1 Lf 0 2 []) D1.
  nxt D1 (st_deliver _ _ _ _ _ 1 Rt 0 1 []) D2.
  nxt D2 (st_deliver _ _ _ _ _ 0 Rt 1 11 []) D3.
  nxt D3 (st_deliver _ _ _ _ _ 0 Lf 1 12 []) D4.
  nxt D4 (st_complete _ _ _ _ _ 0 Lf 1) C1.
  nxt C1 (st_complete _ _ _ _ _ 0 Rt 1) C2.
  nxt C2 (st_complete _ _ _ _ _ 1 Lf 0) C3.
  nxt C3 (st_complete _ _ _ _ _ 1 Rt 0) C4.
  nxt C4 (st_waitr _ _ _ _ _ 0 Lf 1) W1.
  nxt W1 (st_waits _ _ _ _ _ 0 Lf 1) W2.
  nxt W2 (st_waitr _ _ _ _ _ 0 Rt 1) W3.
  nxt W3 (st_waits _ _ _ _ _ 0 Rt 1) W4.
  nxt W4 (st_waitr _ _ _ _ _ 1 Lf 0) V1.
  nxt V1 (st_waits _ _ _ _ _ 1 Lf 0) V2.
  nxt V2 (st_waitr _ _ _ _ _ 1 Rt 0) V3.
  nxt V3 (st_waits _ _ _ _ _ 1 Rt 0) V4.
  do 2 eexists. split; [exact V4|]. split; [|repeat split; reflexivity].
  intros r Hr. assert (r = 0 \/ r = 1) as [->| ->] by lia; reflexivity.
Qed.
