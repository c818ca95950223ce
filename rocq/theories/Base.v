(** Shared vocabulary of the models: Python outcomes and a few list helpers. *)
From Coq Require Export List Arith ZArith Lia Bool Permutation.
From Coq Require Export ZifyBool ZifyNat.
Export ListNotations.

(** Outcome of a Python call: a value, or the exception class that is raised.
    Simplified: exception messages are not modelled. *)
Inductive exc := ValueError | AssertionError | AttributeError | KeyError | TypeError | IndexError | ZeroDivisionError | RuntimeError.
Inductive res (A : Type) := Ok (a : A) | Err (e : exc).
Arguments Ok {A} a.
Arguments Err {A} e.

Definition bind {A B} (x : res A) (f : A -> res B) : res B :=
  match x with Ok a => f a | Err e => Err e end.

(** [zrange n] = [0; 1; ...; n-1] (Python [range(n)]), for [n : nat]. *)
Definition zrange (n : nat) : list Z := map Z.of_nat (seq 0 n).
(** Python [range(n)] for an integer [n] (empty when [n <= 0]). *)
Definition range (n : Z) : list Z := zrange (Z.to_nat n).

Lemma in_range n i : In i (range n) <-> (0 <= i < n)%Z.
Proof.
  unfold range, zrange. rewrite in_map_iff. split.
  - intros [k [<- Hk]]. apply in_seq in Hk. lia.
  - intros H. exists (Z.to_nat i). split; [lia|]. apply in_seq. lia.
Qed.

Lemma NoDup_range n : NoDup (range n).
Proof.
  unfold range, zrange. apply FinFun.Injective_map_NoDup.
  - intros a b H. lia.
  - apply seq_NoDup.
Qed.

Lemma length_range n : length (range n) = Z.to_nat n.
Proof. unfold range, zrange. rewrite map_length, seq_length. reflexivity. Qed.

Lemma range_succ n : (0 <= n)%Z -> range (n + 1) = range n ++ [n].
Proof.
  intros H. unfold range, zrange.
  replace (Z.to_nat (n + 1)) with (S (Z.to_nat n)) by lia.
  rewrite seq_S, map_app. simpl. do 2 f_equal. lia.
Qed.

Lemma range_0 n : (n <= 0)%Z -> range n = [].
Proof. intros H. unfold range. replace (Z.to_nat n) with 0%nat by lia. reflexivity. Qed.
