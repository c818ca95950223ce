(** C82: each MPI rank gets its own GPU. *)
From Verif Require Import Base Select_Model Select_Spec Select_Proofs.
From Coq Require Import String Ascii.
Import ListNotations.
Open Scope nat_scope.

(** The check answers whether the ranks of each node are consecutive. *)
Theorem C82_check : forall nodes, check_consecutive_ranks_on_same_nodes nodes = true <-> contiguous nodes.
Proof. exact check_ok. Qed.
Print Assumptions C82_check.

(** Consecutive ranks: no rank fails; two ranks of a node that has at most as many ranks as GPUs take different GPUs. *)
Theorem C82_own_gpu : forall (U : Type) (U_eqb : U -> U -> bool) get_uuid n_gpus nodes r r',
  0 < n_gpus -> contiguous nodes -> r < List.length nodes -> r' < List.length nodes ->
  exists o o', mpi_select_gpus U_eqb get_uuid n_gpus nodes r = Ok o /\ mpi_select_gpus U_eqb get_uuid n_gpus nodes r' = Ok o' /\
    gpu o < n_gpus /\
    (r <> r' -> node_of nodes r = node_of nodes r' -> List.length (ranks_of nodes (node_of nodes r)) <= n_gpus -> gpu o <> gpu o').
Proof.
  intros U U_eqb get_uuid n nodes r r' Hn Hc Hr Hr'.
  assert (S : forall k, exists o, mpi_select_gpus U_eqb get_uuid n nodes k = Ok o /\ gpu o = k mod n).
  { intros k. unfold mpi_select_gpus. rewrite (proj2 (check_ok nodes) Hc). cbn [comm_rank]. rewrite select_gpu_ok by exact Hn.
    destruct (Nat.eqb k 0); eexists; (split; [reflexivity|reflexivity]). }
  destruct (S r) as (o & E & G). destruct (S r') as (o' & E' & G'). exists o, o'.
  split; [exact E|]. split; [exact E'|]. split; [rewrite G; apply Nat.mod_upper_bound; lia|].
  intros D Hd L Q. rewrite G, G' in Q.
  destruct (lt_eq_lt_dec r r') as [[W|W]|W]; [|contradiction|].
  - pose proof (same_node_count nodes r r' Hc W Hr' Hd). pose proof (mod_eq_far n r r' Hn W Q). lia.
  - pose proof (same_node_count nodes r' r Hc W Hr (eq_sym Hd)) as H. rewrite <- Hd in H. pose proof (mod_eq_far n r' r Hn W (eq_sym Q)). lia.
Qed.
Print Assumptions C82_own_gpu.

(** Consecutive ranks, any number of them on a node: the numbers of ranks on two GPUs of the node differ by at most one. *)
Theorem C82_balanced : forall (U : Type) (U_eqb : U -> U -> bool) get_uuid n_gpus nodes node g g',
  0 < n_gpus -> contiguous nodes -> g < n_gpus -> g' < n_gpus ->
  let users g := filter (fun r => match mpi_select_gpus U_eqb get_uuid n_gpus nodes r with Ok o => Nat.eqb (gpu o) g | Err _ => false end) (ranks_of nodes node) in
  List.length (users g) <= List.length (users g') + 1.
Proof.
  intros U U_eqb get_uuid n nodes node g g' Hn Hc Hg Hg' users.
  destruct (ranks_interval nodes node Hc) as (a & len & E).
  assert (X : forall g, users g = filter (fun r => Nat.eqb (r mod n) g) (seq a len)).
  { intros h. unfold users. rewrite E. apply filter_ext. intros k. unfold mpi_select_gpus. rewrite (proj2 (check_ok nodes) Hc). cbn [comm_rank].
    rewrite select_gpu_ok by exact Hn. destruct (Nat.eqb k 0); reflexivity. }
  rewrite !X. pose proof (cnt_balanced n g g' a len Hn Hg Hg') as B. unfold cnt in B. lia.
Qed.
Print Assumptions C82_balanced.

(** Consecutive ranks: the warning of the rank 0 tells whether two ranks of a node share a GPU. *)
Theorem C82_warning : forall (U : Type) (U_eqb : U -> U -> bool) (uuid : string -> nat -> U) n_gpus nodes o,
  (forall a b, U_eqb a b = true <-> a = b) ->
  (forall n g n' g', uuid n g = uuid n' g' -> n = n' /\ g = g') ->
  0 < n_gpus -> contiguous nodes ->
  mpi_select_gpus U_eqb (fun n g => Some (uuid n g)) n_gpus nodes 0 = Ok o ->
  (warned o = true <-> exists r r' a a', r < r' < List.length nodes /\ node_of nodes r = node_of nodes r' /\
     mpi_select_gpus U_eqb (fun n g => Some (uuid n g)) n_gpus nodes r = Ok a /\
     mpi_select_gpus U_eqb (fun n g => Some (uuid n g)) n_gpus nodes r' = Ok a' /\ gpu a = gpu a').
Proof.
  intros U U_eqb uuid n nodes o HU Hinj Hn Hc H.
  transitivity (exists r r', r < r' < List.length nodes /\ node_of nodes r = node_of nodes r' /\ r mod n = r' mod n).
  2: { assert (S : forall k, exists o, mpi_select_gpus U_eqb (fun n g => Some (uuid n g)) n nodes k = Ok o /\ gpu o = k mod n).
       { intros k. unfold mpi_select_gpus. rewrite (proj2 (check_ok nodes) Hc). cbn [comm_rank]. rewrite select_gpu_ok by exact Hn.
         destruct (Nat.eqb k 0); eexists; (split; [reflexivity|reflexivity]). }
       split.
       - intros (r & r' & L & E1 & E2). destruct (S r) as (a & Ea & Ga), (S r') as (a' & Ea' & Ga'). exists r, r', a, a'.
         repeat split; try assumption; try lia; congruence.
       - intros (r & r' & a & a' & L & E1 & Ea & Ea' & G). exists r, r'. split; [exact L|]. split; [exact E1|].
         destruct (S r) as (b & Eb & Gb), (S r') as (b' & Eb' & Gb'). congruence. }
  unfold mpi_select_gpus in H. rewrite (proj2 (check_ok nodes) Hc) in H. cbn [comm_rank Nat.eqb] in H.
  rewrite select_gpu_ok in H by exact Hn. injection H as <-. cbn [warned].
  set (l := map _ _).
  assert (El : l = map (fun k => Some (uuid (node_of nodes k) (k mod n))) (seq 0 (List.length nodes))).
  { apply map_ext. intros k. rewrite select_gpu_ok by exact Hn. reflexivity. }
  assert (NN : existsb (fun u : option U => match u with None => true | Some _ => false end) l = false).
  { rewrite El. clear. induction (seq 0 (List.length nodes)) as [|k q IH]; [reflexivity|exact IH]. }
  rewrite NN. cbn [negb andb]. rewrite Nat.ltb_lt, (distinct_lt U_eqb HU), El.
  split.
  - intros ND. destruct (classic_pairs nodes n) as [P|P]; [exact P|exfalso].
    apply ND. apply NoDup_map_inj; [apply seq_NoDup|]. intros x y Ix Iy Q. apply in_seq in Ix, Iy. injection Q as Q. destruct (Hinj _ _ _ _ Q) as (Q1 & Q2).
    destruct (lt_eq_lt_dec x y) as [[W|W]|W]; [|exact W|]; exfalso; apply P; [exists x, y|exists y, x]; repeat split; try lia; congruence.
  - intros (r & r' & L & E1 & E2) ND.
    assert (R : r = r'); [|lia].
    apply (proj1 (NoDup_nth _ None) ND); rewrite ?map_length, ?seq_length; try lia.
    rewrite !(nth_indep _ None (Some (uuid (node_of nodes 0) (0 mod n)))) by (rewrite map_length, seq_length; lia).
    rewrite !(map_nth (fun k => Some (uuid (node_of nodes k) (k mod n)))), !seq_nth by lia. cbn [Nat.add]. congruence.
Qed.
Print Assumptions C82_warning.

(** The full claim is false. When the ranks of the nodes are not consecutive (nodes of different colors), fbpic cannot even be
    imported: some rank raises TypeError, whatever the number of GPUs. *)
Theorem C82_refuted : forall (U : Type) (U_eqb : U -> U -> bool) get_uuid n_gpus nodes,
  0 < n_gpus -> ~ contiguous nodes ->
  (forall a b, In a nodes -> In b nodes -> color a = color b -> a = b) ->
  exists r, r < List.length nodes /\ mpi_select_gpus U_eqb get_uuid n_gpus nodes r = Err TypeError.
Proof.
  intros U U_eqb get_uuid n nodes Hn Hnc Hcol.
  assert (Ch : check_consecutive_ranks_on_same_nodes nodes = false).
  { destruct (check_consecutive_ranks_on_same_nodes nodes) eqn:E; [|reflexivity]. exfalso. apply Hnc, check_ok, E. }
  destruct (first_other nodes Hnc) as (r & Hr & D & F).
  exists r. split; [exact Hr|]. unfold mpi_select_gpus. rewrite Ch. rewrite select_gpu_ok by exact Hn.
  assert (Rk : comm_rank false nodes r = 0).
  { unfold comm_rank. rewrite filter_none; [reflexivity|]. intros x I.
    assert (In x nodes) by (rewrite <- (firstn_skipn r nodes); apply in_or_app; left; exact I).
    apply Z.eqb_neq. intros Q. apply Hcol in Q; [|assumption|apply nth_In; exact Hr].
    destruct (In_nth _ _ EmptyString I) as (k & Hk & Ek). rewrite firstn_length in Hk.
    assert (Ek' : node_of nodes k = x) by (unfold node_of; rewrite <- Ek; symmetry; apply nth_firstn_lt; lia).
    apply D. rewrite (F k ltac:(lia)), Ek'. exact Q. }
  rewrite Rk. replace (Nat.eqb r 0) with false; [reflexivity|]. symmetry. apply Nat.eqb_neq. intros ->. apply D. reflexivity.
Qed.
Print Assumptions C82_refuted.

(** Two node names of the same color: no rank fails, and the two ranks of a node with two GPUs take the same one. *)
Definition wnodes : list string := ["nid03040"; "nid10204"; "nid03040"; "nid10204"]%string.
Theorem C82_color_refuted : exists nodes n_gpus r r' o o',
  r < r' < List.length nodes /\ node_of nodes r = node_of nodes r' /\ List.length (ranks_of nodes (node_of nodes r)) <= n_gpus /\
  mpi_select_gpus Nat.eqb (fun _ _ => None) n_gpus nodes r = Ok o /\
  mpi_select_gpus Nat.eqb (fun _ _ => None) n_gpus nodes r' = Ok o' /\ gpu o = gpu o'.
Proof. exists wnodes, 2, 0, 2. do 2 eexists. repeat split; try (vm_compute; lia); vm_compute; reflexivity. Qed.
Print Assumptions C82_color_refuted.

(** The hypotheses are met: two nodes with two ranks each (consecutive), two GPUs; and a round-robin distribution of the ranks. *)
Example C82_met : contiguous ["a"; "a"; "b"; "b"]%string /\ List.length (ranks_of ["a"; "a"; "b"; "b"]%string "b") <= 2 /\
  ~ contiguous ["a"; "b"; "a"; "b"]%string /\ (forall a b, In a ["a"; "b"; "a"; "b"]%string -> In b ["a"; "b"; "a"; "b"]%string -> color a = color b -> a = b).
Proof.
  split; [apply check_ok; reflexivity|]. split; [vm_compute; lia|]. split; [intros H; apply check_ok in H; discriminate|].
  intros a b Ia Ib. cbn in Ia, Ib. intuition subst; vm_compute in *; congruence.
Qed.
