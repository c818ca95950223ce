(** Proofs of C82. *)
From Verif Require Import Base Select_Model Select_Spec.
From Coq Require Import String Ascii.
Import ListNotations.
Open Scope nat_scope.

(** * The check *)
Lemma contig_cons a b l : contiguous (a :: b :: l) <-> contiguous (b :: l) /\ (a = b \/ ~ In a (b :: l)).
Proof.
  split.
  - intros H. split.
    + intros i j k Hi Hk E. apply (H (S i) (S j) (S k)); cbn [List.length] in *; try lia. exact E.
    + destruct (String.string_dec a b) as [E|E]; [left; exact E|right]. intros I. apply E.
      destruct (In_nth _ _ EmptyString I) as (k & Hk & Ek).
      specialize (H 0 1 (S k)). unfold node_of in H. cbn [nth List.length] in H. symmetry. apply H; [lia|cbn in *; lia|]. symmetry. exact Ek.
  - intros (H & D) i j k Hij Hk E. destruct i as [|i].
    + destruct j as [|j]; [reflexivity|]. destruct k as [|k]; [lia|]. unfold node_of in *. cbn [nth List.length] in *.
      destruct D as [<-|D].
      * specialize (H 0 j k). unfold node_of in H. cbn [nth List.length] in H. apply H; [lia|lia|exact E].
      * exfalso. apply D. rewrite E. apply (nth_In (b :: l) EmptyString (n := k)). cbn in *. lia.
    + destruct j as [|j]; [lia|]. destruct k as [|k]; [lia|]. apply (H i j k); cbn [List.length] in *; try lia. exact E.
Qed.
Lemma contig_1 a : contiguous [a].
Proof. intros i j k H K E. cbn in K. assert (i = 0 /\ j = 0) by lia. destruct H0; subst. reflexivity. Qed.
Lemma existsb_name n l : existsb (name_eqb n) l = true <-> In n l.
Proof.
  rewrite existsb_exists. split.
  - intros (x & I & E). apply String.eqb_eq in E. subst. exact I.
  - intros I. exists n. split; [exact I|]. apply String.eqb_refl.
Qed.
Lemma check_loop_ok : forall l prev seen, In prev seen ->
  check_loop prev seen l = true <-> contiguous (prev :: l) /\ (forall x, In x l -> In x seen -> x = prev).
Proof.
  induction l as [|n l IH]; intros prev seen Hp; cbn [check_loop].
  - split; [|reflexivity]. intros _. split; [apply contig_1|]. intros x [].
  - destruct (name_eqb n prev) eqn:En; cbn [negb].
    + apply String.eqb_eq in En. subst n. rewrite IH by exact Hp. rewrite (contig_cons prev prev l). split.
      * intros (H1 & H2). split; [split; [exact H1|left; reflexivity]|]. intros x [<-|I] S; [reflexivity|auto].
      * intros ((H1 & _) & H2). split; [exact H1|]. intros x I S. apply H2; [right; exact I|exact S].
    + apply String.eqb_neq in En. destruct (existsb (name_eqb n) seen) eqn:Ex.
      * apply existsb_name in Ex. split; [discriminate|]. intros (_ & H). exfalso. apply En. apply H; [left; reflexivity|exact Ex].
      * assert (Nx : ~ In n seen) by (rewrite <- existsb_name, Ex; discriminate).
        rewrite IH by (apply in_or_app; right; left; reflexivity). rewrite (contig_cons prev n l). split.
        -- intros (H1 & H2).
           assert (Q : forall x, In x l -> ~ In x seen).
           { intros x I S. apply Nx. rewrite <- (H2 x I); [exact S|]. apply in_or_app. left. exact S. }
           split; [split; [exact H1|right]|].
           ++ intros [E|I]; [congruence|]. exact (Q _ I Hp).
           ++ intros x [<-|I] S; [contradiction|]. exfalso. exact (Q _ I S).
        -- intros ((H1 & D) & H2). split; [exact H1|]. intros x I S. apply in_app_or in S. destruct S as [S|[<-|[]]]; [|reflexivity].
           assert (E : x = prev) by (apply H2; [right; exact I|exact S]). subst x. destruct D as [E|D]; [congruence|].
           exfalso. apply D. right. exact I.
Qed.
Lemma check_ok nodes : check_consecutive_ranks_on_same_nodes nodes = true <-> contiguous nodes.
Proof.
  unfold check_consecutive_ranks_on_same_nodes. destruct nodes as [|n [|n' l]].
  - split; [|reflexivity]. intros _ i j k _ K. cbn in K. lia.
  - split; [intros _; apply contig_1|reflexivity].
  - rewrite check_loop_ok by (left; reflexivity). split; [tauto|]. intros H. split; [exact H|]. intros x _ [E|[]]. symmetry. exact E.
Qed.

(** * The GPU of a rank *)
Lemma select_gpu_ok n r : 0 < n -> select_gpu n r = Some (r mod n).
Proof.
  intros Hn. unfold select_gpu. assert (Hr : r mod n < n) by (apply Nat.mod_upper_bound; lia).
  set (g := r mod n) in *. clearbody g.
  assert (G : forall len a acc, fold_left (fun g0 i => if Nat.eqb g i then Some i else g0) (seq a len) acc =
     if (a <=? g) && (g <? a + len) then Some g else acc).
  { induction len as [|len IH]; intros a acc; cbn [seq fold_left].
    - replace ((a <=? g) && (g <? a + 0)) with false by lia. reflexivity.
    - rewrite IH. destruct (Nat.eqb_spec g a) as [->|D].
      + replace ((S a <=? a) && (a <? S a + len)) with false by lia. replace ((a <=? a) && (a <? a + S len)) with true by lia. reflexivity.
      + replace ((S a <=? g) && (g <? S a + len)) with ((a <=? g) && (g <? a + S len)) by lia. reflexivity. }
  rewrite G. replace ((0 <=? g) && (g <? 0 + n)) with true by lia. reflexivity.
Qed.
Lemma select_gpu_0 r : select_gpu 0 r = None.
Proof. reflexivity. Qed.

(** The ranks of a node form an interval. *)
Lemma ranks_in nodes n r : In r (ranks_of nodes n) <-> r < List.length nodes /\ node_of nodes r = n.
Proof. unfold ranks_of. rewrite filter_In, in_seq, String.eqb_eq. split; intros (H1 & H2); split; try assumption; lia. Qed.
Lemma same_node_count nodes r r' : contiguous nodes -> r < r' -> r' < List.length nodes -> node_of nodes r = node_of nodes r' ->
  r' - r < List.length (ranks_of nodes (node_of nodes r)).
Proof.
  intros Hc L1 L2 E.
  assert (I : incl (seq r (S (r' - r))) (ranks_of nodes (node_of nodes r))).
  { intros x I. apply in_seq in I. apply ranks_in. split; [lia|]. apply (Hc r x r'); [lia|exact L2|exact E]. }
  pose proof (NoDup_incl_length (seq_NoDup (S (r' - r)) r) I) as Q. rewrite seq_length in Q. lia.
Qed.
Lemma mod_eq_far n r r' : 0 < n -> r < r' -> r mod n = r' mod n -> n <= r' - r.
Proof.
  intros Hn L E. pose proof (Nat.div_mod r n ltac:(lia)) as D1. pose proof (Nat.div_mod r' n ltac:(lia)) as D2.
  set (q := r / n) in *. set (q' := r' / n) in *. set (s := r mod n) in *. rewrite <- E in D2. clearbody q q' s.
  assert (Q : q < q') by (destruct (le_lt_dec q' q) as [W|W]; [|exact W]; pose proof (Nat.mul_le_mono_l _ _ n W); lia).
  pose proof (Nat.mul_le_mono_l (S q) q' n Q) as M. rewrite Nat.mul_succ_r in M. lia.
Qed.

(** * Balance: numbers of multiples in an interval *)
Definition cnt (n g a len : nat) : nat := List.length (filter (fun r => Nat.eqb (r mod n) g) (seq a len)).
Lemma cnt_app n g a l1 l2 : cnt n g a (l1 + l2) = cnt n g a l1 + cnt n g (a + l1) l2.
Proof. unfold cnt. rewrite seq_app, filter_app, app_length. reflexivity. Qed.
Lemma cnt_short n g a len : 0 < n -> len <= n -> cnt n g a len <= 1.
Proof.
  intros Hn Hl. unfold cnt.
  assert (N : NoDup (filter (fun r => Nat.eqb (r mod n) g) (seq a len))) by (apply NoDup_filter, seq_NoDup).
  assert (U : forall x y, In x (filter (fun r => Nat.eqb (r mod n) g) (seq a len)) -> In y (filter (fun r => Nat.eqb (r mod n) g) (seq a len)) -> x = y).
  { intros x y Ix Iy. apply filter_In in Ix, Iy. destruct Ix as (Sx & Ex), Iy as (Sy & Ey). apply in_seq in Sx, Sy. apply Nat.eqb_eq in Ex, Ey.
    destruct (lt_eq_lt_dec x y) as [[L|E]|L]; [|exact E|].
    - pose proof (mod_eq_far n x y Hn L ltac:(congruence)). lia.
    - pose proof (mod_eq_far n y x Hn L ltac:(congruence)). lia. }
  destruct (filter _ _) as [|x [|y l]]; cbn; try lia. exfalso.
  assert (x = y) by (apply U; cbn; auto). subst y. inversion N as [|? ? H]. apply H. left. reflexivity.
Qed.
Lemma cnt_full n g a : 0 < n -> g < n -> cnt n g a n = 1.
Proof.
  intros Hn Hg. assert (L : cnt n g a n <= 1) by (apply cnt_short; lia). enough (1 <= cnt n g a n) by lia.
  (* the element of the interval with residue g *)
  set (x := a + (g + n - a mod n) mod n).
  assert (Ix : In x (filter (fun r => Nat.eqb (r mod n) g) (seq a n))).
  { apply filter_In. pose proof (Nat.mod_upper_bound (g + n - a mod n) n ltac:(lia)). pose proof (Nat.mod_upper_bound a n ltac:(lia)).
    split; [apply in_seq; unfold x; lia|]. apply Nat.eqb_eq. unfold x. rewrite Nat.add_mod_idemp_r by lia.
    rewrite <- Nat.add_mod_idemp_l by lia. replace (a mod n + (g + n - a mod n)) with (g + 1 * n) by lia. rewrite Nat.mod_add by lia. apply Nat.mod_small. exact Hg. }
  unfold cnt. destruct (filter _ _); [destruct Ix|cbn; lia].
Qed.
Lemma cnt_mul n g q : 0 < n -> g < n -> forall a, cnt n g a (q * n) = q.
Proof.
  intros Hn Hg. induction q as [|q IH]; intros a; [reflexivity|]. cbn [Nat.mul]. rewrite cnt_app, cnt_full, IH by lia. reflexivity.
Qed.
Lemma cnt_balanced n g g' a len : 0 < n -> g < n -> g' < n -> cnt n g a len <= S (cnt n g' a len).
Proof.
  intros Hn Hg Hg'. pose proof (Nat.div_mod len n ltac:(lia)) as D. pose proof (Nat.mod_upper_bound len n ltac:(lia)) as B.
  rewrite D. rewrite (Nat.mul_comm n). rewrite !cnt_app, !cnt_mul by lia.
  pose proof (cnt_short n g (a + len / n * n) (len mod n) Hn ltac:(lia)). lia.
Qed.
(** The list of the ranks of a node is [seq a len]. *)
Lemma filter_none {A} (f : A -> bool) l : (forall x, In x l -> f x = false) -> filter f l = [].
Proof. induction l as [|a l IH]; intros H; [reflexivity|]. cbn. rewrite (H a) by (left; reflexivity). apply IH. intros x I. apply H. right. exact I. Qed.
Lemma filter_all {A} (f : A -> bool) l : (forall x, In x l -> f x = true) -> filter f l = l.
Proof. induction l as [|a l IH]; intros H; [reflexivity|]. cbn. rewrite (H a) by (left; reflexivity). f_equal. apply IH. intros x I. apply H. right. exact I. Qed.
Lemma interval_filter (f : nat -> bool) N : (forall i j k, i <= j <= k -> k < N -> f i = true -> f k = true -> f j = true) ->
  exists a len, filter f (seq 0 N) = seq a len.
Proof.
  induction N as [|N IH]; intros H; [exists 0, 0; reflexivity|].
  destruct IH as (a & len & E); [intros i j k Hi Hk; apply H; [exact Hi|lia]|].
  rewrite seq_S, filter_app, E. cbn [filter Nat.add]. destruct (f N) eqn:FN.
  - destruct len as [|len]; [exists N, 1; reflexivity|].
    assert (Ia : In a (filter f (seq 0 N))) by (rewrite E; left; reflexivity). apply filter_In in Ia. destruct Ia as (Sa & Fa). apply in_seq in Sa.
    assert (L : a + S len = N).
    { assert (Il : In (a + len) (filter f (seq 0 N))) by (rewrite E; apply in_seq; lia). apply filter_In in Il. destruct Il as (Sl & _). apply in_seq in Sl.
      destruct (Nat.eq_dec (a + S len) N) as [Q|Q]; [exact Q|exfalso].
      assert (F : f (a + S len) = true) by (apply (H a (a + S len) N); [lia|lia|exact Fa|exact FN]).
      assert (In (a + S len) (filter f (seq 0 N))) by (apply filter_In; split; [apply in_seq; lia|exact F]).
      rewrite E in H0. apply in_seq in H0. lia. }
    exists a, (S (S len)). rewrite (seq_S (S len) a), L. reflexivity.
  - exists a, len. apply app_nil_r.
Qed.
Lemma ranks_interval nodes n : contiguous nodes -> exists a len, ranks_of nodes n = seq a len.
Proof.
  intros Hc. apply interval_filter. intros i j k Hij Hk Fi Fk. apply String.eqb_eq in Fi, Fk. apply String.eqb_eq.
  rewrite <- Fi. apply (Hc i j k); [lia|exact Hk|congruence].
Qed.

(** * The warning *)
Section U.
Context {U : Type} (U_eqb : U -> U -> bool) (HU : forall a b, U_eqb a b = true <-> a = b).
Lemma distinct_le (l : list (option U)) : distinct U_eqb l <= List.length l.
Proof. induction l as [|a l IH]; cbn; [lia|]. destruct (existsb _ _); lia. Qed.
Lemma distinct_lt (l : list (option U)) : distinct U_eqb l < List.length l <-> ~ NoDup l.
Proof.
  induction l as [|a l IH]; cbn [distinct List.length]; [split; [lia|intros N; exfalso; apply N; constructor]|].
  assert (E : existsb (fun b => match a, b with Some a, Some b => U_eqb a b | None, None => true | _, _ => false end) l = true <-> In a l).
  { rewrite existsb_exists. split.
    - intros (x & I & Q). destruct a, x; try discriminate; [apply HU in Q; subst; exact I|exact I].
    - intros I. exists a. split; [exact I|]. destruct a; [apply HU; reflexivity|reflexivity]. }
  pose proof (distinct_le l). destruct (existsb _ l) eqn:X.
  - split; [|lia]. intros _ N. inversion N as [|? ? Q]. apply Q, E. reflexivity.
  - assert (Na : ~ In a l) by (rewrite <- E; discriminate). split.
    + intros L N. inversion N; subst. apply IH; [lia|assumption].
    + intros N. assert (~ NoDup l) as M by (intros M; apply N; constructor; assumption). apply IH in M. lia.
Qed.
End U.
Lemma NoDup_map_inj {A B} (f : A -> B) l : NoDup l -> (forall x y, In x l -> In y l -> f x = f y -> x = y) -> NoDup (map f l).
Proof.
  induction l as [|a l IH]; intros N H; cbn; [constructor|]. inversion N as [|? ? Na Nl]; subst. constructor.
  - intros I. apply in_map_iff in I. destruct I as (x & E & I). apply Na. rewrite <- (H x a); [exact I|right; exact I|left; reflexivity|exact E].
  - apply IH; [exact Nl|]. intros x y Ix Iy. apply H; right; assumption.
Qed.
(** Whether two ranks of a node share a GPU is decidable. *)
Lemma dec_ex (P : nat -> Prop) (D : forall r, {P r} + {~ P r}) N : {exists r, r < N /\ P r} + {~ exists r, r < N /\ P r}.
Proof.
  induction N as [|N IH]; [right; intros (r & H & _); lia|]. destruct IH as [Y|Nn]; [left; destruct Y as (r & L & H); exists r; split; [lia|exact H]|].
  destruct (D N) as [Y|Q]; [left; exists N; split; [lia|exact Y]|]. right. intros (r & L & H). destruct (Nat.eq_dec r N) as [->|W]; [contradiction|].
  apply Nn. exists r. split; [lia|exact H].
Qed.
Lemma classic_pairs nodes n : (exists r r', r < r' < List.length nodes /\ node_of nodes r = node_of nodes r' /\ r mod n = r' mod n) \/
  ~ (exists r r', r < r' < List.length nodes /\ node_of nodes r = node_of nodes r' /\ r mod n = r' mod n).
Proof.
  destruct (dec_ex (fun r' => exists r, r < r' /\ (node_of nodes r = node_of nodes r' /\ r mod n = r' mod n))
    (fun r' => dec_ex (fun r => node_of nodes r = node_of nodes r' /\ r mod n = r' mod n)
       (fun r => match String.string_dec (node_of nodes r) (node_of nodes r') with
                 | left a => match Nat.eq_dec (r mod n) (r' mod n) with left b => left (conj a b) | right b => right (fun H => b (proj2 H)) end
                 | right a => right (fun H => a (proj1 H)) end) r') (List.length nodes)) as [Y|N].
  - left. destruct Y as (r' & L & r & L' & E1 & E2). exists r, r'. repeat split; [lia|lia|exact E1|exact E2].
  - right. intros (r & r' & L & E1 & E2). apply N. exists r'. split; [lia|]. exists r. split; [lia|split; assumption].
Qed.
Lemma nth_firstn_lt {A} (l : list A) d : forall r k, k < r -> nth k (firstn r l) d = nth k l d.
Proof.
  induction l as [|a l IH]; intros r k L; [rewrite firstn_nil; reflexivity|]. destruct r; [lia|]. destruct k; [reflexivity|]. cbn. apply IH. lia.
Qed.
(** The first rank that is not on the node of the rank 0 *)
Lemma first_other nodes : ~ contiguous nodes ->
  exists r, r < List.length nodes /\ node_of nodes 0 <> node_of nodes r /\ (forall k, k < r -> node_of nodes 0 = node_of nodes k).
Proof.
  intros Hn.
  assert (G : forall N, (forall k, k < N -> node_of nodes 0 = node_of nodes k) \/
     exists r, r < N /\ node_of nodes 0 <> node_of nodes r /\ (forall k, k < r -> node_of nodes 0 = node_of nodes k)).
  { induction N as [|N IH]; [left; intros; lia|]. destruct IH as [A|(r & L & D & F)]; [|right; exists r; repeat split; [lia|exact D|exact F]].
    destruct (String.string_dec (node_of nodes 0) (node_of nodes N)) as [E|E].
    - left. intros k L. destruct (Nat.eq_dec k N) as [->|W]; [exact E|apply A; lia].
    - right. exists N. repeat split; [lia|exact E|exact A]. }
  destruct (G (List.length nodes)) as [A|X]; [|exact X]. exfalso. apply Hn. intros i j k L K _. rewrite <- (A i), <- (A j) by lia. reflexivity.
Qed.
