From Verif Require Import Base PExch_Model Track_Model Track_Spec.
Open Scope Z_scope.

Definition op_ok (size : Z) (o : op) : Prop :=
  match o with
  | Gen r _ | Lose r _ => 0 <= r < size
  | Send _ r q _ => 0 <= r < size /\ 0 <= q < size
  end.

Definition inv (size : Z) (w : world) : Prop :=
  unique size (fun r => t_id (w r)) /\
  (forall r i, 0 <= r < size -> In i (t_id (w r)) -> 0 <= i < t_next (w (i mod size))) /\
  (forall r, 0 <= r < size -> 0 <= t_next (w r) /\ t_next (w r) mod size = r /\ t_step (w r) = size).

Lemma in_without k l i : In i (without k l) -> In i l.
Proof.
  unfold without. intros H. rewrite <- (firstn_skipn k l). apply in_app_iff in H. apply in_app_iff.
  destruct H as [H|H]; [left; auto|right].
  revert l H. induction k as [|k IH]; intros l H.
  - destruct l; simpl in *; auto.
  - destruct l as [|a l]; simpl in *; auto.
Qed.
Lemma nodup_without k l : NoDup l -> NoDup (without k l).
Proof.
  unfold without. revert k. induction l as [|a l IH]; intros k H; [destruct k; constructor|].
  destruct k; simpl; [inversion H; auto|]. inversion H; subst. constructor; [|apply IH; auto].
  intros C. apply H2. apply (in_without k l). exact C.
Qed.
Lemma nth_without k l i : nth_error l k = Some i -> NoDup l -> In i l /\ ~ In i (without k l).
Proof.
  intros H N. split; [eapply nth_error_In; eauto|].
  destruct (nth_error_split _ _ H) as (l1 & l2 & -> & E). subst k. unfold without.
  rewrite firstn_app, Nat.sub_diag, firstn_all. simpl firstn. rewrite app_nil_r.
  replace (skipn (S (length l1)) (l1 ++ i :: l2)) with l2.
  - apply NoDup_remove_2 in N. exact N.
  - clear. induction l1; simpl; auto.
Qed.

Lemma in_arange s n step i : In i (arange s n step) <->
  exists k, 0 <= k < Z.of_nat n /\ i = (s + k * step) mod 2 ^ 64.
Proof.
  unfold arange, zrange. rewrite in_map_iff. split.
  - intros (k & <- & H). apply in_map_iff in H as (j & <- & Hj). apply in_seq in Hj. exists (Z.of_nat j). split; [lia|auto].
  - intros (k & Hk & ->). exists k. split; auto. apply in_map_iff. exists (Z.to_nat k). split; [lia|].
    apply in_seq. lia.
Qed.
Lemma arange_small s n step i : 0 <= s -> 0 < step -> s + Z.of_nat n * step <= 2 ^ 64 ->
  In i (arange s n step) -> exists k, 0 <= k < Z.of_nat n /\ i = s + k * step.
Proof.
  intros Hs Hp Hb H. apply in_arange in H as (k & Hk & ->). exists k. split; auto.
  apply Z.mod_small. nia.
Qed.
Lemma nodup_arange s n step : 0 <= s -> 0 < step -> s + Z.of_nat n * step <= 2 ^ 64 ->
  NoDup (arange s n step).
Proof.
  intros Hs Hp Hb. unfold arange, zrange. rewrite map_map.
  assert (E : map (fun x => (s + Z.of_nat x * step) mod 2 ^ 64) (seq 0 n)
            = map (fun x => s + Z.of_nat x * step) (seq 0 n)).
  { apply map_ext_in. intros a Ha. apply in_seq in Ha. apply Z.mod_small. nia. }
  rewrite E. apply FinFun.Injective_map_NoDup; [|apply seq_NoDup].
  intros a b H. nia.
Qed.

Lemma arange_range size r s n i : 0 < size -> 0 <= s -> s mod size = r ->
  s + Z.of_nat n * size <= 2 ^ 64 -> In i (arange s n size) ->
  s <= i < s + Z.of_nat n * size /\ i mod size = r.
Proof.
  intros Hz Hs Hm Hb H. apply arange_small in H as (k & Hk & ->); auto.
  split; [nia|]. rewrite Z.mod_add by lia. exact Hm.
Qed.

Lemma upd_same r x w : upd r x w r = x.
Proof. unfold upd. rewrite Z.eqb_refl. reflexivity. Qed.
Lemma upd_other r x w q : q <> r -> upd r x w q = w q.
Proof. intros H. unfold upd. apply Z.eqb_neq in H. rewrite H. reflexivity. Qed.

Lemma inv_gen size w r n : 0 < size -> 0 <= r < size -> inv size w ->
  t_next (w r) + Z.of_nat n * size <= 2 ^ 64 ->
  inv size (upd r (gen_cpu n (w r)) w).
Proof.
  intros Hz Hr ((U1 & U2) & L & S) Hb. destruct (S r Hr) as (S1 & S2 & S3).
  assert (NEW : forall i, In i (arange (t_next (w r)) n size) ->
     t_next (w r) <= i < t_next (w r) + Z.of_nat n * size /\ i mod size = r)
    by (intros; eapply arange_range; eauto).
  assert (OLD : forall q i, 0 <= q < size -> In i (t_id (w q)) -> ~ In i (arange (t_next (w r)) n size)).
  { intros q i Hq Hi Hn. destruct (NEW i Hn) as [A B]. specialize (L q i Hq Hi). rewrite B in L. lia. }
  assert (IDS : forall q, t_id (upd r (gen_cpu n (w r)) w q) =
    if q =? r then t_id (w r) ++ arange (t_next (w r)) n size else t_id (w q)).
  { intros q. unfold upd. destruct (q =? r); auto. simpl. rewrite S3. reflexivity. }
  split; [split|split].
  - intros q Hq. rewrite IDS. destruct (Z.eqb_spec q r); [|auto]. subst q.
    assert (D : NoDup (arange (t_next (w r)) n size)) by (apply nodup_arange; auto).
    clear - U1 D OLD Hr. specialize (U1 r Hr). specialize (OLD r). revert U1 OLD. generalize (t_id (w r)).
    induction l as [|a l IH]; simpl; intros U1 OLD; auto. inversion U1; subst. constructor.
    + rewrite in_app_iff. intros [C|C]; auto. eapply OLD; eauto; lia.
    + apply IH; auto.
  - intros q q' i Hq Hq' Hd. rewrite !IDS. destruct (Z.eqb_spec q r) as [->|], (Z.eqb_spec q' r) as [->|]; try lia.
    + rewrite in_app_iff. intros [H|H] C; [exact (U2 r q' i Hq Hq' Hd H C)|]. eapply (OLD q'); eauto.
    + rewrite in_app_iff. intros H [C|C]; [exact (U2 q r i Hq Hq' Hd H C)|]. eapply (OLD q); eauto.
    + apply U2; auto.
  - assert (MONO : forall m, t_next (w m) <= t_next (upd r (gen_cpu n (w r)) w m)).
    { intros m. unfold upd. destruct (Z.eqb_spec m r) as [->|]; [simpl; rewrite S3|]; nia. }
    intros q i Hq. rewrite IDS. intros H.
    assert (C : In i (t_id (w q)) \/ In i (arange (t_next (w r)) n size)).
    { destruct (q =? r) eqn:E; auto. apply in_app_iff in H. apply Z.eqb_eq in E. rewrite E. auto. }
    destruct C as [C|C].
    + specialize (L q i Hq C). specialize (MONO (i mod size)). lia.
    + destruct (NEW i C) as [A B]. rewrite B, upd_same. simpl. rewrite S3. lia.
  - intros q Hq. unfold upd. destruct (Z.eqb_spec q r) as [->|]; [|auto]. simpl. rewrite S3.
    repeat split; auto; [nia|]. rewrite Z.mod_add by lia. auto.
Qed.

Lemma inv_sub size w r l : 0 <= r < size -> inv size w ->
  NoDup l -> incl l (t_id (w r)) -> inv size (upd r (set_ids l (w r)) w).
Proof.
  intros Hr ((U1 & U2) & L & S) N I.
  assert (IDS : forall q, t_id (upd r (set_ids l (w r)) w q) = if q =? r then l else t_id (w q))
    by (intros q; unfold upd; destruct (q =? r); auto).
  assert (NX : forall q, t_next (upd r (set_ids l (w r)) w q) = t_next (w q) /\
                         t_step (upd r (set_ids l (w r)) w q) = t_step (w q)).
  { intros q; unfold upd; destruct (Z.eqb_spec q r); subst; auto. }
  split; [split|split].
  - intros q Hq. rewrite IDS. destruct (q =? r); auto.
  - intros q q' i Hq Hq' Hd. rewrite !IDS.
    destruct (Z.eqb_spec q r), (Z.eqb_spec q' r); subst; try lia; intros H C.
    + exact (U2 r q' i Hq Hq' Hd (I _ H) C).
    + exact (U2 q r i Hq Hq' Hd H (I _ C)).
    + exact (U2 q q' i Hq Hq' Hd H C).
  - intros q i Hq. rewrite IDS. destruct (NX (i mod size)) as [-> _].
    destruct (Z.eqb_spec q r); subst; intros H; eauto.
  - intros q Hq. destruct (NX q) as [-> ->]. auto.
Qed.

(** Putting an id that is nowhere on rank [r]. *)
Lemma inv_add size w r i l : 0 <= r < size -> inv size w ->
  (forall q, 0 <= q < size -> ~ In i (t_id (w q))) -> 0 <= i < t_next (w (i mod size)) ->
  Permutation l (i :: t_id (w r)) -> inv size (upd r (set_ids l (w r)) w).
Proof.
  intros Hr ((U1 & U2) & L & S) N Hi P.
  assert (IN : forall j, In j l <-> j = i \/ In j (t_id (w r))).
  { intros j. split; intros H; [apply (Permutation_in _ P) in H; destruct H; auto|].
    apply (Permutation_in _ (Permutation_sym P)). destruct H; [left|right]; auto. }
  assert (IDS : forall q, t_id (upd r (set_ids l (w r)) w q) = if q =? r then l else t_id (w q))
    by (intros q; unfold upd; destruct (q =? r); auto).
  assert (NX : forall q, t_next (upd r (set_ids l (w r)) w q) = t_next (w q) /\
                         t_step (upd r (set_ids l (w r)) w q) = t_step (w q)).
  { intros q; unfold upd; destruct (Z.eqb_spec q r); subst; auto. }
  split; [split|split].
  - intros q Hq. rewrite IDS. destruct (Z.eqb_spec q r); auto.
    apply (Permutation_NoDup (Permutation_sym P)). constructor; auto.
  - intros q q' j Hq Hq' Hd. rewrite !IDS.
    destruct (Z.eqb_spec q r), (Z.eqb_spec q' r); subst; try lia; rewrite ?IN; intros H C.
    + destruct H as [->|H]; [exact (N q' Hq' C)|exact (U2 r q' j Hq Hq' Hd H C)].
    + destruct C as [->|C]; [exact (N q Hq H)|exact (U2 q r j Hq Hq' Hd H C)].
    + exact (U2 q q' j Hq Hq' Hd H C).
  - intros q j Hq. rewrite IDS. destruct (NX (j mod size)) as [-> _].
    destruct (Z.eqb_spec q r); subst; [rewrite IN; intros [->|H]|intros H]; eauto.
  - intros q Hq. destruct (NX q) as [-> ->]. auto.
Qed.

Lemma next_op conv o w q : (forall r, t_step (w r) >= 0 \/ True) -> 
  t_next (do_op conv o w q) = t_next (w q) \/
  exists n, o = Gen q n /\ t_next (do_op conv o w q) = t_next (w q) + Z.of_nat n * t_step (w q).
Proof.
  intros _. destruct o as [r n|d r s k|r k]; simpl.
  - unfold upd. destruct (Z.eqb_spec q r); subst; auto. right. exists n. auto.
  - destruct (nth_error _ _); auto. left. unfold upd. destruct (Z.eqb_spec q s), (Z.eqb_spec s r), (Z.eqb_spec q r); subst; simpl; auto; lia.
  - left. unfold upd. destruct (Z.eqb_spec q r); subst; auto.
Qed.

Lemma step_op conv o w q : t_step (do_op conv o w q) = t_step (w q).
Proof.
  destruct o as [r n|d r s k|r k]; simpl.
  - unfold upd. destruct (Z.eqb_spec q r); subst; auto.
  - destruct (nth_error _ _); auto. unfold upd. destruct (Z.eqb_spec q s), (Z.eqb_spec s r), (Z.eqb_spec q r); subst; simpl; auto; lia.
  - unfold upd. destruct (Z.eqb_spec q r); subst; auto.
Qed.

Lemma next_mono conv h : forall w q, 0 <= t_step (w q) -> t_next (w q) <= t_next (run conv h w q).
Proof.
  induction h as [|o h IH]; intros w q H; simpl; [lia|].
  specialize (IH (do_op conv o w) q). rewrite step_op in IH. specialize (IH H).
  destruct (next_op conv o w q) as [E|(n & _ & E)]; auto; rewrite E in IH; [exact IH|]. nia.
Qed.

Definition exact_moves (conv : dir -> Z -> Z) (h : list op) : Prop :=
  forall d r q k i, In (Send d r q k) h -> conv d i = i.

Lemma inv_op conv size o w : 0 < size -> op_ok size o -> inv size w ->
  (forall d r q k i, o = Send d r q k -> conv d i = i) ->
  (forall r, 0 <= r < size -> t_next (do_op conv o w r) <= 2 ^ 64) -> inv size (do_op conv o w).
Proof.
  intros Hz Ho I Hc Hb. destruct o as [r n|d r q k|r k]; simpl in *.
  - apply inv_gen; auto. specialize (Hb r Ho). rewrite upd_same in Hb. simpl in Hb.
    destruct I as (_ & _ & S). destruct (S r Ho) as (_ & _ & E). rewrite E in Hb. exact Hb.
  - destruct (nth_error (t_id (w r)) k) as [i|] eqn:E; auto. destruct Ho as [Hr Hq].
    pose proof I as ((U1 & U2) & L & S).
    destruct (nth_without k _ i E (U1 r Hr)) as [A B].
    set (w1 := upd r (set_ids (without k (t_id (w r))) (w r)) w).
    assert (I1 : inv size w1).
    { apply inv_sub; auto. apply nodup_without; auto. intros x; apply in_without. }
    apply (inv_add size w1 q i); auto.
    + intros p Hp. unfold w1, upd. destruct (Z.eqb_spec p r); [exact B|]. intros C'.
      exact (U2 r p i Hr Hp ltac:(auto) A C').
    + assert (E1 : t_next (w1 (i mod size)) = t_next (w (i mod size))).
      { unfold w1, upd. destruct (Z.eqb_spec (i mod size) r) as [X|X]; auto. rewrite X. reflexivity. }
      rewrite E1. eauto.
    + destruct d; rewrite (Hc _ r q k i eq_refl); [|reflexivity].
      rewrite Permutation_app_comm. reflexivity.
  - apply inv_sub; auto.
    + destruct I as ((U1 & _) & _). apply nodup_without; auto.
    + intros x; apply in_without.
Qed.

Lemma inv_run conv size h : 0 < size -> forall w, Forall (op_ok size) h -> inv size w ->
  exact_moves conv h ->
  (forall r, 0 <= r < size -> t_next (run conv h w r) <= 2 ^ 64) -> inv size (run conv h w).
Proof.
  intros Hz. induction h as [|o h IH]; intros w Ho I Hc Hb; simpl; auto.
  inversion Ho; subst. apply IH; auto.
  - apply inv_op; auto.
    + intros d r q k i ->. apply (Hc d r q k i). left; auto.
    + intros r Hr. eapply Z.le_trans; [|exact (Hb r Hr)]. simpl. apply next_mono.
      rewrite step_op. destruct I as (_ & _ & S). destruct (S r Hr) as (_ & _ & E). lia.
  - intros d r q k i H. apply (Hc d r q k i). right; auto.
Qed.

Lemma inv_start size N : 0 < size -> (forall r, 0 <= r < size -> r + Z.of_nat (N r) * size <= 2 ^ 64) ->
  inv size (start size N).
Proof.
  intros Hz Hb. unfold start, tracker_init.
  assert (M : forall r, 0 <= r < size -> r mod size = r) by (intros; apply Z.mod_small; auto).
  assert (K : forall r i, 0 <= r < size -> In i (arange r (N r) size) ->
     r <= i < r + Z.of_nat (N r) * size /\ i mod size = r)
    by (intros r i Hr; apply arange_range; auto; lia).
  split; [split|split]; simpl.
  - intros r Hr. apply nodup_arange; auto; lia.
  - intros r q i Hr Hq Hd A B. destruct (K r i Hr A), (K q i Hq B). lia.
  - intros r i Hr H. destruct (K r i Hr H) as [A E]. rewrite E. lia.
  - intros r Hr. repeat split; [nia|]. rewrite Z.mod_add by lia. auto.
Qed.

Lemma C10_main conv size N h : 0 < size -> Forall (op_ok size) h -> exact_moves conv h ->
  let w := run conv h (start size N) in
  (forall r, 0 <= r < size -> t_next (w r) <= 2 ^ 64) ->
  unique size (fun r => t_id (w r)).
Proof.
  intros Hz Ho Hc w Hb. apply (inv_run conv size h Hz (start size N)); auto.
  apply inv_start; auto. intros r Hr. eapply Z.le_trans; [|apply (Hb r Hr)].
  apply (next_mono conv h (start size N) r). simpl. lia.
Qed.

(** The GPU kernel writes the same ids as the CPU routine, in any thread order. *)
Lemma nth_set_nth i x l j : nth_error (set_nth i x l) j =
  if (j =? i)%nat then (if (i <? length l)%nat then Some x else None) else nth_error l j.
Proof.
  revert i j. induction l as [|y l IH]; intros i j; simpl.
  - destruct i, j; simpl; try reflexivity. destruct (j =? i)%nat; reflexivity.
  - destruct i, j; simpl; auto. rewrite IH. destruct (Nat.eqb_spec j i); auto.
Qed.
Lemma length_set_nth i x l : length (set_nth i x l) = length l.
Proof. revert i. induction l; intros [|i]; simpl; auto. Qed.

Lemma gpu_fold n0 n f threads : forall a, (length a = n0 + n)%nat ->
  let r := fold_left (fun a i => if (i <? n)%nat then set_nth (n0 + i) (f i) a else a) threads a in
  length r = length a /\
  forall j, nth_error r j =
    if (n0 <=? j)%nat && (j <? n0 + n)%nat && (existsb (Nat.eqb (j - n0)) threads)
    then Some (f (j - n0)%nat) else nth_error a j.
Proof.
  induction threads as [|t ts IH]; intros a Ha; cbn [fold_left existsb].
  - split; auto. intros j. rewrite andb_false_r. reflexivity.
  - set (a' := if (t <? n)%nat then _ else a).
    assert (La : (length a' = n0 + n)%nat).
    { unfold a'. destruct (t <? n)%nat; auto. rewrite length_set_nth; auto. }
    specialize (IH a' La). cbv zeta in IH. destruct IH as [E F]. split; [rewrite E; lia|].
    intros j. rewrite F.
    assert (X : nth_error a' j = if (j =? n0 + t)%nat && (t <? n)%nat then Some (f t) else nth_error a j).
    { unfold a'. destruct (Nat.ltb_spec t n); [|rewrite andb_false_r; auto].
      rewrite nth_set_nth. destruct (Nat.eqb_spec j (n0 + t)); simpl; auto.
      destruct (Nat.ltb_spec (n0 + t) (length a)); auto. lia. }
    rewrite X. destruct (existsb (Nat.eqb (j - n0)) ts) eqn:EX; rewrite ?orb_true_r, ?orb_false_r.
    + destruct ((n0 <=? j)%nat && (j <? n0 + n)%nat) eqn:B; simpl; auto.
      destruct (Nat.eqb_spec j (n0 + t)); simpl; auto. destruct (Nat.ltb_spec t n); simpl; auto. lia.
    + rewrite andb_false_r.
      destruct (Nat.eqb_spec (j - n0) t), (Nat.eqb_spec j (n0 + t)), (Nat.ltb_spec t n),
        (Nat.leb_spec n0 j), (Nat.ltb_spec j (n0 + n)); simpl; auto; try lia. subst; f_equal; f_equal; lia.
Qed.

Lemma nth_error_ext (A : Type) (l l' : list A) : (forall j, nth_error l j = nth_error l' j) -> l = l'.
Proof.
  revert l'. induction l as [|a l IH]; intros [|b l'] H; auto.
  - specialize (H 0%nat); discriminate.
  - specialize (H 0%nat); discriminate.
  - pose proof (H 0%nat) as H0. injection H0 as ->. f_equal. apply IH. intros j. apply (H (S j)).
Qed.

Lemma nth_arange s n step j : nth_error (arange s n step) j =
  if (j <? n)%nat then Some ((s + Z.of_nat j * step) mod 2 ^ 64) else None.
Proof.
  unfold arange, zrange. rewrite map_map. 
  destruct (Nat.ltb_spec j n).
  - apply map_nth_error with (f := fun x => (s + Z.of_nat x * step) mod 2 ^ 64).
    rewrite (nth_error_nth' _ 0%nat) by (rewrite seq_length; lia). rewrite seq_nth by lia. reflexivity.
  - apply nth_error_None. rewrite map_length, seq_length. lia.
Qed.

Lemma gpu_eq_cpu threads junk t :
  (forall i, (i < length junk)%nat -> In i threads) ->
  gen_gpu threads junk t = gen_cpu (length junk) t.
Proof.
  intros H. unfold gen_gpu, gen_cpu. f_equal. apply nth_error_ext. intros j.
  destruct (gpu_fold (length (t_id t)) (length junk)
     (fun i => (t_next t + Z.of_nat i * t_step t) mod 2 ^ 64) threads (t_id t ++ junk)) as [_ F].
  { rewrite app_length; lia. }
  rewrite F.
  destruct (Nat.ltb_spec j (length (t_id t))).
  - destruct (Nat.leb_spec (length (t_id t)) j); [lia|]. simpl.
    rewrite !nth_error_app1 by lia. reflexivity.
  - destruct (Nat.leb_spec (length (t_id t)) j); [|lia]. simpl.
    rewrite !nth_error_app2 by lia. rewrite nth_arange.
    destruct (Nat.ltb_spec j (length (t_id t) + length junk)), (Nat.ltb_spec (j - length (t_id t)) (length junk)); try lia.
    + simpl. assert (X : existsb (Nat.eqb (j - length (t_id t))) threads = true).
      { apply existsb_exists. eexists. split; [apply H; eauto|]. apply Nat.eqb_refl. }
      rewrite X. reflexivity.
    + simpl. apply nth_error_None. lia.
Qed.

(** *** C11 *)
Lemma inv_restart size ids : 0 < size -> unique size ids ->
  (forall r i, 0 <= r < size -> In i (ids r) ->
      0 <= i < i mod size + Z.of_nat (length (ids (i mod size))) * size) ->
  inv size (restart size ids).
Proof.
  intros Hz U L. split; [exact U|]. split.
  - intros r i Hr Hi. specialize (L r i Hr Hi). exact L.
  - intros r Hr. simpl. repeat split; [nia|]. rewrite Z.mod_add by lia. apply Z.mod_small; auto.
Qed.

Lemma C11_main conv size ids h : 0 < size -> unique size ids ->
  (forall r i, 0 <= r < size -> In i (ids r) ->
      0 <= i < i mod size + Z.of_nat (length (ids (i mod size))) * size) ->
  Forall (op_ok size) h -> exact_moves conv h ->
  let w := run conv h (restart size ids) in
  (forall r, 0 <= r < size -> t_next (w r) <= 2 ^ 64) ->
  unique size (fun r => t_id (w r)).
Proof.
  intros Hz U L Ho Hc w Hb. apply (inv_run conv size h Hz (restart size ids)); auto.
  apply inv_restart; auto.
Qed.

Lemma list_max_ge l i : In i l -> i <= list_max l.
Proof. induction l as [|a l IH]; simpl; [tauto|]. intros [->|H]; [|apply IH in H]; lia. Qed.
Lemma list_max_nonneg l : 0 <= list_max l.
Proof. induction l; simpl; lia. Qed.

(** The value that is stored under the misspelt name would have been right. *)
Lemma C11_value size ids rank : 0 < size -> 0 <= rank < size ->
  exists v, t_misspelt (restart size ids rank) = Some v /\ v mod size = rank /\
    forall r i, 0 <= r < size -> In i (ids r) -> i < v.
Proof.
  intros Hz Hr. simpl. eexists. split; [reflexivity|].
  set (M := list_max _).
  assert (HM : forall r i, 0 <= r < size -> In i (ids r) -> i <= M).
  { intros r i Hq Hi. apply list_max_ge in Hi. eapply Z.le_trans; [exact Hi|].
    apply list_max_ge. apply in_map_iff. exists r. split; auto. apply in_range; auto. }
  assert (M0 : 0 <= M) by apply list_max_nonneg.
  split; [rewrite Z.mod_add by lia; apply Z.mod_small; auto|].
  intros r i Hq Hi. specialize (HM r i Hq Hi).
  assert (M < rank + (Z.quot (M - rank) size + 1) * size); [|lia].
  pose proof (Z.quot_rem (M - rank) size ltac:(lia)) as QR.
  destruct (Z_le_dec 0 (M - rank)).
  - pose proof (Z.rem_bound_pos (M - rank) size ltac:(lia) ltac:(lia)). nia.
  - assert (E : Z.quot (M - rank) size = 0).
    { replace (M - rank) with (- (rank - M)) by lia. rewrite Z.quot_opp_l by lia.
      rewrite Z.quot_small by lia. reflexivity. }
    rewrite E. lia.
Qed.
