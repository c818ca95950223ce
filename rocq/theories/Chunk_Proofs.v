(** Lemmas for C18. *)
From Verif Require Import Base Decomp_Proofs Inject_Proofs Chunk_Model.
From Coq Require Import Reals Lra.
From Flocq Require Import Core.Core.
Open Scope Z_scope.

Lemma removelast_map_range (f : Z -> Z) n : 0 <= n ->
  removelast (map f (range (n + 1))) = map f (range n).
Proof. intros H. rewrite range_succ by exact H. rewrite map_app. apply removelast_last. Qed.

Lemma nth_range (f : Z -> Z) n i d : 0 <= i < n -> nth (Z.to_nat i) (map f (range n)) d = f i.
Proof.
  intros H. unfold range, zrange. rewrite map_map.
  rewrite (nth_indep _ d (f (Z.of_nat 0))) by (rewrite map_length, seq_length; lia).
  rewrite (map_nth (fun x => f (Z.of_nat x))). f_equal. rewrite seq_nth by lia. lia.
Qed.

Lemma avg_eq Ntot nthreads : 0 <= Ntot -> 1 <= nthreads -> Ntot + nthreads <= 2 ^ 53 ->
  Ztrunc (rnd64 (IZR Ntot / IZR nthreads)) = Ntot / nthreads.
Proof.
  intros H1 H2 H3. apply div64_exact; lia.
Qed.

Lemma chunk_values Ntot nthreads t : 0 <= Ntot -> 1 <= nthreads -> Ntot + nthreads <= 2 ^ 53 ->
  0 <= t <= nthreads ->
  nth (Z.to_nat t) (get_chunk_indices Ntot nthreads) 0
  = if t =? nthreads then Ntot else t * (Ntot / nthreads).
Proof.
  intros H1 H2 H3 Ht. unfold get_chunk_indices. rewrite avg_eq, removelast_map_range by lia.
  destruct (Z.eqb_spec t nthreads) as [->|Hne].
  - rewrite app_nth2; rewrite map_length, length_range; [|lia].
    replace (Z.to_nat nthreads - Z.to_nat nthreads)%nat with 0%nat by lia. reflexivity.
  - rewrite app_nth1 by (rewrite map_length, length_range; lia).
    apply (nth_range (fun i => i * (Ntot / nthreads))). lia.
Qed.

Lemma chunk_main Ntot nthreads : 0 <= Ntot -> 1 <= nthreads -> Ntot + nthreads <= 2 ^ 53 ->
  length (get_chunk_indices Ntot nthreads) = Z.to_nat (nthreads + 1) /\
  (forall t, 0 <= t < nthreads ->
     0 <= nth (Z.to_nat t) (get_chunk_indices Ntot nthreads) 0 /\
     nth (Z.to_nat t) (get_chunk_indices Ntot nthreads) 0
       <= nth (Z.to_nat (t + 1)) (get_chunk_indices Ntot nthreads) 0 <= Ntot) /\
  flat_map (chunk_of (get_chunk_indices Ntot nthreads)) (range nthreads) = range Ntot.
Proof.
  intros H1 H2 H3.
  assert (Hq : 0 <= Ntot / nthreads /\ nthreads * (Ntot / nthreads) <= Ntot).
  { split; [apply Z.div_pos; lia|apply Z.mul_div_le; lia]. }
  split; [|split].
  - unfold get_chunk_indices. rewrite removelast_map_range, app_length, map_length, length_range by lia.
    simpl. lia.
  - intros t Ht. rewrite !chunk_values by lia.
    destruct (Z.eqb_spec t nthreads), (Z.eqb_spec (t + 1) nthreads); try lia; nia.
  - set (q := Ntot / nthreads) in *.
    assert (Hpre : forall k, 0 <= k < nthreads ->
      flat_map (chunk_of (get_chunk_indices Ntot nthreads)) (range k) = range (k * q)).
    { intros k [Hk0 Hk]. revert Hk. pattern k. apply natlike_ind; [| |exact Hk0].
      - intros _. reflexivity.
      - intros x Hx IH Hlt. unfold Z.succ in *. rewrite range_succ, flat_map_app, IH by lia.
        cbn [flat_map]. rewrite app_nil_r. unfold chunk_of. rewrite !chunk_values by lia. fold q.
        destruct (Z.eqb_spec x nthreads), (Z.eqb_spec (x + 1) nthreads); try lia.
        replace ((x + 1) * q) with (x * q + q) by lia. rewrite range_add by nia.
        do 2 f_equal. f_equal. lia. }
    replace nthreads with ((nthreads - 1) + 1) at 2 by lia.
    rewrite range_succ, flat_map_app, Hpre by lia. cbn [flat_map]. rewrite app_nil_r.
    unfold chunk_of. rewrite !chunk_values by lia. fold q.
    destruct (Z.eqb_spec (nthreads - 1) nthreads), (Z.eqb_spec (nthreads - 1 + 1) nthreads); try lia.
    rewrite <- range_add by nia. f_equal. lia.
Qed.

(** Launch sizes. *)
Lemma rnd64_mono a b : (a <= b)%R -> (rnd64 a <= rnd64 b)%R.
Proof. intros H. unfold rnd64. apply round_le; [apply FLT_exp_valid; reflexivity|apply valid_rnd_N|exact H]. Qed.

Lemma bpg_covers x T : 0 <= x -> 1 <= T -> x < 2 ^ 52 ->
  1 <= fst (cuda_tpb_bpg_1d x T) /\ x <= fst (cuda_tpb_bpg_1d x T) * T.
Proof.
  intros Hx HT Hb. cbn [cuda_tpb_bpg_1d fst].
  assert (HTR : (0 < IZR T)%R) by (apply (IZR_lt 0); lia).
  set (q := x / T).
  assert (Hq : 0 <= q) by (apply Z.div_pos; lia).
  assert (Hqx : q <= x) by (unfold q; apply Z.div_le_upper_bound; nia).
  assert (Hlt : x < (q + 1) * T).
  { unfold q. pose proof (Z.mod_pos_bound x T). pose proof (Z.div_mod x T). nia. }
  assert (A : (IZR q <= rnd64 (IZR x / IZR T))%R).
  { rewrite <- (int64_repr q) by lia. apply rnd64_mono.
    apply Rmult_le_reg_r with (IZR T); [lra|]. unfold Rdiv. rewrite Rmult_assoc, Rinv_l, Rmult_1_r by lra.
    rewrite <- mult_IZR. apply IZR_le. unfold q. pose proof (Z.mul_div_le x T). lia. }
  assert (B : (IZR (q + 1) <= rnd64 (rnd64 (IZR x / IZR T) + 1))%R).
  { rewrite <- (int64_repr (q + 1)) by lia. apply rnd64_mono. rewrite plus_IZR. lra. }
  assert (C : q + 1 <= Ztrunc (rnd64 (rnd64 (IZR x / IZR T) + 1))).
  { rewrite <- (Ztrunc_IZR (q + 1)). apply Ztrunc_le. exact B. }
  split; [lia|]. nia.
Qed.

Lemma threads_range b t : 0 <= b -> 0 <= t -> threads_1d (b, t) = range (b * t).
Proof.
  intros Hb Ht. unfold threads_1d. cbn [fst snd]. pattern b. apply natlike_ind; [reflexivity| |exact Hb].
  intros x Hx IH. unfold Z.succ. rewrite range_succ, flat_map_app, IH by exact Hx.
  cbn [flat_map]. rewrite app_nil_r. replace ((x + 1) * t) with (x * t + t) by lia.
  rewrite range_add by nia. f_equal.
Qed.

Lemma executed_range n m : 0 <= n <= m -> executed n (range m) = range n.
Proof.
  intros H. unfold executed. replace m with (n + (m - n)) by lia. rewrite range_add by lia.
  rewrite filter_app.
  assert (E1 : filter (fun i => i <? n) (range n) = range n).
  { assert (G : forall l, (forall i, In i l -> i < n) -> filter (fun i => i <? n) l = l).
    { induction l as [|a l IH]; intros HH; [reflexivity|]. simpl.
      destruct (Z.ltb_spec a n) as [_|Hn]; [|specialize (HH a (or_introl eq_refl)); lia].
      f_equal. apply IH. intros i Hi. apply HH. right. exact Hi. }
    apply G. intros i Hi. apply in_range in Hi. lia. }
  rewrite E1.
  assert (E2 : filter (fun i => i <? n) (map (Z.add n) (range (m - n))) = []).
  { assert (G : forall l, (forall i, In i l -> n <= i) -> filter (fun i => i <? n) l = []).
    { induction l as [|a l IH]; intros HH; [reflexivity|]. simpl.
      destruct (Z.ltb_spec a n) as [Hn|_]; [specialize (HH a (or_introl eq_refl)); lia|].
      apply IH. intros i Hi. apply HH. right. exact Hi. }
    apply G. intros i Hi. apply in_map_iff in Hi as [k [<- Hk]]. apply in_range in Hk. lia. }
  rewrite E2, app_nil_r. reflexivity.
Qed.

Lemma Permutation_filter' {A} (P : A -> bool) l l' : Permutation l l' -> Permutation (filter P l) (filter P l').
Proof.
  induction 1; simpl.
  - constructor.
  - destruct (P x); [constructor|]; assumption.
  - destruct (P x), (P y); try reflexivity. apply perm_swap.
  - etransitivity; eassumption.
Qed.

Lemma launch_1d n T ord : 0 <= n < 2 ^ 52 -> 1 <= T ->
  Permutation ord (threads_1d (cuda_tpb_bpg_1d n T)) -> Permutation (executed n ord) (range n).
Proof.
  intros Hn HT Hp. destruct (bpg_covers n T) as [B1 B2]; try lia.
  unfold executed. etransitivity; [apply Permutation_filter'; exact Hp|].
  destruct (cuda_tpb_bpg_1d n T) as [b t] eqn:E. assert (t = T) as -> by (unfold cuda_tpb_bpg_1d in E; congruence).
  cbn [fst] in *. rewrite threads_range by lia.
  change (filter (fun i => i <? n) (range (b * T))) with (executed n (range (b * T))).
  rewrite executed_range by lia. reflexivity.
Qed.

Definition pairs (nx ny : Z) : list (Z * Z) := flat_map (fun x => map (pair x) (range ny)) (range nx).

Lemma filter_flat_map {A B} (P : B -> bool) (f : A -> list B) l :
  filter P (flat_map f l) = flat_map (fun a => filter P (f a)) l.
Proof. induction l; simpl; [reflexivity|]. rewrite filter_app. congruence. Qed.

Lemma executed_2d_range nx ny mx my : 0 <= nx <= mx -> 0 <= ny <= my ->
  executed_2d nx ny (flat_map (fun x => map (pair x) (range my)) (range mx)) = pairs nx ny.
Proof.
  intros Hx Hy. unfold executed_2d, pairs. rewrite filter_flat_map.
  assert (E : forall x, filter (fun ij : Z * Z => (fst ij <? nx) && (snd ij <? ny)) (map (pair x) (range my))
    = if x <? nx then map (pair x) (range ny) else []).
  { intros x. destruct (x <? nx) eqn:Ex.
    - rewrite (filter_map_comm _ (fun j => j <? ny)) by (intros j; cbn [fst snd]; rewrite Ex; reflexivity).
      f_equal. apply executed_range. exact Hy.
    - rewrite (filter_map_comm _ (fun j => false)) by (intros j; cbn [fst snd]; rewrite Ex; reflexivity).
      induction (range my); [reflexivity|assumption]. }
  rewrite (flat_map_ext_in _ _ (range mx) (fun x _ => E x)).
  rewrite <- (executed_range nx mx) by exact Hx. unfold executed.
  induction (range mx) as [|a l IH]; [reflexivity|]. simpl. destruct (a <? nx); simpl; rewrite IH; reflexivity.
Qed.

Lemma launch_2d nx ny Tx Ty ord : 0 <= nx < 2 ^ 52 -> 0 <= ny < 2 ^ 52 -> 1 <= Tx -> 1 <= Ty ->
  Permutation ord (threads_2d (cuda_tpb_bpg_2d nx ny Tx Ty)) -> Permutation (executed_2d nx ny ord) (pairs nx ny).
Proof.
  intros Hnx Hny HTx HTy Hp.
  destruct (bpg_covers nx Tx) as [B1 B2]; try lia. destruct (bpg_covers ny Ty) as [B3 B4]; try lia.
  cbn [cuda_tpb_bpg_1d fst] in *.
  unfold executed_2d. etransitivity; [apply Permutation_filter'; exact Hp|].
  unfold threads_2d, cuda_tpb_bpg_2d. cbn [fst snd]. rewrite !threads_range by lia.
  match goal with |- Permutation (filter _ ?l) _ => change (Permutation (executed_2d nx ny l) (pairs nx ny)) end.
  rewrite executed_2d_range by lia. reflexivity.
Qed.
Lemma in_pairs nx ny i j : In (i, j) (pairs nx ny) <-> 0 <= i < nx /\ 0 <= j < ny.
Proof.
  unfold pairs. rewrite in_flat_map. split.
  - intros [x [Hx Hin]]. apply in_map_iff in Hin as [y [[= <- <-] Hy]]. apply in_range in Hx, Hy. lia.
  - intros [Hi Hj]. exists i. split; [apply in_range; exact Hi|]. apply in_map_iff. exists j.
    split; [reflexivity|apply in_range; exact Hj].
Qed.
Lemma NoDup_app' {A} (l m : list A) : NoDup l -> NoDup m -> (forall x, In x l -> In x m -> False) -> NoDup (l ++ m).
Proof.
  induction 1 as [|x l Hx Hl IH]; simpl; intros Hm Hd; [exact Hm|]. constructor.
  - rewrite in_app_iff. intros [H|H]; [contradiction|]. eapply Hd; eauto.
  - apply IH; eauto.
Qed.
Lemma NoDup_pairs nx ny : NoDup (pairs nx ny).
Proof.
  unfold pairs. pose proof (NoDup_range nx) as H. induction H as [|x l Hx Hl IH]; simpl; [constructor|].
  apply NoDup_app'; [|exact IH|].
  - apply FinFun.Injective_map_NoDup; [intros a b; congruence|apply NoDup_range].
  - intros [a b] Ha Hb. apply in_map_iff in Ha as [y [[= <- <-] _]].
    apply in_flat_map in Hb as [z [Hz Hin]]. apply in_map_iff in Hin as [w [[= -> _] _]]. contradiction.
Qed.
Lemma launch_2d_each nx ny Tx Ty ord : 0 <= nx < 2 ^ 52 -> 0 <= ny < 2 ^ 52 -> 1 <= Tx -> 1 <= Ty ->
  Permutation ord (threads_2d (cuda_tpb_bpg_2d nx ny Tx Ty)) ->
  NoDup (executed_2d nx ny ord) /\
  forall i j, In (i, j) (executed_2d nx ny ord) <-> 0 <= i < nx /\ 0 <= j < ny.
Proof.
  intros H1 H2 H3 H4 Hp. pose proof (launch_2d nx ny Tx Ty ord H1 H2 H3 H4 Hp) as P. split.
  - eapply Permutation_NoDup; [symmetry; exact P|apply NoDup_pairs].
  - intros i j. rewrite <- in_pairs. split; apply Permutation_in; [exact P|symmetry; exact P].
Qed.
