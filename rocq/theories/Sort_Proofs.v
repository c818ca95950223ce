(** Proofs for C19 and C20. *)
From Verif Require Import Base Decomp_Proofs Chunk_Model Chunk_Proofs Sort_Model Sort_Spec.
From Coq Require Import Reals Lra.
From Flocq Require Import Core.Core.
Open Scope Z_scope.

(** ** Writes in any order *)
Lemma apply_writes_cons {V} (a : Z -> V) w ws : apply_writes a (w :: ws) = apply_writes (upd a w) ws.
Proof. reflexivity. Qed.
Lemma apply_writes_none {V} ws : forall (a : Z -> V) j, (forall w, In w ws -> fst w <> j) -> apply_writes a ws j = a j.
Proof.
  induction ws as [|w ws IH]; intros a j H; [reflexivity|]. rewrite apply_writes_cons, IH.
  - unfold upd. destruct (Z.eqb_spec j (fst w)) as [E|E]; [|reflexivity]. exfalso. apply (H w); [left; reflexivity|auto].
  - intros w' Hw. apply H. right. exact Hw.
Qed.
Lemma apply_writes_val {V} ws : forall (a : Z -> V) j v,
  (forall w, In w ws -> fst w = j -> snd w = v) -> In (j, v) ws -> apply_writes a ws j = v.
Proof.
  induction ws as [|w ws IH]; intros a j v H Hin; [destruct Hin|]. rewrite apply_writes_cons.
  destruct (in_dec Z.eq_dec j (map fst ws)) as [Hj|Hj].
  - apply in_map_iff in Hj as [[j' v'] [E Hw]]. cbn in E. subst j'.
    assert (v' = v) as -> by (apply (H (j, v')); [right; exact Hw|reflexivity]).
    apply IH; [|exact Hw]. intros w' Hw'. apply H. right. exact Hw'.
  - rewrite apply_writes_none.
    + destruct Hin as [->|Hin]; [unfold upd; cbn; rewrite Z.eqb_refl; reflexivity|].
      exfalso. apply Hj. apply in_map_iff. exists (j, v). auto.
    + intros w' Hw' E. apply Hj. rewrite <- E. apply in_map. exact Hw'.
Qed.

Lemma threads_in n i : 0 <= n < 2 ^ 52 ->
  (In i (threads_1d (cuda_tpb_bpg_1d n 256)) -> 0 <= i) /\
  (0 <= i < n -> In i (threads_1d (cuda_tpb_bpg_1d n 256))).
Proof.
  intros Hn. destruct (bpg_covers n 256) as [B1 B2]; try lia.
  destruct (cuda_tpb_bpg_1d n 256) as [b t] eqn:E. assert (t = 256) as -> by (unfold cuda_tpb_bpg_1d in E; congruence).
  cbn [fst] in *. rewrite threads_range by lia. rewrite in_range. lia.
Qed.

Lemma launched_val {V} n (body : Z -> list (Z * V)) a a' j v : 0 <= n < 2 ^ 52 -> launched n body a a' ->
  (forall i w, 0 <= i -> In w (body i) -> fst w = j -> snd w = v) ->
  (exists i, 0 <= i < n /\ In (j, v) (body i)) -> a' j = v.
Proof.
  intros Hn [ws [Hp ->]] Hall [i [Hi Hin]]. apply apply_writes_val.
  - intros w Hw. apply (Permutation_in _ Hp) in Hw. apply in_flat_map in Hw as [t [Ht Hw]].
    apply (Hall t); [apply (threads_in n t Hn); exact Ht|exact Hw].
  - apply (Permutation_in _ (Permutation_sym Hp)). apply in_flat_map. exists i. split; [|exact Hin].
    apply threads_in; lia.
Qed.
Lemma launched_none {V} n (body : Z -> list (Z * V)) a a' j : 0 <= n < 2 ^ 52 -> launched n body a a' ->
  (forall i w, 0 <= i -> In w (body i) -> fst w <> j) -> a' j = a j.
Proof.
  intros Hn [ws [Hp ->]] Hall. apply apply_writes_none. intros w Hw.
  apply (Permutation_in _ Hp) in Hw. apply in_flat_map in Hw as [t [Ht Hw]].
  apply (Hall t); [apply (threads_in n t Hn); exact Ht|exact Hw].
Qed.

(** ** Counting in a sorted array *)
Lemma sorted_split N (cs : Z -> Z) c : 0 <= N -> (forall i j, 0 <= i <= j /\ j < N -> cs i <= cs j) ->
  exists K, 0 <= K <= N /\ forall i, 0 <= i < N -> (cs i <= c <-> i < K).
Proof.
  intros HN. pattern N. apply natlike_ind; [| |exact HN].
  - intros _. exists 0. split; [lia|intros; lia].
  - intros n Hn IH Hs. unfold Z.succ in *. destruct IH as [K [HK H]]; [intros i j Hij; apply Hs; lia|].
    destruct (Z_le_gt_dec (cs n) c) as [Hc|Hc].
    + exists (n + 1). split; [lia|]. intros i Hi. split; [lia|]. intros _. specialize (Hs i n). lia.
    + exists K. split; [lia|]. intros i Hi. destruct (Z.eq_dec i n) as [->|Hne]; [lia|]. apply H. lia.
Qed.
Lemma count_below N K : 0 <= K <= N -> forall P : Z -> bool, (forall i, 0 <= i < N -> P i = true <-> i < K) ->
  Z.of_nat (length (filter P (range N))) = K.
Proof.
  intros HK P H. rewrite (filter_ext_in P (fun i => i <? K)).
  - pose proof (executed_range K N HK) as E. unfold executed in E. rewrite E, length_range. lia.
  - intros i Hi. apply in_range in Hi. apply Bool.eq_iff_eq_true. rewrite H by lia. rewrite Z.ltb_lt. reflexivity.
Qed.
Lemma count_perm N (f : Z -> Z) (P : Z -> bool) : Permutation (map f (range N)) (range N) ->
  length (filter P (range N)) = length (filter (fun i => P (f i)) (range N)).
Proof.
  intros Hp. rewrite (Permutation_length (Permutation_filter' P _ _ (Permutation_sym Hp))).
  induction (range N) as [|a l IH] in |- *; [reflexivity|]. simpl. destruct (P (f a)); simpl; rewrite IH; reflexivity.
Qed.

Lemma filter_length_le {A} (P : A -> bool) l : (length (filter P l) <= length l)%nat.
Proof. induction l as [|a l IH]; simpl; [lia|]. destruct (P a); simpl; lia. Qed.

(** ** The prefix sum *)
Section Prefix.
Context (n N : Z) (cs p0 p1 p2 : Z -> Z).
Context (Hn : 0 <= n < 2 ^ 52) (HN : 0 <= N < 2 ^ 52).
Context (Hs : forall i j, 0 <= i <= j /\ j < N -> cs i <= cs j).
Context (H1 : launched n (prefill_prefix_sum n N cs) p0 p1).
Context (H2 : launched N (incl_prefix_sum N cs) p1 p2).

Lemma prefix_value c K : 0 <= c < n -> 0 <= K <= N -> (forall i, 0 <= i < N -> (cs i <= c <-> i < K)) -> p2 c = K.
Proof.
  intros Hc HK H.
  assert (Hincl : forall i w, 0 <= i -> In w (incl_prefix_sum N cs i) -> fst w = c -> snd w = K /\ 0 < K < N).
  { intros i w Hi Hw E. unfold incl_prefix_sum in Hw. destruct (Z.ltb_spec i (N - 1)) as [Hl|_]; [|destruct Hw].
    apply in_map_iff in Hw as [k [<- Hk]]. cbn in *. apply in_range in Hk.
    assert (i < K) by (apply H; lia). assert (~ (i + 1 < K)) by (rewrite <- (H (i + 1)) by lia; lia). lia. }
  assert (Hpre : K = 0 \/ K = N -> p1 c = K).
  { intros HK0. apply (launched_val n _ p0 p1 c K Hn H1).
    - intros i w Hi Hw E. unfold prefill_prefix_sum in Hw. destruct (i <? n); [|destruct Hw].
      destruct (Z.gtb_spec N 0) as [Hp|Hp].
      + destruct (Z.ltb_spec i (cs 0)) as [Ha|Ha].
        * destruct Hw as [<-|[]]. cbn in *. subst i. destruct (Z.eq_dec K 0); [lia|].
          assert (cs 0 <= c) by (apply H; lia). lia.
        * destruct (Z.geb_spec i (cs (N - 1))) as [Hb|Hb]; [|destruct Hw].
          destruct Hw as [<-|[]]. cbn in *. subst i. assert (N - 1 < K) by (apply H; lia). lia.
      + destruct Hw as [<-|[]]. cbn in *. lia.
    - exists c. split; [lia|]. unfold prefill_prefix_sum. destruct (Z.ltb_spec c n); [|lia].
      destruct (Z.gtb_spec N 0) as [Hp|Hp].
      + destruct (Z.ltb_spec c (cs 0)) as [Ha|Ha].
        * left. f_equal. destruct (Z.eq_dec K 0); [lia|]. assert (cs 0 <= c) by (apply H; lia). lia.
        * assert (0 < K) by (apply H; lia). destruct (Z.geb_spec c (cs (N - 1))) as [Hb|Hb].
          -- left. f_equal. lia.
          -- assert (cs (N - 1) <= c) by (apply H; lia). lia.
      + left. f_equal. lia. }
  destruct (Z_lt_dec 0 K) as [Hk1|Hk1]; [destruct (Z_lt_dec K N) as [Hk2|Hk2]|].
  - apply (launched_val N _ p1 p2 c K HN H2).
    + intros i w Hi Hw E. apply (Hincl i w Hi Hw E).
    + exists (K - 1). split; [lia|]. unfold incl_prefix_sum. destruct (Z.ltb_spec (K - 1) (N - 1)); [|lia].
      apply in_map_iff. replace (K - 1 + 1) with K by lia. exists (c - cs (K - 1)). split; [f_equal; lia|].
      apply in_range. assert (cs (K - 1) <= c) by (apply H; lia).
      assert (~ cs K <= c) by (rewrite H by lia; lia). lia.
  - rewrite (launched_none N _ p1 p2 c HN H2); [apply Hpre; lia|].
    intros i w Hi Hw E. destruct (Hincl i w Hi Hw E). lia.
  - rewrite (launched_none N _ p1 p2 c HN H2); [apply Hpre; lia|].
    intros i w Hi Hw E. destruct (Hincl i w Hi Hw E). lia.
Qed.

Lemma prefix_outside c : (forall i, 0 <= i < N -> 0 <= cs i < n) -> ~ (0 <= c < n) -> p2 c = p0 c.
Proof.
  intros Hb Hc. rewrite (launched_none N _ p1 p2 c HN H2).
  - apply (launched_none n _ p0 p1 c Hn H1). intros i w Hi Hw E. unfold prefill_prefix_sum in Hw.
    destruct (Z.ltb_spec i n) as [Hl|_]; [|destruct Hw].
    destruct (N >? 0); [destruct (i <? cs 0); [|destruct (i >=? cs (N - 1))]|]; destruct Hw as [<-|[]] || destruct Hw;
      cbn in *; lia.
  - intros i w Hi Hw E. unfold incl_prefix_sum in Hw. destruct (Z.ltb_spec i (N - 1)) as [Hl|_]; [|destruct Hw].
    apply in_map_iff in Hw as [k [<- Hk]]. cbn in *. apply in_range in Hk.
    pose proof (Hb i). pose proof (Hb (i + 1)). lia.
Qed.
End Prefix.

Lemma rearranged_spec {V} N sidx : 0 <= N < 2 ^ 52 -> forall (l : list (Z -> V)) buf l' buf',
  rearranged N sidx l buf l' buf' ->
  Forall2 (fun a a' => forall i, 0 <= i < N -> a' i = a (sidx i)) l l'.
Proof.
  intros HN l buf l' buf' H. induction H as [|a l buf a' l' buf' Hl _ IH]; constructor; [|exact IH].
  intros i Hi. apply (launched_val N _ buf a' i _ HN Hl).
  - intros t w Ht Hw E. unfold write_sorting_buffer in Hw. destruct (t <? N); [|destruct Hw].
    destruct Hw as [<-|[]]. cbn in *. subst t. reflexivity.
  - exists i. split; [lia|]. unfold write_sorting_buffer. destruct (Z.ltb_spec i N); [|lia]. left. reflexivity.
Qed.

Lemma cells_spec g N x y z a a' i : 0 <= N < 2 ^ 52 -> launched N (get_cell_idx g N x y z) a a' ->
  0 <= i < N -> a' i = cell_of g (x i) (y i) (z i).
Proof.
  intros HN Hl Hi. apply (launched_val N _ a a' i _ HN Hl).
  - intros t w Ht Hw E. unfold get_cell_idx in Hw. destruct (t <? N); [|destruct Hw].
    destruct Hw as [<-|[]]. cbn [fst snd] in *. subst t. reflexivity.
  - exists i. split; [lia|]. unfold get_cell_idx. destruct (Z.ltb_spec i N); [|lia]. left. reflexivity.
Qed.

(** ** Cell indices *)

Lemma Zceil_bounds x k : (IZR k < x)%R <-> k < Zceil x.
Proof.
  split; intros H.
  - apply lt_IZR. apply Rlt_le_trans with x; [exact H|apply Zceil_ub].
  - apply Rnot_le_lt. intros Hc. apply Zceil_glb in Hc. lia.
Qed.
Lemma Zceil_le_iff x k : (x <= IZR k)%R <-> Zceil x <= k.
Proof. pose proof (Zceil_bounds x k). split; intros H1; [apply Zceil_glb; exact H1|].
  apply Rnot_lt_le. intros Hc. apply H in Hc. lia. Qed.

Definition izr (g : sgrid) (z : R) : Z := Zceil (/ g_dz g * (z - g_zmin g) - / 2)%R.
Lemma izr_gt g z k : (0 < g_dz g)%R -> (k < izr g z <-> (g_zmin g + (IZR k + / 2) * g_dz g < z)%R).
Proof.
  intros Hd. unfold izr. rewrite <- Zceil_bounds. split; intros H.
  - assert (E : (IZR k + / 2 < / g_dz g * (z - g_zmin g))%R) by lra.
    apply (Rmult_lt_compat_r (g_dz g)) in E; [|exact Hd].
    replace (/ g_dz g * (z - g_zmin g) * g_dz g)%R with (z - g_zmin g)%R in E by (field; lra). lra.
  - apply Rmult_lt_reg_r with (g_dz g); [exact Hd|].
    replace ((/ g_dz g * (z - g_zmin g) - / 2) * g_dz g)%R with (z - g_zmin g - / 2 * g_dz g)%R by (field; lra). lra.
Qed.
Lemma izr_le g z k : (0 < g_dz g)%R -> (izr g z <= k <-> (z <= g_zmin g + (IZR k + / 2) * g_dz g)%R).
Proof.
  intros Hd. pose proof (izr_gt g z k Hd) as H. split; intros H1.
  - apply Rnot_lt_le. intros Hc. apply H in Hc. lia.
  - destruct (Z_le_gt_dec (izr g z) k); [assumption|]. exfalso. assert (k < izr g z) as H2 by lia. apply H in H2. lra.
Qed.

Definition wrap (Nz iz : Z) : Z := if iz <? 0 then iz + Nz else if iz >? Nz - 1 then iz - Nz else iz.
Definition irc (g : sgrid) (x y : R) : Z :=
  let ir := Zceil (/ g_dr g * (sqrt (x ^ 2 + y ^ 2) - 0) - / 2)%R in if ir >? g_Nr g then g_Nr g else ir.
Lemma irc_bounds g x y : grid_ok g -> 0 <= irc g x y <= g_Nr g.
Proof.
  intros (_ & Hd & _ & HNr). unfold irc. cbv zeta.
  assert (0 <= Zceil (/ g_dr g * (sqrt (x ^ 2 + y ^ 2) - 0) - / 2)%R).
  { assert (-1 < Zceil (/ g_dr g * (sqrt (x ^ 2 + y ^ 2) - 0) - / 2)%R); [|lia]. apply Zceil_bounds.
    pose proof (sqrt_pos (x ^ 2 + y ^ 2)). pose proof (Rinv_0_lt_compat _ Hd).
    assert (0 <= / g_dr g * (sqrt (x ^ 2 + y ^ 2) - 0))%R by (apply Rmult_le_pos; lra). lra. }
  destruct (Z.gtb_spec (Zceil (/ g_dr g * (sqrt (x ^ 2 + y ^ 2) - 0) - / 2)%R) (g_Nr g)); lia.
Qed.
Lemma cell_split g x y z : cell_of g x y z = irc g x y + wrap (g_Nz g) (izr g z) * (g_Nr g + 1).
Proof. reflexivity. Qed.
Lemma cell_bounds g x y z : grid_ok g -> - g_Nz g <= izr g z < 2 * g_Nz g ->
  0 <= cell_of g x y z < g_Nz g * (g_Nr g + 1).
Proof.
  intros Hg Hz. rewrite cell_split. pose proof (irc_bounds g x y Hg). destruct Hg as (_ & _ & H1 & H2).
  assert (0 <= wrap (g_Nz g) (izr g z) <= g_Nz g - 1).
  { unfold wrap. destruct (Z.ltb_spec (izr g z) 0); [lia|]. destruct (Z.gtb_spec (izr g z) (g_Nz g - 1)); lia. }
  nia.
Qed.
(** A particle is in a row of cells below [k] iff its cell index is at most k*(Nr+1)-1. *)
Lemma cell_row g x y z k : grid_ok g ->
  (cell_of g x y z <= k * (g_Nr g + 1) - 1 <-> wrap (g_Nz g) (izr g z) < k).
Proof.
  intros Hg. rewrite cell_split. pose proof (irc_bounds g x y Hg). destruct Hg as (_ & _ & H1 & H2). nia.
Qed.

(** ** C19 *)
Lemma near_izr g s j : grid_ok g -> near_box g s -> 0 <= j < s_N s -> - g_Nz g <= izr g (s_z s j) < 2 * g_Nz g.
Proof.
  intros (Hd & _) H Hj. destruct (H j Hj) as [A B]. split.
  - assert (- g_Nz g - 1 < izr g (s_z s j)); [|lia]. apply izr_gt; [exact Hd|]. rewrite minus_IZR, opp_IZR. nra.
  - assert (izr g (s_z s j) <= 2 * g_Nz g - 1); [|lia]. apply izr_le; [exact Hd|]. rewrite minus_IZR, mult_IZR. nra.
Qed.
Lemma perm_index N f i : Permutation (map f (range N)) (range N) -> 0 <= i < N -> 0 <= f i < N.
Proof. intros Hp Hi. apply in_range. eapply Permutation_in; [exact Hp|]. apply in_map, in_range. lia. Qed.

Lemma sorted_main g s s' : grid_ok g -> sizes_ok g s -> near_box g s -> sort_particles g s s' ->
  permuted_by (s_sidx s') s s' /\
  (forall i, 0 <= i < s_N s -> cell g s' i = s_cell s' i) /\
  (forall i j, 0 <= i <= j /\ j < s_N s -> s_cell s' i <= s_cell s' j) /\
  (forall i, 0 <= i < s_N s -> 0 <= cell g s' i < ncells g) /\
  (forall c, 0 <= c < ncells g -> s_prefix s' c = count_upto g s c /\
     forall i, 0 <= i < s_N s -> (s_cell s' i <= c <-> i < s_prefix s' c)) /\
  (forall j, ~ (0 <= j < ncells g) -> s_prefix s' j = s_prefix s j) /\ s_shift s' = 0.
Proof.
  intros Hg [HN Hn] Hnear (cell1 & sidx1 & p1 & Hc & _ & (Hp & Hk & Hs) & Hf & Hi & Hr & Hri & HN' & Hsh).
  assert (Hn0 : 0 <= ncells g < 2 ^ 52).
  { split; [|exact Hn]. destruct Hg as (_ & _ & A & B). unfold ncells. nia. }
  pose proof (rearranged_spec _ _ HN _ _ _ _ Hr) as R1. pose proof (rearranged_spec _ _ HN _ _ _ _ Hri) as R2.
  inversion R1 as [|? ? ? ? Rx R1']; subst. inversion R1' as [|? ? ? ? Ry R1'']; subst.
  inversion R1'' as [|? ? ? ? Rz Rf]; subst. clear R1 R1' R1''.
  assert (Hcell : forall i, 0 <= i < s_N s -> cell g s' i = s_cell s' i).
  { intros i Hi'. rewrite Hk by lia. pose proof (perm_index _ _ i Hp Hi') as Hpi.
    rewrite (cells_spec _ _ _ _ _ _ _ _ HN Hc Hpi). unfold cell. rewrite Rx, Ry, Rz by lia. reflexivity. }
  assert (Hb : forall i, 0 <= i < s_N s -> 0 <= cell g s' i < ncells g).
  { intros i Hi'. unfold cell. rewrite Rx, Ry, Rz by lia. apply cell_bounds; [exact Hg|].
    apply near_izr; [exact Hg|exact Hnear|]. apply perm_index; assumption. }
  split; [|split; [|split; [|split; [|split; [|split]]]]]; try assumption.
  - repeat split; assumption.
  - intros c Hcc. destruct (sorted_split (s_N s) (s_cell s') c) as [K [HK HKs]]; [lia|exact Hs|].
    assert (E : s_prefix s' c = K) by (eapply (prefix_value (ncells g) (s_N s) (s_cell s')); eauto).
    rewrite E. split; [|exact HKs]. unfold count_upto.
    rewrite (count_perm (s_N s) (s_sidx s')) by exact Hp. symmetry. apply count_below; [exact HK|].
    intros i Hi'. rewrite <- (HKs i Hi'), Z.leb_le, <- Hcell by exact Hi'. unfold cell.
    rewrite Rx, Ry, Rz by lia. reflexivity.
  - intros j Hj. eapply (prefix_outside (ncells g) (s_N s) (s_cell s')); eauto.
    intros i Hi'. rewrite <- Hcell by exact Hi'. auto.
Qed.

Lemma sorted_ranges g s s' : grid_ok g -> sizes_ok g s -> near_box g s -> sort_particles g s s' ->
  (exists pi, permuted_by pi s s') /\
  (forall c, 0 <= c < ncells g -> s_prefix s' c = count_upto g s c) /\
  (forall c i, 0 <= c < ncells g -> 0 <= i < s_N s ->
     (cell g s' i = c <-> (if c =? 0 then 0 else s_prefix s' (c - 1)) <= i < s_prefix s' c)) /\
  (forall j, ~ (0 <= j < ncells g) -> s_prefix s' j = s_prefix s j).
Proof.
  intros Hg Hsz Hnear H. destruct (sorted_main g s s' Hg Hsz Hnear H) as (A & B & C & D & E & F & _).
  split; [eauto|]. split; [intros c Hc; apply E; exact Hc|]. split; [|exact F].
  intros c i Hc Hi. rewrite B by exact Hi. destruct (E c Hc) as [_ E2]. specialize (E2 i Hi).
  specialize (D i Hi). rewrite B in D by exact Hi.
  destruct (Z.eqb_spec c 0) as [->|Hne]; [lia|].
  destruct (E (c - 1)) as [_ E1]; [lia|]. specialize (E1 i Hi). lia.
Qed.

(** ** C20 *)
Lemma bounds_rows g s s' n_guard n_move : grid_ok g -> sizes_ok g s -> near_box g s -> sort_particles g s s' ->
  0 <= n_guard + n_move -> n_move + 1 <= n_guard -> 2 * n_guard <= g_Nz g ->
  let (i_min, i_max) := stay_bounds g n_guard (grids_moved n_move s') in
  0 <= i_min <= i_max /\ i_max <= s_N s /\
  forall i, 0 <= i < s_N s ->
    (i_min <= i < i_max <-> n_guard + n_move <= wrap (g_Nz g) (izr g (s_z s' i)) < g_Nz g - n_guard + n_move + 1).
Proof.
  intros Hg Hsz Hnear H Ha Hb Hc. destruct (sorted_main g s s' Hg Hsz Hnear H) as (A & B & C & D & E & F & G).
  unfold stay_bounds, grids_moved. cbn [s_shift s_prefix]. rewrite G.
  rewrite Z.max_l, Z.min_l by lia. replace (n_guard + (0 + n_move)) with (n_guard + n_move) by lia.
  replace (g_Nz g - n_guard + (0 + n_move) + 1) with (g_Nz g - n_guard + n_move + 1) by lia.
  set (a := n_guard + n_move) in *. set (b := g_Nz g - n_guard + n_move + 1) in *.
  assert (HNr : 1 <= g_Nr g) by apply Hg.
  assert (Hab : 0 <= a /\ a < b /\ b <= g_Nz g) by lia.
  assert (Hrow : forall k, 0 < k <= g_Nz g -> forall i, 0 <= i < s_N s ->
     (wrap (g_Nz g) (izr g (s_z s' i)) < k <-> i < s_prefix s' (k * (g_Nr g + 1) - 1))).
  { intros k Hk i Hi. destruct (E (k * (g_Nr g + 1) - 1)) as [_ E2]; [unfold ncells; nia|].
    rewrite <- (E2 i Hi), <- (B i Hi). unfold cell. symmetry. apply cell_row. exact Hg. }
  assert (Hpos : forall k, 0 < k <= g_Nz g -> 0 <= s_prefix s' (k * (g_Nr g + 1) - 1) <= s_N s).
  { intros k Hk. destruct (E (k * (g_Nr g + 1) - 1)) as [E1 _]; [unfold ncells; nia|]. rewrite E1. unfold count_upto.
    destruct Hsz. pose proof (filter_length_le (fun j => cell g s j <=? k * (g_Nr g + 1) - 1) (range (s_N s))) as L.
    rewrite length_range in L. lia. }
  destruct (Z.geb_spec (a * (g_Nr g + 1) - 1) 0) as [Hge|Hlt].
  - assert (0 < a) by nia. pose proof (Hpos a). pose proof (Hpos b).
    split; [split; [lia|]|split; [lia|]].
    + destruct (Z_le_gt_dec (s_prefix s' (a * (g_Nr g + 1) - 1)) (s_prefix s' (b * (g_Nr g + 1) - 1))) as [|Hgt]; [assumption|].
      exfalso. pose proof (Hrow a ltac:(lia) (s_prefix s' (b * (g_Nr g + 1) - 1)) ltac:(lia)) as R1.
      pose proof (Hrow b ltac:(lia) (s_prefix s' (b * (g_Nr g + 1) - 1)) ltac:(lia)) as R2. lia.
    + intros i Hi. pose proof (Hrow a ltac:(lia) i Hi). pose proof (Hrow b ltac:(lia) i Hi). lia.
  - assert (a = 0) as Ea by nia. pose proof (Hpos b). split; [lia|]. split; [lia|].
    intros i Hi. pose proof (Hrow b ltac:(lia) i Hi).
    assert (0 <= wrap (g_Nz g) (izr g (s_z s' i))).
    { specialize (D i Hi). unfold cell in D. rewrite cell_split in D. pose proof (irc_bounds g (s_x s' i) (s_y s' i) Hg). nia. }
    lia.
Qed.

Lemma within_row g n_guard n_move z : (0 < g_dz g)%R -> 
  0 <= n_guard + n_move -> n_move + 1 <= n_guard -> 2 * n_guard <= g_Nz g ->
  (g_zmin g - (IZR (n_guard - n_move) - / 2) * g_dz g < z <= g_zmin g + (IZR (g_Nz g + n_guard + n_move) - / 2) * g_dz g)%R ->
  (n_guard + n_move <= wrap (g_Nz g) (izr g z) < g_Nz g - n_guard + n_move + 1 <->
   n_guard + n_move <= izr g z < g_Nz g - n_guard + n_move + 1).
Proof.
  intros Hd H1 H2 H3 [A B].
  assert (E1 : - (n_guard - n_move) < izr g z) by (apply izr_gt; [exact Hd|]; rewrite opp_IZR; lra).
  assert (E2 : izr g z <= g_Nz g + n_guard + n_move - 1) by (apply izr_le; [exact Hd|]; rewrite minus_IZR; lra).
  unfold wrap. destruct (Z.ltb_spec (izr g z) 0); [lia|]. destruct (Z.gtb_spec (izr g z) (g_Nz g - 1)); lia.
Qed.
Lemma gpu_interval g z n_guard n_move : (0 < g_dz g)%R ->
  (n_guard + n_move <= izr g z < g_Nz g - n_guard + n_move + 1 <->
  (g_zmin (moved_grid g n_move) + (IZR n_guard - / 2) * g_dz g < z <=
   g_zmin (moved_grid g n_move) + (IZR (g_Nz g - n_guard) + / 2) * g_dz g)%R).
Proof.
  intros Hd. cbn [moved_grid g_zmin].
  pose proof (izr_gt g z (n_guard + n_move - 1) Hd) as P. pose proof (izr_le g z (g_Nz g - n_guard + n_move) Hd) as Q.
  rewrite ?minus_IZR, ?plus_IZR, ?minus_IZR in *. split.
  - intros [A B]. split; [assert (n_guard + n_move - 1 < izr g z) as A' by lia; apply P in A'; lra|].
    assert (izr g z <= g_Nz g - n_guard + n_move) as B' by lia. apply Q in B'. lra.
  - intros [A B]. assert (n_guard + n_move - 1 < izr g z) by (apply P; lra).
    assert (izr g z <= g_Nz g - n_guard + n_move) by (apply Q; lra). lia.
Qed.

Lemma launched_stay {V} N i_min i_max (a garbage a' : Z -> V) : 0 <= N < 2 ^ 52 -> 0 <= i_min <= i_max -> i_max <= N ->
  launched N (split_stay i_min i_max a) garbage a' -> forall i, 0 <= i < i_max - i_min -> a' i = a (i_min + i).
Proof.
  intros HN H1 H2 Hl i Hi. apply (launched_val N _ garbage a' i _ HN Hl).
  - intros t w Ht Hw E. unfold split_stay in Hw. destruct (Z.ltb_spec t i_min); [destruct Hw|].
    destruct (Z.ltb_spec t i_max); [|destruct Hw]. destruct Hw as [<-|[]]. cbn in *. f_equal. lia.
  - exists (i_min + i). split; [lia|]. unfold split_stay. destruct (Z.ltb_spec (i_min + i) i_min); [lia|].
    destruct (Z.ltb_spec (i_min + i) i_max); [|lia]. left. f_equal. lia.
Qed.

Lemma Forall2_imp {A B} (P Q : A -> B -> Prop) l l' : (forall a b, P a b -> Q a b) -> Forall2 P l l' -> Forall2 Q l l'.
Proof. intros H. induction 1; constructor; auto. Qed.

Lemma gpu_kept g s s' s2 n_guard n_move : grid_ok g -> sizes_ok g s -> near_box g s ->
  within_guard g n_guard n_move s -> sort_particles g s s' ->
  0 <= n_guard + n_move -> n_move + 1 <= n_guard -> 2 * n_guard <= g_Nz g ->
  remove_particles_gpu g n_guard (grids_moved n_move s') s2 ->
  let zb := g_zmin (moved_grid g n_move) in
  exists i_min, sub_species i_min s' s2 /\
  forall j, 0 <= j < s_N s' -> (i_min <= j < i_min + s_N s2 <->
    (zb + (IZR n_guard - / 2) * g_dz g < s_z s' j <= zb + (IZR (g_Nz g - n_guard) + / 2) * g_dz g)%R).
Proof.
  intros Hg Hsz Hnear Hw Hs H1 H2 H3 Hrm. cbv zeta.
  pose proof (bounds_rows g s s' n_guard n_move Hg Hsz Hnear Hs H1 H2 H3) as HB.
  destruct (sorted_main g s s' Hg Hsz Hnear Hs) as ((Hp & HN & Hx & Hy & Hz & _) & _).
  unfold remove_particles_gpu in Hrm.
  destruct (stay_bounds g n_guard (grids_moved n_move s')) as [i_min i_max].
  destruct HB as (B1 & B2 & B3).
  destruct Hrm as ((? & Rx) & (? & Ry) & (? & Rz) & Rf & Ri & RN).
  cbn [grids_moved s_N s_x s_y s_z s_fl s_int] in *. rewrite HN in *.
  assert (HNb : 0 <= s_N s < 2 ^ 52) by apply Hsz.
  exists i_min. split.
  - unfold sub_species. rewrite HN, RN. split; [lia|]. split; [lia|]. split; [lia|].
    split; [|split; [|split; [|split]]].
    + eapply launched_stay; eauto.
    + eapply launched_stay; eauto.
    + eapply launched_stay; eauto.
    + eapply Forall2_imp; [|exact Rf]. intros a b [gg Hl]. eapply launched_stay; eauto.
    + eapply Forall2_imp; [|exact Ri]. intros a b [gg Hl]. eapply launched_stay; eauto.
  - intros j Hj. rewrite RN. replace (i_min + (i_max - i_min)) with i_max by lia. rewrite (B3 j Hj).
    rewrite Hz by exact Hj. rewrite within_row; [apply gpu_interval, Hg|apply Hg|assumption..|].
    apply Hw. apply perm_index; assumption.
Qed.

(** A run of the sort exists: the writes in thread order. *)
Definition launch {V} n (body : Z -> list (Z * V)) (a : Z -> V) : Z -> V :=
  apply_writes a (flat_map body (threads_1d (cuda_tpb_bpg_1d n 256))).
Lemma launch_launched {V} n body (a : Z -> V) : launched n body a (launch n body a).
Proof. eexists. split; [reflexivity|reflexivity]. Qed.

Section Witness.
Context (g : sgrid) (x y z : R).
Definition wit0 : gspecies :=
  {| s_N := 1; s_x := fun _ => x; s_y := fun _ => y; s_z := fun _ => z; s_fl := []; s_int := [];
     s_cell := fun _ => 0; s_sidx := fun _ => 0; s_prefix := fun _ => 0; s_shift := 0;
     s_buf := fun _ => 0%R; s_ibuf := fun _ => 0 |}.
Definition wc := launch 1 (get_cell_idx g 1 (fun _ => x) (fun _ => y) (fun _ => z)) (fun _ => 0).
Definition wx := launch 1 (write_sorting_buffer 1 (fun i => i) (fun _ => x)) (fun _ => 0%R).
Definition wy := launch 1 (write_sorting_buffer 1 (fun i => i) (fun _ => y)) (fun _ => x).
Definition wz := launch 1 (write_sorting_buffer 1 (fun i => i) (fun _ => z)) (fun _ => y).
Definition wp := launch 1 (incl_prefix_sum 1 wc)
  (launch (g_Nz g * (g_Nr g + 1)) (prefill_prefix_sum (g_Nz g * (g_Nr g + 1)) 1 wc) (fun _ => 0)).
Definition wit1 : gspecies :=
  {| s_N := 1; s_x := wx; s_y := wy; s_z := wz; s_fl := []; s_int := [];
     s_cell := wc; s_sidx := fun i => i; s_prefix := wp; s_shift := 0;
     s_buf := fun _ => z; s_ibuf := fun _ => 0 |}.
Lemma wit_sorted : sort_particles g wit0 wit1.
Proof.
  exists wc, (launch 1 (reset_sorted_idx 1) (fun _ => 0)),
    (launch (g_Nz g * (g_Nr g + 1)) (prefill_prefix_sum (g_Nz g * (g_Nr g + 1)) 1 wc) (fun _ => 0)).
  split; [apply launch_launched|]. split; [apply launch_launched|].
  split; [|split; [apply launch_launched|]].
  - split; [rewrite map_id; reflexivity|]. split; [reflexivity|]. cbn. intros i j Hij.
    assert (i = j) as -> by lia. reflexivity.
  - split; [apply launch_launched|]. split; [|split; [constructor|split; reflexivity]].
    repeat (econstructor; [apply launch_launched|]). constructor.
Qed.
Definition kept {V} i_min i_max (a : Z -> V) := launch 1 (split_stay i_min i_max a) a.
Definition wit2 n_guard : gspecies :=
  let '(a, b) := stay_bounds g n_guard (grids_moved 0 wit1) in
  {| s_N := b - a; s_x := kept a b wx; s_y := kept a b wy; s_z := kept a b wz; s_fl := []; s_int := [];
     s_cell := wc; s_sidx := fun i => i; s_prefix := wp; s_shift := 0;
     s_buf := fun _ => z; s_ibuf := fun _ => 0 |}.
Lemma wit_removed n_guard : remove_particles_gpu g n_guard (grids_moved 0 wit1) (wit2 n_guard).
Proof.
  unfold remove_particles_gpu, wit2. destruct (stay_bounds g n_guard (grids_moved 0 wit1)) as [a b].
  cbn. repeat split; try constructor; eexists; apply launch_launched.
Qed.
End Witness.

Definition g8 : sgrid := {| g_zmin := 0; g_dz := 1; g_Nz := 8; g_dr := 1; g_Nr := 4 |}.
Lemma g8_ok : grid_ok g8.
Proof. unfold grid_ok, g8; cbn. repeat split; lra || lia. Qed.
Lemma wit_sizes z : sizes_ok g8 (wit0 0 0 z).
Proof. unfold sizes_ok, ncells, wit0, g8; cbn. lia. Qed.
Lemma wit_near z : (0 <= z <= 8)%R -> near_box g8 (wit0 0 0 z).
Proof. intros Hz j Hj. unfold wit0, g8; cbn. lra. Qed.
Lemma wit_within z : (0 <= z <= 8)%R -> within_guard g8 2 0 (wit0 0 0 z).
Proof. intros Hz j Hj. unfold wit0, g8; cbn. lra. Qed.

Lemma kept_differs : exists g s s' s2 n_guard,
  grid_ok g /\ sizes_ok g s /\ near_box g s /\ within_guard g n_guard 0 s /\
  sort_particles g s s' /\ remove_particles_gpu g n_guard (grids_moved 0 s') s2 /\
  (exists j, 0 <= j < s_N s /\ ~ stays_cpu g n_guard (s_z s j)) /\ s_N s2 = s_N s.
Proof.
  set (z := (7 / 4)%R). assert (Hz : (z = 7 / 4)%R) by reflexivity.
  exists g8, (wit0 0 0 z), (wit1 g8 0 0 z), (wit2 g8 0 0 z 2), 2.
  assert (Hsort := wit_sorted g8 0 0 z). assert (Hrm := wit_removed g8 0 0 z 2).
  assert (H1 := g8_ok). assert (H2 := wit_sizes z). assert (H3 := wit_near z ltac:(lra)).
  assert (H4 := wit_within z ltac:(lra)).
  repeat (split; [assumption|]). split.
  - exists 0. split; [cbn; lia|]. unfold stays_cpu. cbn. intros [A _]. apply A. lra.
  - destruct (gpu_kept g8 _ _ _ 2 0 H1 H2 H3 H4 Hsort ltac:(lia) ltac:(lia) ltac:(cbn; lia) Hrm) as (i & Hsub & Hk).
    assert (HN : s_N (wit1 g8 0 0 z) = 1) by reflexivity.
    assert (Hz1 : s_z (wit1 g8 0 0 z) 0 = z).
    { destruct (sorted_main _ _ _ H1 H2 H3 Hsort) as ((_ & _ & _ & _ & Hzz & _) & _). rewrite Hzz by (cbn; lia). reflexivity. }
    specialize (Hk 0 ltac:(lia)). rewrite Hz1 in Hk. cbn [moved_grid g_zmin g8 g_dz g_Nz] in Hk.
    assert (Hk' : i <= 0 < i + s_N (wit2 g8 0 0 z 2)).
    { apply Hk. cbn. lra. }
    destruct Hsub as (S1 & S2 & S3 & _). rewrite HN in S3. change (s_N (wit0 0 0 z)) with 1. lia.
Qed.
Lemma cpu_kept_gpu_kept g s s' s2 n_guard n_move : grid_ok g -> sizes_ok g s -> near_box g s ->
  within_guard g n_guard n_move s -> sort_particles g s s' ->
  0 <= n_guard + n_move -> n_move + 1 <= n_guard -> 2 * n_guard <= g_Nz g ->
  remove_particles_gpu g n_guard (grids_moved n_move s') s2 ->
  exists i_min, sub_species i_min s' s2 /\
  forall j, 0 <= j < s_N s' -> stays_cpu (moved_grid g n_move) n_guard (s_z s' j) ->
            i_min <= j < i_min + s_N s2.
Proof.
  intros Hg H1 H2 H3 H4 H5 H6 H7 H8.
  destruct (gpu_kept g s s' s2 n_guard n_move Hg H1 H2 H3 H4 H5 H6 H7 H8) as (i & Hs & Hk).
  exists i. split; [exact Hs|]. intros j Hj [A B]. apply Hk; [exact Hj|].
  apply Rnot_lt_le in A. apply Rnot_gt_le in B. cbn [moved_grid g_zmin g_dz g_Nz] in *. destruct Hg as (Hd & _).
  rewrite minus_IZR. lra.
Qed.
