(** Proofs for C91. *)
From Coq Require Import Reals ZArith List Lra Lia Permutation.
From Verif Require Import Base Decomp_Model Decomp_Proofs PExch_Model PExch_Spec PExch_Proofs.
From Verif Require Import Sort_Model Sort_Spec Sort_Proofs GExch_Model GExch_Spec.
Import ListNotations.
Open Scope Z_scope.

(** ** The kernels *)
Lemma left_row {V} N i_min (a junk buf : Z -> V) : 0 <= N < 2 ^ 52 -> 0 <= i_min <= N ->
  launched N (split_left i_min i_min a) junk buf -> get i_min buf = map a (range i_min).
Proof.
  intros HN Hi Hl. apply map_ext_in. intros i Hin. apply in_range in Hin. apply (launched_val N _ junk buf i _ HN Hl).
  - intros t w Ht Hw E. unfold split_left in Hw. destruct (t <? i_min); [|destruct Hw].
    destruct (negb (i_min =? 0)); [|destruct Hw]. destruct Hw as [<-|[]]. cbn in *. subst. reflexivity.
  - exists i. split; [lia|]. unfold split_left. destruct (Z.ltb_spec i i_min); [|lia].
    destruct (Z.eqb_spec i_min 0); [lia|]. left. reflexivity.
Qed.
Lemma right_row {V} N i_min i_max (a junk buf : Z -> V) : 0 <= N < 2 ^ 52 -> 0 <= i_min <= i_max -> i_max <= N ->
  launched N (split_right (N - i_max) i_min i_max N a) junk buf ->
  get (N - i_max) buf = map (fun i => a (i_max + i)) (range (N - i_max)).
Proof.
  intros HN H1 H2 Hl. apply map_ext_in. intros i Hin. apply in_range in Hin. apply (launched_val N _ junk buf i _ HN Hl).
  - intros t w Ht Hw E. unfold split_right in Hw. destruct (t <? i_min); [destruct Hw|].
    destruct (t <? i_max); [destruct Hw|]. destruct (t <? N); [|destruct Hw].
    destruct (negb (N - i_max =? 0)); [|destruct Hw]. destruct Hw as [<-|[]]. cbn in *. f_equal. lia.
  - exists (i_max + i). split; [lia|]. unfold split_right. destruct (Z.ltb_spec (i_max + i) i_min); [lia|].
    destruct (Z.ltb_spec (i_max + i) i_max); [lia|]. destruct (Z.ltb_spec (i_max + i) N); [|lia].
    destruct (Z.eqb_spec (N - i_max) 0); [lia|]. left. f_equal. lia.
Qed.

Lemma split_rows {V} N i_min i_max : 0 <= N < 2 ^ 52 -> 0 <= i_min <= i_max -> i_max <= N ->
  forall (l l' : list (Z -> V)) rl rr, split_attrs N i_min i_max l l' rl rr ->
  rl = map (fun a => map a (range i_min)) l /\ rr = map (fun a => map (fun i => a (i_max + i)) (range (N - i_max))) l /\
  Forall2 (fun a a' => forall i, 0 <= i < i_max - i_min -> a' i = a (i_min + i)) l l'.
Proof.
  intros HN H1 H2 l l' rl rr H. induction H as [|a l a' l' rl rr rls rrs Ha _ (E1 & E2 & E3)].
  - repeat split. constructor.
  - destruct Ha as (j1 & j2 & j3 & lb & rb & L1 & L2 & L3 & -> & ->). cbn [map]. rewrite E1, E2. split; [|split].
    + f_equal. eapply left_row; eauto. lia.
    + f_equal. eapply right_row; eauto.
    + constructor; [|exact E3]. eapply launched_stay; eauto.
Qed.

Lemma copy_spec {V} n (src : Z -> V) st (t t' : Z -> V) : 0 <= n < 2 ^ 52 -> copy_if n src 0 st t t' ->
  (forall i, st <= i < st + n -> t' i = src (i - st)) /\ (forall i, ~ (st <= i < st + n) -> t' i = t i).
Proof.
  intros Hn H. unfold copy_if in H. destruct (Z.eqb_spec n 0) as [->|Hne]; cbn [negb] in H.
  - subst t'. split; intros; [lia|reflexivity].
  - split; intros i Hi.
    + apply (launched_val n _ t t' i _ Hn H).
      * intros k w Hk Hw E. unfold copy_particles in Hw. destruct (k <? n); [|destruct Hw].
        destruct Hw as [<-|[]]. cbn in *. f_equal. lia.
      * exists (i - st). split; [lia|]. unfold copy_particles. destruct (Z.ltb_spec (i - st) n); [|lia]. left. f_equal; [lia|].
        f_equal. lia.
    + apply (launched_none n _ t t' i Hn H). intros k w Hk Hw. unfold copy_particles in Hw.
      destruct (Z.ltb_spec k n); [|destruct Hw]. destruct Hw as [<-|[]]. cbn. lia.
Qed.

Lemma range_app n m : 0 <= n -> 0 <= m -> range (n + m) = range n ++ map (fun i => n + i) (range m).
Proof.
  intros Hn Hm. unfold range, zrange. rewrite Z2Nat.inj_add by lia. rewrite seq_app, map_app. f_equal.
  rewrite map_map. rewrite <- (Nat.add_0_r (0 + Z.to_nat n)) at 1. 
  rewrite <- (map_map (fun k => (k + Z.to_nat n)%nat) Z.of_nat) || idtac.
  replace (0 + Z.to_nat n + 0)%nat with (Z.to_nat n + 0)%nat by lia.
  generalize 0%nat as a. induction (Z.to_nat m) as [|k IH]; intros a; [reflexivity|]. cbn [seq map].
  f_equal; [lia|]. specialize (IH (S a)). replace (Z.to_nat n + S a)%nat with (S (Z.to_nat n + a)) in IH by lia. exact IH.
Qed.

Lemma merge_row {V} (d : V) nl no nr l (stay : Z -> V) r a' : 0 <= no -> nl = Z.of_nat (length l) -> nr = Z.of_nat (length r) ->
  no + nl + nr < 2 ^ 52 ->
  merge_attr d nl no nr l stay r a' -> map a' (range (no + nl + nr)) = l ++ map stay (range no) ++ r.
Proof.
  intros Hno El Er Hb (junk & t1 & t2 & C1 & C2 & C3).
  assert (HB1 : 0 <= nl < 2 ^ 52) by lia. assert (HB2 : 0 <= no < 2 ^ 52) by lia. assert (HB3 : 0 <= nr < 2 ^ 52) by lia.
  destruct (copy_spec _ _ _ _ _ (HB1) C1) as [A1 B1]. destruct (copy_spec _ _ _ _ _ (HB2) C2) as [A2 B2].
  destruct (copy_spec _ _ _ _ _ (HB3) C3) as [A3 B3].
  assert (F : forall l' : list V, map (asarray d l') (range (Z.of_nat (length l'))) = l').
  { intros l'. unfold asarray, range, zrange. rewrite Nat2Z.id, map_map.
    clear. induction l' as [|v l IH]; [reflexivity|]. cbn [length seq map]. f_equal. rewrite <- seq_shift, map_map.
    rewrite <- IH at 2. apply map_ext. intros k. rewrite !Nat2Z.id. reflexivity. }
  replace (no + nl + nr) with (nl + no + nr) by lia. rewrite range_app, range_app by lia. rewrite !map_app, <- app_assoc. f_equal; [|f_equal].
  - rewrite <- (F l), <- El. apply map_ext_in. intros i Hi. apply in_range in Hi. rewrite B3, B2, A1 by lia. f_equal. lia.
  - rewrite map_map. apply map_ext_in. intros i Hi. apply in_range in Hi. rewrite B3, A2 by lia. f_equal. lia.
  - rewrite map_map. rewrite <- (F r), <- Er. apply map_ext_in. intros i Hi. apply in_range in Hi. rewrite A3 by lia. f_equal. lia.
Qed.

Fixpoint zip3 {V} (l m r : list (list V)) : list (list V) :=
  match l, m, r with a :: l, b :: m, c :: r => (a ++ b ++ c) :: zip3 l m r | _, _, _ => [] end.
Lemma merge_rows {V} (d : V) nl no nr : 0 <= no -> no + nl + nr < 2 ^ 52 -> forall rl l rr l',
  merge_attrs d nl no nr rl l rr l' ->
  Forall (fun x => Z.of_nat (length x) = nl) rl -> Forall (fun x => Z.of_nat (length x) = nr) rr ->
  map (fun a => map a (range (no + nl + nr))) l' = zip3 rl (map (fun a => map a (range no)) l) rr.
Proof.
  intros Hno Hb rl l rr l' H. induction H as [rl rr|a l a' l' rl rr rls rrs Ha Hr IH]; intros F1 F2.
  - destruct rl; reflexivity.
  - inversion F1; subst. inversion F2; subst. cbn [map zip3]. rewrite IH by assumption. f_equal.
    eapply merge_row; eauto.
Qed.

(** ** Records and buffers *)
Lemma kind_attrs tr io s j : kind tr io s -> has_attrs tr io (record s j).
Proof.
  intros [H1 H2]. unfold has_attrs, record. cbn [pid pion]. split.
  - destruct tr; [|rewrite H1; reflexivity]. destruct (p_id s); [discriminate|congruence].
  - destruct io; [|rewrite H2; reflexivity]. destruct (p_ion s); [discriminate|congruence].
Qed.
Lemma kind_all tr io s J : kind tr io s -> Forall (has_attrs tr io) (map (record s) J).
Proof. intros H. apply Forall_forall. intros p Hp. apply in_map_iff in Hp as (j & <- & _). apply kind_attrs, H. Qed.
Lemma buffer_of tr io s J : kind tr io s ->
  buffer tr io (map (record s) J) = mkBuf (map (fun a => map a J) (float_attrs s)) (map (fun a => map a J) (int_attrs s)).
Proof.
  intros [H1 H2]. unfold buffer, float_attrs, int_attrs. rewrite !map_map, !map_app. f_equal.
  - cbn [map px py pz pux puy puz pig pw record app]. repeat f_equal.
    destruct io; [|rewrite H2; reflexivity]. destruct (p_ion s) as [a|] eqn:E; [|congruence]. cbn [option_map olist map].
    f_equal. rewrite ?map_map. apply map_ext. intros j. unfold pwl, record. cbn [pion]. rewrite E. reflexivity.
  - f_equal.
    + destruct tr; [|rewrite H1; reflexivity]. destruct (p_id s) as [a|] eqn:E; [|congruence]. cbn [option_map olist map].
      f_equal. rewrite ?map_map. apply map_ext. intros j. unfold pid0, record. cbn [pid]. rewrite E. reflexivity.
    + destruct io; [|rewrite H2; reflexivity]. destruct (p_ion s) as [a|] eqn:E; [|congruence]. cbn [option_map olist map].
      f_equal. rewrite ?map_map. apply map_ext. intros j. unfold plev, record. cbn [pion]. rewrite E. reflexivity.
Qed.

Lemma buffer_inj tr io : forall l l', Forall (has_attrs tr io) l -> Forall (has_attrs tr io) l' ->
  buffer tr io l = buffer tr io l' -> l = l'.
Proof.
  induction l as [|p l IH]; intros l' Hl Hl' E.
  - assert (Ex : map px [] = map px l') by (unfold buffer in E; injection E; intros; assumption).
    destruct l'; [reflexivity|discriminate].
  - destruct l' as [|p' l'].
    { assert (Ex : map px (p :: l) = map px []) by (unfold buffer in E; injection E; intros; assumption). discriminate. }
    apply Forall_cons_iff in Hl as [Hp Hl]. apply Forall_cons_iff in Hl' as [Hp' Hl'].
    destruct Hp as [A1 A2]. destruct Hp' as [B1 B2].
    assert (P : p = p' /\ buffer tr io l = buffer tr io l').
    { unfold buffer in *. destruct p as [x y z ux uy uz ig w i io1], p' as [x' y' z' ux' uy' uz' ig' w' i' io1'].
      cbn [pid pion] in *. cbn [map px py pz pux puy puz pig pw app] in E.
      destruct tr, io; cbn [map app pid0 plev pwl pid pion] in E; unfold pid0, plev, pwl in E; cbn [pid pion] in E;
        injection E; intros; (split; [|subst; unfold pid0, plev, pwl; congruence]);
        try (destruct i; [|congruence]); try (destruct i'; [|congruence]);
        try (destruct io1 as [[? ?]|]; [|congruence]); try (destruct io1' as [[? ?]|]; [|congruence]); cbn [fst snd] in *; congruence. }
    destruct P as [-> E']. f_equal. apply IH; assumption.
Qed.
Lemma rows_len tr io l : Forall (fun x => Z.of_nat (length x) = Z.of_nat (length l)) (bf (buffer tr io l)) /\
  Forall (fun x => Z.of_nat (length x) = Z.of_nat (length l)) (bi (buffer tr io l)).
Proof.
  unfold buffer. cbn [bf bi]. destruct tr, io; cbn [app]; split; repeat constructor; rewrite map_length; reflexivity.
Qed.
Lemma columns_buffer tr io l : columns (buffer tr io l) = Z.of_nat (length l).
Proof. unfold columns, buffer. cbn [bf hd app]. rewrite map_length. reflexivity. Qed.
Lemma zip3_bf tr io a b c : zip3 (bf (buffer tr io a)) (bf (buffer tr io b)) (bf (buffer tr io c)) = bf (buffer tr io (a ++ b ++ c)).
Proof. unfold buffer. cbn [bf]. rewrite !map_app. destruct io; reflexivity. Qed.
Lemma zip3_bi tr io a b c : zip3 (bi (buffer tr io a)) (bi (buffer tr io b)) (bi (buffer tr io c)) = bi (buffer tr io (a ++ b ++ c)).
Proof. unfold buffer. cbn [bi]. rewrite !map_app. destruct tr, io; reflexivity. Qed.

Lemma shape_kind tr io s s' : kind tr io s -> same_shape s s' -> kind tr io s'.
Proof. unfold kind, same_shape. destruct tr, io; intuition congruence. Qed.
Lemma particles_len s : 0 <= p_N s -> Z.of_nat (length (particles s)) = p_N s.
Proof. intros H. unfold particles. rewrite map_length, length_range. lia. Qed.
Lemma attrs_particles tr io s : kind tr io s -> Forall (has_attrs tr io) (particles s).
Proof. apply kind_all. Qed.

Lemma add_particles tr io s s' L Rr : kind tr io s -> 0 <= p_N s -> p_N s + Z.of_nat (length L) + Z.of_nat (length Rr) < 2 ^ 52 ->
  Forall (has_attrs tr io) L -> Forall (has_attrs tr io) Rr ->
  add_buffers_gpu s (buffer tr io L) (buffer tr io Rr) s' ->
  kind tr io s' /\ p_sorted s' = false /\ particles s' = L ++ particles s ++ Rr.
Proof.
  intros Hk HN Hb HL HR (M1 & M2 & Hsh & HN' & Hso). rewrite !columns_buffer in *.
  assert (Hk' := shape_kind _ _ _ _ Hk Hsh). split; [exact Hk'|]. split; [exact Hso|].
  destruct (rows_len tr io L) as [L1 L2]. destruct (rows_len tr io Rr) as [R1 R2].
  apply merge_rows in M1; [|lia|lia|assumption|assumption]. apply merge_rows in M2; [|lia|lia|assumption|assumption].
  apply (buffer_inj tr io).
  - apply attrs_particles, Hk'.
  - rewrite !Forall_app. split; [|split]; [assumption|apply attrs_particles, Hk|assumption].
  - unfold particles at 1. rewrite buffer_of by exact Hk'. rewrite HN', M1, M2.
    pose proof (buffer_of tr io s (range (p_N s)) Hk) as Eb. fold (particles s) in Eb.
    destruct (buffer tr io (L ++ particles s ++ Rr)) as [f i] eqn:E.
    assert (Ef : bf (buffer tr io (L ++ particles s ++ Rr)) = f) by (rewrite E; reflexivity).
    assert (Ei : bi (buffer tr io (L ++ particles s ++ Rr)) = i) by (rewrite E; reflexivity).
    rewrite <- zip3_bf in Ef. rewrite <- zip3_bi in Ei. rewrite Eb in Ef, Ei. cbn [bf bi] in Ef, Ei. congruence.
Qed.

(** ** Which particles go where *)
Lemma near_of_on g s : grid_ok g -> on_grid g (s_N s) (s_z s) -> near_box g s.
Proof.
  intros (Hd & _ & HNz & _) H j Hj. destruct (H j Hj) as [A B]. apply IZR_le in HNz.
  assert (g_dz g <= IZR (g_Nz g) * g_dz g)%R by nra. split; lra.
Qed.
Lemma on_izr g z : (0 < g_dz g)%R -> (g_zmin g - / 2 * g_dz g < z <= g_zmin g + (IZR (g_Nz g) - / 2) * g_dz g)%R ->
  wrap (g_Nz g) (izr g z) = izr g z.
Proof.
  intros Hd [A B]. assert (-1 < izr g z) by (apply izr_gt; [exact Hd|]; lra).
  assert (izr g z <= g_Nz g - 1) by (apply izr_le; [exact Hd|]; rewrite minus_IZR; lra).
  unfold wrap. destruct (Z.ltb_spec (izr g z) 0); [lia|]. destruct (Z.gtb_spec (izr g z) (g_Nz g - 1)); lia.
Qed.

Lemma rows_split g s s' n_guard n : grid_ok g -> sizes_ok g s -> near_box g s -> sort_particles g s s' ->
  0 <= n_guard + n -> n + 1 <= n_guard -> 2 * n_guard <= g_Nz g ->
  let (i_min, i_max) := stay_bounds g n_guard (grids_moved n s') in
  0 <= i_min <= i_max /\ i_max <= s_N s /\
  forall i, 0 <= i < s_N s ->
    (i < i_min <-> wrap (g_Nz g) (izr g (s_z s' i)) < n_guard + n) /\
    (i < i_max <-> wrap (g_Nz g) (izr g (s_z s' i)) < g_Nz g - n_guard + n + 1).
Proof.
  intros Hg Hsz Hnear H Ha Hb Hc. destruct (sorted_main g s s' Hg Hsz Hnear H) as (A & B & C & D & E & F & G).
  unfold stay_bounds, grids_moved. cbn [s_shift s_prefix]. rewrite G.
  rewrite Z.max_l, Z.min_l by lia. replace (n_guard + (0 + n)) with (n_guard + n) by lia.
  replace (g_Nz g - n_guard + (0 + n) + 1) with (g_Nz g - n_guard + n + 1) by lia.
  set (a := n_guard + n) in *. set (b := g_Nz g - n_guard + n + 1) in *.
  assert (HNr : 1 <= g_Nr g) by apply Hg.
  assert (Hab : 0 <= a /\ a < b /\ b <= g_Nz g) by lia.
  assert (Hrow : forall k, 0 < k <= g_Nz g -> forall i, 0 <= i < s_N s ->
     (wrap (g_Nz g) (izr g (s_z s' i)) < k <-> i < s_prefix s' (k * (g_Nr g + 1) - 1))).
  { intros k Hk i Hi. destruct (E (k * (g_Nr g + 1) - 1)) as [_ E2]; [unfold ncells; nia|].
    rewrite <- (E2 i Hi), <- (B i Hi). unfold cell. symmetry. apply cell_row. exact Hg. }
  assert (Hpos : forall k, 0 < k <= g_Nz g -> 0 <= s_prefix s' (k * (g_Nr g + 1) - 1) <= s_N s).
  { intros k Hk. destruct (E (k * (g_Nr g + 1) - 1)) as [E1 _]; [unfold ncells; nia|]. rewrite E1. unfold count_upto.
    destruct Hsz. pose proof (filter_length_le (fun j => cell g s j <=? k * (g_Nr g + 1) - 1) (range (s_N s))) as L.
    rewrite length_range in L. lia. }
  destruct (Z.geb_spec (a * (g_Nr g + 1) - 1) 0) as [Hge|Hlt].
  - assert (0 < a) by nia. pose proof (Hpos a). pose proof (Hpos b).
    split; [split; [lia|]|split; [lia|]].
    + destruct (Z_le_gt_dec (s_prefix s' (a * (g_Nr g + 1) - 1)) (s_prefix s' (b * (g_Nr g + 1) - 1))) as [|Hgt]; [assumption|].
      exfalso. pose proof (Hrow a ltac:(lia) (s_prefix s' (b * (g_Nr g + 1) - 1)) ltac:(lia)) as R1.
      pose proof (Hrow b ltac:(lia) (s_prefix s' (b * (g_Nr g + 1) - 1)) ltac:(lia)) as R2. lia.
    + intros i Hi. pose proof (Hrow a ltac:(lia) i Hi). pose proof (Hrow b ltac:(lia) i Hi). lia.
  - assert (a = 0) as Ea by nia. pose proof (Hpos b). split; [lia|]. split; [lia|].
    intros i Hi. pose proof (Hrow b ltac:(lia) i Hi).
    assert (0 <= wrap (g_Nz g) (izr g (s_z s' i))).
    { specialize (D i Hi). unfold cell in D. rewrite cell_split in D. pose proof (irc_bounds g (s_x s' i) (s_y s' i) Hg). nia. }
    lia.
Qed.

Lemma sorted_split_z g s s' n_guard n : grid_ok g -> sizes_ok g s -> on_grid g (s_N s) (s_z s) -> sort_particles g s s' ->
  0 <= n_guard + n -> n + 1 <= n_guard -> 2 * n_guard <= g_Nz g ->
  let (i_min, i_max) := stay_bounds g n_guard (grids_moved n s') in
  0 <= i_min <= i_max /\ i_max <= s_N s /\
  forall i, 0 <= i < s_N s ->
    (i < i_min <-> (s_z s' i <= keep_lo n_guard (moved_grid g n))%R) /\
    (i_max <= i <-> (keep_hi n_guard (moved_grid g n) < s_z s' i)%R).
Proof.
  intros Hg Hsz Hon Hs H1 H2 H3.
  pose proof (rows_split g s s' n_guard n Hg Hsz (near_of_on _ _ Hg Hon) Hs H1 H2 H3) as HR.
  destruct (sorted_main g s s' Hg Hsz (near_of_on _ _ Hg Hon) Hs) as ((Hp & HN & _ & _ & Hz & _) & _).
  destruct (stay_bounds g n_guard (grids_moved n s')) as [i_min i_max].
  destruct HR as (B1 & B2 & B3). split; [exact B1|]. split; [exact B2|]. intros i Hi. destruct (B3 i Hi) as [P Q].
  assert (Hd : (0 < g_dz g)%R) by apply Hg.
  assert (W : wrap (g_Nz g) (izr g (s_z s' i)) = izr g (s_z s' i)).
  { apply on_izr; [exact Hd|]. rewrite Hz by exact Hi. apply Hon. apply perm_index; assumption. }
  rewrite W in P, Q. unfold keep_lo, keep_hi. cbn [moved_grid g_zmin g_dz g_Nz].
  pose proof (izr_le g (s_z s' i) (n_guard + n - 1) Hd) as X. pose proof (izr_gt g (s_z s' i) (g_Nz g - n_guard + n) Hd) as Y.
  rewrite ?minus_IZR, ?plus_IZR, ?minus_IZR in *. split.
  - rewrite P. split; intros K.
    + assert (K' : izr g (s_z s' i) <= n_guard + n - 1) by lia. apply X in K'. lra.
    + assert (K' : izr g (s_z s' i) <= n_guard + n - 1) by (apply X; lra). lia.
  - split; intros K.
    + assert (K' : g_Nz g - n_guard + n < izr g (s_z s' i)) by lia. apply Y in K'. lra.
    + assert (K' : g_Nz g - n_guard + n < izr g (s_z s' i)) by (apply Y; lra). lia.
Qed.

Lemma sort_perm g s s' : 0 <= p_N s < 2 ^ 52 -> ncells g < 2 ^ 52 -> grid_ok g -> near_box g (sort_view s) ->
  sort_particles g (sort_view s) (sort_view s') -> same_shape s s' -> length (p_fields s') = length (p_fields s) ->
  p_N s' = p_N s /\ Permutation (particles s') (particles s).
Proof.
  intros HN Hc Hg Hon Hs Hsh Hf.
  assert (Hsz : sizes_ok g (sort_view s)) by (split; assumption).
  destruct (sorted_main g _ _ Hg Hsz Hon Hs) as ((Hp & HN' & Hx & Hy & Hz & Hfl & Hin) & _).
  cbn [sort_view s_N s_x s_y s_z s_fl s_int s_sidx] in *. set (pi := p_sidx s') in *. split; [exact HN'|].
  assert (E : forall i, 0 <= i < p_N s -> record s' i = record s (pi i)).
  { intros i Hi. unfold record. destruct Hsh as [S1 S2].
    cbn [app] in Hfl. inversion Hfl as [|? ? ? ? A1 T1]; subst. inversion T1 as [|? ? ? ? A2 T2]; subst.
    inversion T2 as [|? ? ? ? A3 T3]; subst. inversion T3 as [|? ? ? ? A4 T4]; subst. inversion T4 as [|? ? ? ? A5 T5]; subst.
    rewrite Hx, Hy, Hz, A1, A2, A3, A4, A5 by exact Hi.
    assert (T6 : Forall2 (fun a a' : Z -> R => forall i : Z, 0 <= i < p_N s -> a' i = a (pi i))
               (olist (option_map snd (p_ion s))) (olist (option_map snd (p_ion s')))).
    { clear - T5 Hf. revert T5 Hf. generalize (p_fields s) (p_fields s'). intros l. induction l as [|a l IH]; intros [|a' l'] T E; try discriminate; [exact T|].
      cbn [app] in T. inversion T; subst. eapply IH; [eassumption|]. cbn [length] in E. lia. }
    destruct (p_id s) as [a|] eqn:E1, (p_id s') as [a'|] eqn:E1'; try (exfalso; intuition congruence);
      (destruct (p_ion s) as [[b c]|] eqn:E2, (p_ion s') as [[b' c']|] eqn:E2'; try (exfalso; intuition congruence));
      cbn [option_map olist app fst snd] in Hin, T6 |- *; f_equal.
    - inversion Hin as [|? ? ? ? I1 _]; subst. rewrite I1 by exact Hi. reflexivity.
    - inversion Hin as [|? ? ? ? _ I2]; subst. inversion I2 as [|? ? ? ? I3 _]; subst. inversion T6 as [|? ? ? ? I4 _]; subst.
      rewrite I3, I4 by exact Hi. reflexivity.
    - inversion Hin as [|? ? ? ? I1 _]; subst. rewrite I1 by exact Hi. reflexivity.
    - inversion Hin as [|? ? ? ? I3 _]; subst. inversion T6 as [|? ? ? ? I4 _]; subst.
      rewrite I3, I4 by exact Hi. reflexivity. }
  unfold particles. rewrite HN'. rewrite (map_ext_in _ (fun i => record s (pi i))).
  - rewrite <- (map_map pi (record s)). apply Permutation_map, Hp.
  - intros i Hi. apply in_range in Hi. apply E, Hi.
Qed.

Definition got (proc : option Z) (l : list part) : list part := match proc with Some _ => l | None => [] end.
Lemma send_buffer tr io proc l : mkBuf (send_rows proc (bf (buffer tr io l))) (send_rows proc (bi (buffer tr io l)))
  = buffer tr io (got proc l).
Proof. unfold send_rows, got. destruct proc; [destruct (buffer tr io l); reflexivity|]. unfold buffer. cbn [bf bi]. destruct tr, io; reflexivity. Qed.

Lemma removed tr io n_guard g s s' lp rp bl br : kind tr io s -> ready n_guard g s ->
  remove_particles_gpu g n_guard lp rp s s' bl br ->
  exists A B C, Permutation (A ++ B ++ C) (particles s) /\
    Forall (fun p => pz p <= keep_lo n_guard g)%R A /\
    Forall (fun p => keep_lo n_guard g < pz p <= keep_hi n_guard g)%R B /\
    Forall (fun p => keep_hi n_guard g < pz p)%R C /\
    kind tr io s' /\ 0 <= p_N s' /\ particles s' = B /\ bl = buffer tr io (got lp A) /\ br = buffer tr io (got rp C).
Proof.
  intros Hk (Hg & HN & Hc & HNz & Hng & Hr) (s1 & He & Hrm).
  assert (M : kind tr io s1 /\ p_N s1 = p_N s /\ Permutation (particles s1) (particles s) /\
    let (i_min, i_max) := stay_bounds g n_guard (sort_view s1) in
    0 <= i_min <= i_max /\ i_max <= p_N s /\
    forall i, 0 <= i < p_N s -> (i < i_min <-> (p_z s1 i <= keep_lo n_guard g)%R) /\ (i_max <= i <-> (keep_hi n_guard g < p_z s1 i)%R)).
  { unfold ensure_sorted in He. destruct (p_sorted s).
    - subst s1. split; [exact Hk|]. split; [reflexivity|]. split; [reflexivity|].
      destruct Hr as (g0 & n & s0 & s1 & Eg & Hn & Hon & Hso & Ev).
      assert (Hg0 : grid_ok g0) by (rewrite Eg in Hg; exact Hg).
      assert (HN0 : s_N s0 = p_N s).
      { destruct Hso as (? & ? & ? & _ & _ & _ & _ & _ & _ & _ & E & _). rewrite <- E. change (s_N s1) with (s_N (grids_moved n s1)). rewrite <- Ev. reflexivity. }
      assert (Hsz : sizes_ok g0 s0) by (split; [rewrite HN0; exact HN|]; rewrite Eg in Hc; exact Hc).
      assert (HNz0 : 2 * n_guard <= g_Nz g0) by (rewrite Eg in HNz; exact HNz).
      pose proof (sorted_split_z g0 s0 s1 n_guard n Hg0 Hsz Hon Hso ltac:(lia) ltac:(lia) HNz0) as HB.
      rewrite Ev, Eg. change (stay_bounds (moved_grid g0 n) n_guard (grids_moved n s1)) with (stay_bounds g0 n_guard (grids_moved n s1)).
      destruct (stay_bounds g0 n_guard (grids_moved n s1)) as [i_min i_max]. rewrite HN0 in HB. destruct HB as (B1 & B2 & B3).
      split; [exact B1|]. split; [exact B2|]. intros i Hi.
      assert (Ez : p_z s i = s_z s1 i) by (change (p_z s i) with (s_z (sort_view s) i); rewrite Ev; reflexivity).
      rewrite Ez. apply B3, Hi.
    - destruct He as (Hso & Hsh & Hf & _). split; [exact (shape_kind _ _ _ _ Hk Hsh)|].
      destruct (sort_perm g s s1 HN Hc Hg (near_of_on g (sort_view s) Hg Hr) Hso Hsh Hf) as [EN Hp]. split; [exact EN|]. split; [exact Hp|].
      assert (Hsz : sizes_ok g (sort_view s)) by (split; assumption).
      pose proof (sorted_split_z g (sort_view s) (sort_view s1) n_guard 0 Hg Hsz Hr Hso ltac:(lia) ltac:(lia) HNz) as HB.
      assert (Em : moved_grid g 0 = g).
      { unfold moved_grid. destruct g as [a b c d e]. cbn [g_zmin g_dz g_Nz g_dr g_Nr]. f_equal. rewrite Rmult_0_l. apply Rplus_0_r. }
      rewrite Em in HB.
      assert (Es : stay_bounds g n_guard (grids_moved 0 (sort_view s1)) = stay_bounds g n_guard (sort_view s1)).
      { unfold stay_bounds, grids_moved. cbn [s_shift s_prefix]. rewrite Z.add_0_r. reflexivity. }
      rewrite Es in HB. exact HB. }
  clear He Hr. destruct M as (Hk1 & EN & Hp & HB). unfold remove_sorted in Hrm.
  destruct (stay_bounds g n_guard (sort_view s1)) as [i_min i_max]. rewrite EN in Hrm. destruct HB as (B1 & B2 & B3).
  destruct Hrm as (fl & fr & il & ir & F & I & -> & -> & Hsh & HN').
  apply split_rows in F; [|assumption..]. apply split_rows in I; [|assumption..].
  destruct F as (-> & -> & F). destruct I as (-> & -> & I).
  assert (Hk' := shape_kind _ _ _ _ Hk1 Hsh).
  exists (map (record s1) (range i_min)), (map (record s1) (map (fun i => i_min + i) (range (i_max - i_min)))),
    (map (record s1) (map (fun i => i_max + i) (range (p_N s - i_max)))).
  split; [|split; [|split; [|split; [|split; [|split; [|split; [|split]]]]]]].
  - rewrite <- Hp. unfold particles. rewrite EN. rewrite <- !map_app. apply Permutation_map.
    replace (p_N s) with (i_min + ((i_max - i_min) + (p_N s - i_max))) at 2 by lia. rewrite range_app by lia.
    rewrite range_app by lia. rewrite map_app. apply Permutation_app_head. apply Permutation_app_head. rewrite map_map.
    erewrite map_ext; [reflexivity|]. intros i. cbn beta. lia.
  - apply Forall_forall. intros p Hin. apply in_map_iff in Hin as (i & <- & Hi). apply in_range in Hi.
    cbn [record pz]. apply (B3 i); lia.
  - apply Forall_forall. intros p Hin. apply in_map_iff in Hin as (i & <- & Hi). apply in_map_iff in Hi as (k & <- & Hi).
    apply in_range in Hi. cbn [record pz]. destruct (B3 (i_min + k) ltac:(lia)) as [X Y]. split.
    + apply Rnot_le_lt. intros K. apply X in K. lia.
    + apply Rnot_lt_le. intros K. apply Y in K. lia.
  - apply Forall_forall. intros p Hin. apply in_map_iff in Hin as (i & <- & Hi). apply in_map_iff in Hi as (k & <- & Hi).
    apply in_range in Hi. cbn [record pz]. apply (B3 (i_max + k)); lia.
  - exact Hk'.
  - lia.
  - apply (buffer_inj tr io); [apply attrs_particles, Hk'|apply kind_all, Hk1|]. unfold particles.
    rewrite !buffer_of by assumption. rewrite HN'.
    assert (G : forall V (l l' : list (Z -> V)), Forall2 (fun a a' => forall i, 0 <= i < i_max - i_min -> a' i = a (i_min + i)) l l' ->
      map (fun a => map a (range (i_max - i_min))) l' = map (fun a => map a (map (fun i => i_min + i) (range (i_max - i_min)))) l).
    { intros V l l' H. induction H as [|a a' l l' E _ IH]; [reflexivity|]. cbn [map]. rewrite IH. f_equal. rewrite map_map.
      apply map_ext_in. intros i Hi. apply in_range in Hi. apply E, Hi. }
    f_equal; apply G; assumption.
  - rewrite <- send_buffer, buffer_of by exact Hk1. reflexivity.
  - rewrite <- send_buffer, buffer_of by exact Hk1. cbn [bf bi]. f_equal; f_equal; apply map_ext; intros a; rewrite map_map; reflexivity.
Qed.

(** ** All the ranks *)
Lemma finite_choice {X} (P : Z -> X -> Prop) (x0 : X) n : 0 <= n -> (forall r, 0 <= r < n -> exists x, P r x) ->
  exists f, forall r, 0 <= r < n -> P r (f r).
Proof.
  intros Hn. pattern n. apply natlike_ind; [| |exact Hn].
  - intros _. exists (fun _ => x0). intros. lia.
  - intros k Hk IH H. unfold Z.succ in *. destruct IH as [f Hf]; [intros; apply H; lia|].
    destruct (H k) as [x Hx]; [lia|]. exists (fun r => if r =? k then x else f r). intros r Hr.
    destruct (Z.eqb_spec r k) as [->|]; [exact Hx|]. apply Hf. lia.
Qed.

Lemma left_right b r size l : 0 <= r < size -> left_proc b r size = Some l -> 0 <= l < size /\ right_proc b l size = Some r.
Proof.
  intros Hr Hl. unfold left_proc in Hl. unfold right_proc.
  destruct b, (Z.eqb_spec r 0); try discriminate; injection Hl as <-;
  (split; [lia|]); match goal with |- context [?x =? ?y] => destruct (Z.eqb_spec x y) end; f_equal; lia.
Qed.
Lemma right_left b r size l : 0 <= r < size -> right_proc b r size = Some l -> 0 <= l < size /\ left_proc b l size = Some r.
Proof.
  intros Hr Hl. unfold right_proc in Hl. unfold left_proc.
  destruct b, (Z.eqb_spec r (size - 1)); try discriminate; injection Hl as <-;
  (split; [lia|]); match goal with |- context [?x =? ?y] => destruct (Z.eqb_spec x y) end; f_equal; lia.
Qed.
Lemma no_particles_buffer tr io l : no_particles (buffer tr io l) = buffer tr io [].
Proof. unfold no_particles, buffer. cbn [bf bi]. destruct tr, io; reflexivity. Qed.

Lemma attrs_perm tr io l l' : Permutation l l' -> Forall (has_attrs tr io) l' -> Forall (has_attrs tr io) l.
Proof. intros Hp H. rewrite Forall_forall in *. intros p Hi. apply H. eapply Permutation_in; eassumption. Qed.

Lemma ranks tr io b size n_guard L g inj S S' :
  1 <= size -> (inj <> None -> b = Open) ->
  (forall r, 0 <= r < size -> kind tr io (S r) /\ ready n_guard (g r) (S r) /\ p_N (S r) < 2 ^ 50) ->
  (forall l, inj = Some l -> Forall (has_attrs tr io) l /\ Z.of_nat (length l) < 2 ^ 50) ->
  exchange_particles b size n_guard L g (option_map (buffer tr io) inj) S S' ->
  exists A B C : Z -> list part, forall r, 0 <= r < size ->
    Permutation (A r ++ B r ++ C r) (particles (S r)) /\
    Forall (fun p => pz p <= keep_lo n_guard (g r))%R (A r) /\
    Forall (fun p => keep_lo n_guard (g r) < pz p <= keep_hi n_guard (g r))%R (B r) /\
    Forall (fun p => keep_hi n_guard (g r) < pz p)%R (C r) /\
    kind tr io (S' r) /\ p_sorted (S' r) = false /\
    particles (S' r) = fromL b size L C r ++ B r ++ fromR b size L A r ++ injected size inj r.
Proof.
  intros Hs Hinj HS Hi (stay & sl & sr & Hrm & Hadd).
  destruct (finite_choice (fun r (x : list part * list part * list part) => let '(A, B, C) := x in
     Permutation (A ++ B ++ C) (particles (S r)) /\
    Forall (fun p => pz p <= keep_lo n_guard (g r))%R A /\
    Forall (fun p => keep_lo n_guard (g r) < pz p <= keep_hi n_guard (g r))%R B /\
    Forall (fun p => keep_hi n_guard (g r) < pz p)%R C /\
    kind tr io (stay r) /\ 0 <= p_N (stay r) /\ particles (stay r) = B /\
    sl r = buffer tr io (got (left_proc b r size) A) /\ sr r = buffer tr io (got (right_proc b r size) C)) ([], [], []) size) as [f Hf].
  { lia. }
  { intros r Hr. destruct (HS r Hr) as (K & Rd & _).
    destruct (removed tr io _ _ _ _ _ _ _ _ K Rd (Hrm r Hr)) as (A & B & C & H). exists (A, B, C). exact H. }
  set (A := fun r => fst (fst (f r))). set (B := fun r => snd (fst (f r))). set (C := fun r => snd (f r)). exists A, B, C.
  assert (Hf' : forall r, 0 <= r < size -> Permutation (A r ++ B r ++ C r) (particles (S r)) /\
    Forall (fun p => pz p <= keep_lo n_guard (g r))%R (A r) /\
    Forall (fun p => keep_lo n_guard (g r) < pz p <= keep_hi n_guard (g r))%R (B r) /\
    Forall (fun p => keep_hi n_guard (g r) < pz p)%R (C r) /\
    kind tr io (stay r) /\ 0 <= p_N (stay r) /\ particles (stay r) = B r /\
    sl r = buffer tr io (got (left_proc b r size) (A r)) /\ sr r = buffer tr io (got (right_proc b r size) (C r))).
  { intros r Hr. specialize (Hf r Hr). unfold A, B, C. destruct (f r) as [[x y] w]. exact Hf. }
  clear Hf Hrm. clearbody A B C. 
  assert (Hat : forall r, 0 <= r < size -> Forall (has_attrs tr io) (A r) /\ Forall (has_attrs tr io) (C r) /\
     Z.of_nat (length (A r)) < 2 ^ 50 /\ Z.of_nat (length (C r)) < 2 ^ 50 /\ p_N (stay r) < 2 ^ 50).
  { intros r Hr. destruct (Hf' r Hr) as (P & _ & _ & _ & _ & Hst & E & _). destruct (HS r Hr) as (K & Rd & Hb).
    pose proof (attrs_perm tr io _ _ P (attrs_particles _ _ _ K)) as At. rewrite !Forall_app in At.
    pose proof (Permutation_length P) as Ln. rewrite !app_length in Ln.
    assert (0 <= p_N (S r)) by apply Rd. pose proof (particles_len (S r) ltac:(lia)).
    pose proof (particles_len (stay r) Hst) as L2. rewrite E in L2.
    split; [apply At|]. split; [apply At|]. lia. }
  intros r Hr. destruct (Hf' r Hr) as (P & HA & HB & HC & K & Hst & EB & Esl & Esr).
  split; [exact P|]. split; [exact HA|]. split; [exact HB|]. split; [exact HC|].
  specialize (Hadd r Hr). cbv zeta in Hadd.
  match type of Hadd with add_buffers_gpu _ ?X ?Y _ => set (bl := X) in *; set (br := Y) in * end.
  assert (EL : bl = buffer tr io (fromL b size L C r)).
  { unfold bl, fromL. destruct (left_proc b r size) as [l|] eqn:El.
    - destruct (left_right b r size l Hr El) as [Hl Er]. destruct (Hf' l Hl) as (_ & _ & _ & _ & _ & _ & _ & _ & ->).
      rewrite Er. cbn [got]. destruct (l =? size - 1); [apply shift_ok|reflexivity].
    - rewrite Esl. apply no_particles_buffer. }
  assert (ER : br = buffer tr io (fromR b size L A r ++ injected size inj r)).
  { unfold br, fromR. destruct inj as [nw|].
    - assert (b = Open) as -> by (apply Hinj; congruence). cbn [option_map injected]. unfold right_proc.
      destruct (Z.eqb_spec r (size - 1)) as [He|Hne]; [reflexivity|]. rewrite app_nil_r.
      assert (Hq : right_proc Open r size = Some (r + 1)) by (unfold right_proc; destruct (Z.eqb_spec r (size - 1)); [lia|reflexivity]).
      destruct (right_left Open r size (r + 1) Hr Hq) as [Hl Er].
      destruct (Hf' (r + 1) Hl) as (_ & _ & _ & _ & _ & _ & _ & -> & _). rewrite Er. cbn [got].
      destruct (r + 1 =? 0); [apply shift_ok|reflexivity].
    - cbn [option_map injected]. rewrite app_nil_r. destruct (right_proc b r size) as [q|] eqn:Eq.
      + destruct (right_left b r size q Hr Eq) as [Hl Er]. destruct (Hf' q Hl) as (_ & _ & _ & _ & _ & _ & _ & -> & _). rewrite Er. cbn [got].
        destruct (q =? 0); [apply shift_ok|reflexivity].
      + rewrite Esl. apply no_particles_buffer. }
  rewrite EL, ER in Hadd.
  assert (FL : Forall (has_attrs tr io) (fromL b size L C r) /\ Z.of_nat (length (fromL b size L C r)) < 2 ^ 50).
  { unfold fromL. destruct (left_proc b r size) as [l|] eqn:El; [|split; [constructor|cbn; lia]].
    destruct (left_right b r size l Hr El) as [Hl _]. destruct (Hat l Hl) as (_ & X & _ & Y & _).
    destruct (l =? size - 1); [|auto]. rewrite map_length. split; [|exact Y]. apply attrs_map; [|exact X]. intros p. apply attrs_moved. }
  assert (FR : Forall (has_attrs tr io) (fromR b size L A r) /\ Z.of_nat (length (fromR b size L A r)) < 2 ^ 50).
  { unfold fromR. destruct (right_proc b r size) as [l|] eqn:El; [|split; [constructor|cbn; lia]].
    destruct (right_left b r size l Hr El) as [Hl _]. destruct (Hat l Hl) as (X & _ & Y & _).
    destruct (l =? 0); [|auto]. rewrite map_length. split; [|exact Y]. apply attrs_map; [|exact X]. intros p. apply attrs_moved. }
  assert (FI : Forall (has_attrs tr io) (injected size inj r) /\ Z.of_nat (length (injected size inj r)) < 2 ^ 50).
  { unfold injected. destruct inj as [l|]; [|split; [constructor|cbn; lia]]. destruct (r =? size - 1); [apply Hi; reflexivity|split; [constructor|cbn; lia]]. }
  destruct (Hat r Hr) as (_ & _ & _ & _ & Hst2).
  apply add_particles with (tr := tr) (io := io) in Hadd; [|exact K|exact Hst|rewrite app_length; lia|apply FL|].
  - destruct Hadd as (K' & So & Ep). rewrite EB in Ep. auto.
  - apply Forall_app. split; [apply FR|apply FI].
Qed.

Lemma destiny_left b size L lo hi r l : Forall (fun p => pz p <= lo r)%R l ->
  flat_map (destiny b size L lo hi r) l = toL b L (fun _ => l) r.
Proof.
  intros H. unfold toL. induction H as [|p l Hp _ IH].
  - destruct (r =? 0), b; reflexivity.
  - cbn [flat_map]. rewrite IH. unfold destiny. destruct (Rle_dec (pz p) (lo r)); [|lra].
    destruct (r =? 0); [|reflexivity]. destruct b; reflexivity.
Qed.
Lemma destiny_right b size L lo hi r l : (lo r <= hi r)%R -> Forall (fun p => hi r < pz p)%R l ->
  flat_map (destiny b size L lo hi r) l = toR b size L (fun _ => l) r.
Proof.
  intros Hlh H. unfold toR. induction H as [|p l Hp _ IH].
  - destruct (r =? size - 1), b; reflexivity.
  - cbn [flat_map]. rewrite IH. unfold destiny. destruct (Rle_dec (pz p) (lo r)); [lra|].
    destruct (Rlt_dec (hi r) (pz p)); [|lra]. destruct (r =? size - 1); [|reflexivity]. destruct b; reflexivity.
Qed.
Lemma destiny_stay b size L lo hi r l : Forall (fun p => lo r < pz p <= hi r)%R l ->
  flat_map (destiny b size L lo hi r) l = l.
Proof.
  intros H. induction H as [|p l Hp _ IH]; [reflexivity|]. cbn [flat_map]. rewrite IH. unfold destiny.
  destruct (Rle_dec (pz p) (lo r)); [lra|]. destruct (Rlt_dec (hi r) (pz p)); [lra|reflexivity].
Qed.
Lemma flat_map_perm {X Y} (f : X -> list Y) l l' : Permutation l l' -> Permutation (flat_map f l) (flat_map f l').
Proof. intros H. rewrite !flat_map_concat_map. induction H; cbn; [reflexivity|apply Permutation_app_head, IHPermutation| |etransitivity; eassumption].
  rewrite !app_assoc. apply Permutation_app_tail, Permutation_app_comm. Qed.
Lemma flat_map_perm_ext {X Y} (f g : X -> list Y) l : (forall x, In x l -> Permutation (f x) (g x)) -> Permutation (flat_map f l) (flat_map g l).
Proof. induction l as [|x l IH]; intros H; [reflexivity|]. cbn. apply Permutation_app; [apply H; left; reflexivity|apply IH; intros; apply H; right; assumption]. Qed.

Lemma conserved tr io b size n_guard L g inj S S' :
  1 <= size -> (b = Periodic -> 2 <= size) -> (inj <> None -> b = Open) ->
  (forall r, 0 <= r < size -> kind tr io (S r) /\ ready n_guard (g r) (S r) /\ p_N (S r) < 2 ^ 50) ->
  (forall l, inj = Some l -> Forall (has_attrs tr io) l /\ Z.of_nat (length l) < 2 ^ 50) ->
  exchange_particles b size n_guard L g (option_map (buffer tr io) inj) S S' ->
  (forall r, 0 <= r < size -> kind tr io (S' r) /\ p_sorted (S' r) = false) /\
  Permutation (all_ranks size (fun r => particles (S' r)))
    (all_ranks size (fun r => flat_map (destiny b size L (fun q => keep_lo n_guard (g q)) (fun q => keep_hi n_guard (g q)) r) (particles (S r)))
     ++ match inj with Some l => l | None => [] end).
Proof.
  intros Hs Hper Hinj HS Hi He. destruct (ranks tr io b size n_guard L g inj S S' Hs Hinj HS Hi He) as (A & B & C & H).
  split; [intros r Hr; split; apply (H r Hr)|].
  unfold all_ranks. set (lo := fun q => keep_lo n_guard (g q)). set (hi := fun q => keep_hi n_guard (g q)).
  rewrite (flat_map_ext_in _ (fun r => fromL b size L C r ++ B r ++ fromR b size L A r ++ injected size inj r)).
  2:{ intros r Hr. apply in_range in Hr. apply (H r Hr). }
  rewrite !flat_map_app_perm. rewrite (reindex_R b size L (fun _ => 0%R) (fun _ => 0%R) (fun i => i) (fun r _ => Rle_refl 0) C Hs Hper), (reindex_L b size L (fun _ => 0%R) (fun _ => 0%R) (fun i => i) (fun r _ => Rle_refl 0) A Hs Hper).
  assert (EI : flat_map (injected size inj) (range size) = match inj with Some l => l | None => [] end).
  { unfold injected. destruct inj as [l|]; [|apply flat_map_nil]. assert (Er : range size = range (size - 1) ++ [size - 1]).
    { rewrite <- range_succ by lia. f_equal. lia. }
    rewrite Er, flat_map_app. cbn [flat_map]. rewrite Z.eqb_refl, app_nil_r.
    rewrite (flat_map_ext_in _ (fun _ => [])); [rewrite flat_map_nil; reflexivity|]. intros x Hx. apply in_range in Hx.
    destruct (Z.eqb_spec x (size - 1)); [lia|reflexivity]. }
  rewrite EI. rewrite !app_assoc. apply Permutation_app_tail. rewrite <- !app_assoc.
  symmetry. transitivity (flat_map (fun r => toR b size L C r ++ B r ++ toL b L A r) (range size)).
  - apply flat_map_perm_ext. intros r Hr. apply in_range in Hr. destruct (H r Hr) as (P & HA & HB & HC & _).
    rewrite <- (flat_map_perm _ _ _ P). rewrite !flat_map_app.
    rewrite (destiny_left b size L lo hi r (A r) HA), (destiny_stay b size L lo hi r (B r) HB).
    rewrite (destiny_right b size L lo hi r (C r)) by (try exact HC; unfold lo, hi, keep_lo, keep_hi;
      destruct (HS r Hr) as (_ & (Hg & _ & _ & HNz & _) & _); assert (0 < g_dz (g r))%R by apply Hg;
      assert (IZR n_guard <= IZR (g_Nz (g r) - n_guard))%R by (apply IZR_le; lia); nra).
    unfold toL, toR. rewrite Permutation_app_comm, <- app_assoc. 
    rewrite (app_assoc (B r)), (Permutation_app_comm (B r)), <- app_assoc. reflexivity.
  - rewrite !flat_map_app_perm. reflexivity.
Qed.

Lemma ready_range n_guard g s p : ready n_guard g s -> In p (particles s) ->
  (g_zmin g - (IZR n_guard - / 2) * g_dz g < pz p <= g_zmin g + (IZR (g_Nz g + n_guard) - / 2) * g_dz g)%R.
Proof.
  intros (Hg & HN & Hc & HNz & Hng & Hr) Hp. apply in_map_iff in Hp as (i & <- & Hi). apply in_range in Hi. cbn [record pz].
  assert (Hd : (0 < g_dz g)%R) by apply Hg. apply IZR_le in Hng. rewrite plus_IZR.
  destruct (p_sorted s).
  - destruct Hr as (g0 & n & s0 & s1 & -> & Hn & Hon & Hso & Ev). cbn [moved_grid g_zmin g_dz g_Nz] in *.
    assert (HN0 : s_N s0 = p_N s).
    { destruct Hso as (? & ? & ? & _ & _ & _ & _ & _ & _ & _ & E & _). rewrite <- E. change (s_N s1) with (s_N (grids_moved n s1)). rewrite <- Ev. reflexivity. }
    assert (Hsz : sizes_ok g0 s0) by (split; [rewrite HN0; exact HN|exact Hc]).
    destruct (sorted_main g0 s0 s1 Hg Hsz (near_of_on g0 s0 Hg Hon) Hso) as ((Hp & _ & _ & _ & Hz & _) & _).
    assert (Ez : p_z s i = s_z s1 i) by (change (p_z s i) with (s_z (sort_view s) i); rewrite Ev; reflexivity).
    rewrite Ez, Hz by lia. assert (Hpi : 0 <= s_sidx s1 i < s_N s0) by (apply perm_index; [exact Hp|lia]). destruct (Hon _ Hpi) as [X Y].
    assert (- IZR n_guard <= IZR n <= IZR n_guard - 1)%R.
    { rewrite <- opp_IZR, <- minus_IZR. split; apply IZR_le; lia. }
    split; nra.
  - destruct (Hr i Hi) as [X Y]. split; nra.
Qed.

Lemma inside tr io b size n_guard L g inj S S' :
  1 <= size -> (b = Periodic -> 2 <= size) -> (inj <> None -> b = Open) ->
  (forall r, 0 <= r < size -> kind tr io (S r) /\ ready n_guard (g r) (S r) /\ p_N (S r) < 2 ^ 50 /\ 4 * n_guard <= g_Nz (g r)) ->
  (forall l, inj = Some l -> Forall (has_attrs tr io) l /\ Z.of_nat (length l) < 2 ^ 50) ->
  contiguous n_guard b size L g ->
  exchange_particles b size n_guard L g (option_map (buffer tr io) inj) S S' ->
  forall r, 0 <= r < size -> exists Q, particles (S' r) = Q ++ injected size inj r /\
    forall p, In p Q -> (keep_lo n_guard (g r) < pz p <= keep_hi n_guard (g r))%R.
Proof.
  intros Hs Hper Hinj HS Hi Hct He r Hr.
  assert (HS' : forall r, 0 <= r < size -> kind tr io (S r) /\ ready n_guard (g r) (S r) /\ p_N (S r) < 2 ^ 50).
  { intros q Hq. destruct (HS q Hq) as (X & Y & W & _). auto. }
  destruct (ranks tr io b size n_guard L g inj S S' Hs Hinj HS' Hi He) as (A & B & C & H).
  assert (Hin : forall q p, 0 <= q < size -> In p (A q) \/ In p (C q) -> In p (particles (S q))).
  { intros q p Hq Hp. destruct (H q Hq) as (P & _). eapply Permutation_in; [exact P|]. rewrite !in_app_iff. tauto. }
  destruct (H r Hr) as (_ & _ & HB & _ & _ & _ & E). exists (fromL b size L C r ++ B r ++ fromR b size L A r).
  split; [rewrite E, <- !app_assoc; reflexivity|]. intros p Hp. rewrite !in_app_iff in Hp.
  destruct (HS r Hr) as (_ & Rr & _ & H4r).
  assert (Hdr : (0 < g_dz (g r))%R) by apply Rr.
  assert (Hng : (1 <= IZR n_guard)%R) by (apply IZR_le; apply Rr).
  destruct Hp as [Hp|[Hp|Hp]].
  - apply in_fromL in Hp as (l & q & El & Hq & Ep). destruct (left_right b r size l Hr El) as [Hl Er].
    destruct (H l Hl) as (_ & _ & _ & HC & _). rewrite Forall_forall in HC. specialize (HC q Hq).
    destruct (HS l Hl) as (_ & Rl & _ & H4l). pose proof (ready_range _ _ _ _ Rl (Hin l q Hl (or_intror Hq))) as [_ Z2].
    destruct (Hct l r Hl Er) as [Ed Ez]. unfold keep_lo, keep_hi in *. rewrite Ed in *.
    assert (Epz : pz p = if r =? 0 then (pz q - L)%R else pz q).
    { subst p. unfold left_proc in El. destruct (Z.eqb_spec r 0) as [->|Hne].
      - destruct b; [|discriminate]. injection El as <-. rewrite Z.eqb_refl. cbn [moved pz]. lra.
      - assert (l = r - 1) as -> by (destruct b; congruence). destruct (Z.eqb_spec (r - 1) (size - 1)); [lia|reflexivity]. }
    rewrite Epz. apply IZR_le in H4r. rewrite ?minus_IZR, ?plus_IZR, ?mult_IZR in *.
    assert (Er0 : (g_zmin (g r) = g_zmin (g l) + (IZR (g_Nz (g l)) - 2 * IZR n_guard) * g_dz (g l) - (if r =? 0 then L else 0))%R) by lra.
    clear Ez. destruct (r =? 0); split; nra.
  - rewrite Forall_forall in HB. apply HB, Hp.
  - apply in_fromR in Hp as (l & q & El & Hq & Ep). destruct (right_left b r size l Hr El) as [Hl Er].
    destruct (H l Hl) as (_ & HA & _). rewrite Forall_forall in HA. specialize (HA q Hq).
    destruct (HS l Hl) as (_ & Rl & _ & H4l). pose proof (ready_range _ _ _ _ Rl (Hin l q Hl (or_introl Hq))) as [Z1 _].
    destruct (Hct r l Hr El) as [Ed Ez]. unfold keep_lo, keep_hi in *. rewrite Ed in *.
    assert (Epz : pz p = if l =? 0 then (pz q + L)%R else pz q).
    { subst p. destruct (l =? 0); reflexivity. }
    rewrite Epz. apply IZR_le in H4r. rewrite ?minus_IZR, ?plus_IZR, ?mult_IZR in *.
    assert (Er0 : (g_zmin (g l) = g_zmin (g r) + (IZR (g_Nz (g r)) - 2 * IZR n_guard) * g_dz (g r) - (if l =? 0 then L else 0))%R) by lra.
    clear Ez. destruct (l =? 0); split; nra.
Qed.

(** ** Executions exist *)
Fixpoint kinsert (c : Z -> Z) (a : Z) (l : list Z) : list Z :=
  match l with [] => [a] | b :: l' => if c a <=? c b then a :: l else b :: kinsert c a l' end.
Lemma kinsert_perm c a l : Permutation (kinsert c a l) (a :: l).
Proof.
  induction l as [|b l IH]; cbn; [reflexivity|]. destruct (c a <=? c b); [reflexivity|]. rewrite IH. apply perm_swap.
Qed.
Fixpoint ksorted (c : Z -> Z) (l : list Z) : Prop :=
  match l with [] => True | a :: l' => Forall (fun b => c a <= c b) l' /\ ksorted c l' end.
Lemma kinsert_sorted c a l : ksorted c l -> ksorted c (kinsert c a l).
Proof.
  induction l as [|b l IH]; cbn; [auto|]. intros [H1 H2]. destruct (Z.leb_spec (c a) (c b)).
  - cbn. split; [|auto]. constructor; [assumption|]. eapply Forall_impl; [|exact H1]. cbn. intros. lia.
  - cbn. split; [|auto]. apply Forall_forall. intros x Hx. apply (Permutation_in _ (kinsert_perm c a l)) in Hx.
    destruct Hx as [<-|Hx]; [lia|]. rewrite Forall_forall in H1. apply H1, Hx.
Qed.
Lemma argsort_exists (c : Z -> Z) N : 0 <= N -> exists f, Permutation (map f (range N)) (range N) /\
  forall i j, 0 <= i <= j /\ j < N -> c (f i) <= c (f j).
Proof.
  intros HN. set (l := fold_right (kinsert c) [] (range N)).
  assert (Hp : Permutation l (range N)).
  { unfold l. induction (range N) as [|a r IH]; cbn; [reflexivity|]. rewrite kinsert_perm, IH. reflexivity. }
  assert (Hs : ksorted c l).
  { unfold l. clear. induction (range N) as [|a r IH]; cbn; [exact I|]. apply kinsert_sorted, IH. }
  assert (Hl : length l = Z.to_nat N) by (rewrite (Permutation_length Hp), length_range; reflexivity).
  exists (fun i => nth (Z.to_nat i) l 0). split.
  - assert (E : map (fun i => nth (Z.to_nat i) l 0) (range N) = l).
    { unfold range, zrange. rewrite map_map, <- Hl. clear. induction l as [|a l IH]; [reflexivity|]. cbn [length seq map].
      f_equal. rewrite <- seq_shift, map_map. rewrite <- IH at 2. apply map_ext. intros k. rewrite !Nat2Z.id. reflexivity. }
    rewrite E. exact Hp.
  - intros i j Hij. clear Hp. assert (G : forall l, ksorted c l -> forall a b, (a <= b < length l)%nat -> c (nth a l 0) <= c (nth b l 0)).
    { clear. induction l as [|x l IH]; intros Hs a b Hab; [cbn in Hab; lia|]. destruct Hs as [H1 H2]. cbn [length] in Hab.
      destruct a, b; cbn [nth]; [lia| |lia|apply IH; [exact H2|lia]].
      rewrite Forall_forall in H1. apply H1, nth_In. lia. }
    apply G; [exact Hs|lia].
Qed.

Lemma sort_exists g s : 0 <= p_N s -> p_fields s = [] -> exists s',
  sort_particles g (sort_view s) (sort_view s') /\ same_shape s s' /\ length (p_fields s') = length (p_fields s) /\ p_sorted s' = true.
Proof.
  intros HN Hf. set (N := p_N s) in *. set (n := g_Nz g * (g_Nr g + 1)).
  set (cell1 := launch N (get_cell_idx g N (p_x s) (p_y s) (p_z s)) (p_cell s)).
  destruct (argsort_exists cell1 N HN) as (f & Hp & Hs).
  set (cell' := fun i => cell1 (f i)).
  set (p1 := launch n (prefill_prefix_sum n N cell') (p_prefix s)).
  set (p2 := launch N (incl_prefix_sum N cell') p1).
  set (mv := fun (a buf : Z -> R) => launch N (write_sorting_buffer N f a) buf).
  set (mi := fun (a buf : Z -> Z) => launch N (write_sorting_buffer N f a) buf).
  set (x' := mv (p_x s) (p_buf s)). set (y' := mv (p_y s) (p_x s)). set (z' := mv (p_z s) (p_y s)).
  set (ux' := mv (p_ux s) (p_z s)). set (uy' := mv (p_uy s) (p_ux s)). set (uz' := mv (p_uz s) (p_uy s)).
  set (w' := mv (p_w s) (p_uz s)). set (ig' := mv (p_ig s) (p_w s)).
  set (id' := option_map (fun a => mi a (p_ibuf s)) (p_id s)).
  set (ib1 := match p_id s with Some a => a | None => p_ibuf s end).
  set (ion' := option_map (fun a => (mi (fst a) ib1, mv (snd a) (p_ig s))) (p_ion s)).
  exists (mk_gsp N x' y' z' ux' uy' uz' ig' w' [] id' ion' true cell' f p2 0
    (match p_ion s with Some a => snd a | None => p_ig s end) (match p_ion s with Some a => fst a | None => ib1 end)).
  split; [|split; [|split; [rewrite Hf; reflexivity|reflexivity]]].
  - exists cell1, (launch N (reset_sorted_idx N) (p_sidx s)), p1.
    cbn [sort_view s_N s_x s_y s_z s_fl s_int s_cell s_sidx s_prefix s_shift s_buf s_ibuf p_N p_x p_y p_z p_ux p_uy p_uz p_ig p_w p_fields p_id p_ion p_cell p_sidx p_prefix p_shift p_buf p_ibuf].
    fold N n. rewrite Hf. split; [apply launch_launched|]. split; [apply launch_launched|]. split; [split; [exact Hp|split; [reflexivity|exact Hs]]|].
    split; [apply launch_launched|]. split; [apply launch_launched|].
    split; [|split; [|split; reflexivity]].
    + cbn [app]. do 8 (eapply rearr_cons; [apply launch_launched|]).
      unfold ion'. destruct (p_ion s) as [[b c]|]; cbn [option_map olist fst snd]; [|constructor].
      eapply rearr_cons; [apply launch_launched|constructor].
    + unfold id', ion', ib1. destruct (p_id s) as [a|], (p_ion s) as [[b c]|]; cbn [option_map olist app fst snd];
        repeat (eapply rearr_cons; [apply launch_launched|]); constructor.
  - unfold same_shape. cbn [p_id p_ion]. unfold id', ion'. destruct (p_id s), (p_ion s); cbn; intuition congruence.
Qed.

Definition cut {V} (N i_min i_max : Z) (a : Z -> V) : Z -> V := launch N (split_stay i_min i_max a) a.
Lemma cut_exists {V} N i_min i_max (l : list (Z -> V)) : exists rl rr, split_attrs N i_min i_max l (map (cut N i_min i_max) l) rl rr.
Proof.
  induction l as [|a l (rl & rr & IH)]; [exists [], []; constructor|]. eexists (_ :: rl), (_ :: rr). cbn [map]. constructor; [|exact IH].
  unfold split_attr. exists a, a, a. eexists. eexists. split; [apply launch_launched|]. split; [apply launch_launched|]. split; [apply launch_launched|].
  split; reflexivity.
Qed.
Lemma remove_exists g n_guard lp rp s : 0 <= p_N s -> p_fields s = [] -> p_sorted s = false ->
  exists s' bl br, remove_particles_gpu g n_guard lp rp s s' bl br.
Proof.
  intros HN Hf Hso. destruct (sort_exists g s HN Hf) as (s1 & H1 & H2 & H3 & H4).
  unfold remove_particles_gpu, ensure_sorted, remove_sorted.
  destruct (stay_bounds g n_guard (sort_view s1)) as [i_min i_max] eqn:E.
  destruct (cut_exists (p_N s1) i_min i_max (float_attrs s1)) as (fl & fr & F).
  destruct (cut_exists (p_N s1) i_min i_max (int_attrs s1)) as (il & ir & I).
  set (c := cut (V := R) (p_N s1) i_min i_max) in *. set (ci := cut (V := Z) (p_N s1) i_min i_max) in *.
  exists (mk_gsp (i_max - i_min) (c (p_x s1)) (c (p_y s1)) (c (p_z s1)) (c (p_ux s1)) (c (p_uy s1)) (c (p_uz s1)) (c (p_ig s1)) (c (p_w s1))
    [] (option_map ci (p_id s1)) (option_map (fun a => (ci (fst a), c (snd a))) (p_ion s1)) true
    (p_cell s1) (p_sidx s1) (p_prefix s1) (p_shift s1) (p_buf s1) (p_ibuf s1)).
  exists (mkBuf (send_rows lp fl) (send_rows lp il)), (mkBuf (send_rows rp fr) (send_rows rp ir)).
  exists s1. split; [rewrite Hso; auto|]. rewrite E. exists fl, fr, il, ir.
  assert (Ef : map c (float_attrs s1) = float_attrs (mk_gsp (i_max - i_min) (c (p_x s1)) (c (p_y s1)) (c (p_z s1)) (c (p_ux s1)) (c (p_uy s1)) (c (p_uz s1)) (c (p_ig s1)) (c (p_w s1))
    [] (option_map ci (p_id s1)) (option_map (fun a => (ci (fst a), c (snd a))) (p_ion s1)) true
    (p_cell s1) (p_sidx s1) (p_prefix s1) (p_shift s1) (p_buf s1) (p_ibuf s1))).
  { unfold float_attrs. rewrite map_app. cbn [map p_x p_y p_z p_ux p_uy p_uz p_ig p_w p_ion]. f_equal. destruct (p_ion s1) as [[b d]|]; reflexivity. }
  assert (Ei : map ci (int_attrs s1) = int_attrs (mk_gsp (i_max - i_min) (c (p_x s1)) (c (p_y s1)) (c (p_z s1)) (c (p_ux s1)) (c (p_uy s1)) (c (p_uz s1)) (c (p_ig s1)) (c (p_w s1))
    [] (option_map ci (p_id s1)) (option_map (fun a => (ci (fst a), c (snd a))) (p_ion s1)) true
    (p_cell s1) (p_sidx s1) (p_prefix s1) (p_shift s1) (p_buf s1) (p_ibuf s1))).
  { unfold int_attrs. rewrite map_app. cbn [p_id p_ion]. destruct (p_id s1), (p_ion s1) as [[b d]|]; reflexivity. }
  split; [rewrite <- Ef; exact F|]. split; [rewrite <- Ei; exact I|]. split; [reflexivity|]. split; [reflexivity|].
  split; [|reflexivity]. unfold same_shape. cbn [p_id p_ion]. destruct (p_id s1), (p_ion s1); cbn; intuition congruence.
Qed.

Definition glue {V} (d : V) nl no nr (l : list V) (stay : Z -> V) (r : list V) : Z -> V :=
  let t1 := if negb (nl =? 0) then launch nl (copy_particles nl (asarray d l) 0 0) stay else stay in
  let t2 := if negb (no =? 0) then launch no (copy_particles no stay 0 nl) t1 else t1 in
  if negb (nr =? 0) then launch nr (copy_particles nr (asarray d r) 0 (nl + no)) t2 else t2.
Lemma glue_ok {V} (d : V) nl no nr l stay r : merge_attr d nl no nr l stay r (glue d nl no nr l stay r).
Proof.
  unfold merge_attr, glue, copy_if. cbv zeta. exists stay. eexists. eexists. split; [|split].
  - instantiate (1 := if negb (nl =? 0) then _ else _). destruct (negb (nl =? 0)); [apply launch_launched|reflexivity].
  - instantiate (1 := if negb (no =? 0) then _ else _). destruct (negb (no =? 0)); [apply launch_launched|reflexivity].
  - destruct (negb (nr =? 0)); [apply launch_launched|reflexivity].
Qed.
Lemma add_exists tr io s L Rr : kind tr io s -> exists s', add_buffers_gpu s (buffer tr io L) (buffer tr io Rr) s'.
Proof.
  intros [K1 K2]. set (nl := columns (buffer tr io L)). set (nr := columns (buffer tr io Rr)).
  set (G := fun (f : part -> R) a => glue 0%R nl (p_N s) nr (map f L) a (map f Rr)).
  set (H := fun (f : part -> Z) a => glue 0 nl (p_N s) nr (map f L) a (map f Rr)).
  exists (mk_gsp (p_N s + nl + nr) (G px (p_x s)) (G py (p_y s)) (G pz (p_z s)) (G pux (p_ux s)) (G puy (p_uy s)) (G puz (p_uz s))
     (G pig (p_ig s)) (G pw (p_w s)) [] (option_map (H pid0) (p_id s)) (option_map (fun a => (H plev (fst a), G pwl (snd a))) (p_ion s))
     false (p_cell s) (p_sidx s) (p_prefix s) (p_shift s) (p_buf s) (p_ibuf s)).
  unfold add_buffers_gpu. fold nl nr. unfold buffer. cbn [bf bi].
  unfold float_attrs, int_attrs, same_shape. cbn [p_N p_x p_y p_z p_ux p_uy p_uz p_ig p_w p_id p_ion p_sorted app].
  split; [|split; [|split; [|split; reflexivity]]].
  - do 8 (constructor; [apply glue_ok|]). destruct io; [|rewrite K2; constructor]. destruct (p_ion s) as [[b c]|]; [|congruence].
    cbn [option_map olist fst snd]. constructor; [apply glue_ok|constructor].
  - destruct tr, io; destruct (p_id s) as [a|]; try congruence; (destruct (p_ion s) as [[b c]|]; try congruence);
      cbn [option_map olist fst snd app]; repeat (constructor; [apply glue_ok|]); constructor.
  - destruct (p_id s), (p_ion s); cbn; intuition congruence.
Qed.

Lemma exchange_exists tr io b size n_guard L g inj S : 1 <= size -> (inj <> None -> b = Open) ->
  (forall r, 0 <= r < size -> kind tr io (S r) /\ ready n_guard (g r) (S r) /\ p_sorted (S r) = false /\ p_fields (S r) = []) ->
  exists S', exchange_particles b size n_guard L g (option_map (buffer tr io) inj) S S'.
Proof.
  intros Hs Hinj HS.
  destruct (finite_choice (fun r (x : gsp * buf * buf) => 
     remove_particles_gpu (g r) n_guard (left_proc b r size) (right_proc b r size) (S r) (fst (fst x)) (snd (fst x)) (snd x)) (S 0, mkBuf [] [], mkBuf [] []) size) as [f Hf].
  { lia. }
  { intros r Hr. destruct (HS r Hr) as (K & Rd & So & Fd). assert (H0 : 0 <= p_N (S r)) by apply Rd.
    destruct (remove_exists (g r) n_guard (left_proc b r size) (right_proc b r size) (S r) H0 Fd So) as (s' & bl & br & H). exists (s', bl, br). exact H. }
  assert (Hb : forall r, 0 <= r < size -> kind tr io (fst (fst (f r))) /\ exists A C, snd (fst (f r)) = buffer tr io A /\ snd (f r) = buffer tr io C).
  { intros r Hr. destruct (HS r Hr) as (K & Rd & _). destruct (removed tr io _ _ _ _ _ _ _ _ K Rd (Hf r Hr)) as (A & B & C & _ & _ & _ & _ & X & _ & _ & Y & W).
    split; [exact X|]. eexists. eexists. split; [exact Y|exact W]. }
  destruct (finite_choice (fun r (s' : gsp) =>
       let recv_left := match left_proc b r size with Some l => snd (f l) | None => no_particles (snd (fst (f r))) end in
       let recv_right := match right_proc b r size with Some q => snd (fst (f q)) | None => no_particles (snd (fst (f r))) end in
       let recv_right := match option_map (buffer tr io) inj with Some nw => if r =? size - 1 then nw else recv_right | None => recv_right end in
       let recv_right := match right_proc b r size with Some q => if q =? 0 then shift_z L recv_right else recv_right | None => recv_right end in
       let recv_left := match left_proc b r size with Some l => if l =? size - 1 then shift_z (- L) recv_left else recv_left | None => recv_left end in
       add_buffers_gpu (fst (fst (f r))) recv_left recv_right s') (S 0) size) as [S' HS'].
  { lia. }
  { intros r Hr. cbv zeta. destruct (Hb r Hr) as (K & A & C & EA & EC).
    assert (EL : exists Q, match left_proc b r size with
        | Some l => if l =? size - 1 then shift_z (- L) (match left_proc b r size with Some l => snd (f l) | None => no_particles (snd (fst (f r))) end) else (match left_proc b r size with Some l => snd (f l) | None => no_particles (snd (fst (f r))) end)
        | None => match left_proc b r size with Some l => snd (f l) | None => no_particles (snd (fst (f r))) end end = buffer tr io Q).
    { destruct (left_proc b r size) as [l|] eqn:El.
      - destruct (left_right b r size l Hr El) as [Hl _]. destruct (Hb l Hl) as (_ & A' & C' & _ & E'). rewrite E'.
        destruct (l =? size - 1); [rewrite shift_ok|]; eexists; reflexivity.
      - rewrite EA, no_particles_buffer. eexists; reflexivity. }
    destruct EL as [Q1 EL]. rewrite EL.
    match goal with |- exists x, add_buffers_gpu _ _ ?Y x => assert (ER : exists Q, Y = buffer tr io Q) end.
    { assert (ER0 : exists Q, match option_map (buffer tr io) inj with Some nw => if r =? size - 1 then nw else match right_proc b r size with Some q => snd (fst (f q)) | None => no_particles (snd (fst (f r))) end
          | None => match right_proc b r size with Some q => snd (fst (f q)) | None => no_particles (snd (fst (f r))) end end = buffer tr io Q).
      { assert (ER1 : exists Q, match right_proc b r size with Some q => snd (fst (f q)) | None => no_particles (snd (fst (f r))) end = buffer tr io Q).
        { destruct (right_proc b r size) as [q|] eqn:Eq; [|rewrite EA, no_particles_buffer; eexists; reflexivity].
          destruct (right_left b r size q Hr Eq) as [Hl _]. destruct (Hb q Hl) as (_ & A' & C' & E' & _). rewrite E'. eexists; reflexivity. }
        destruct ER1 as [Q ER1]. rewrite ER1. destruct inj as [nw|]; cbn [option_map]; [destruct (r =? size - 1)|]; eexists; reflexivity. }
      destruct ER0 as [Q ER0]. rewrite ER0. destruct (right_proc b r size) as [q|]; [|eexists; reflexivity].
      destruct (q =? 0); [rewrite shift_ok|]; eexists; reflexivity. }
    destruct ER as [Q2 ER]. rewrite ER. apply add_exists, K. }
  exists S', (fun r => fst (fst (f r))), (fun r => snd (fst (f r))), (fun r => snd (f r)). split; [exact Hf|exact HS'].
Qed.

(** ** Witnesses *)
Definition wgrid (z0 : R) : sgrid := {| g_zmin := z0; g_dz := 1; g_Nz := 16; g_dr := 1; g_Nr := 2 |}.
Definition wsp (N : Z) (z : R) : gsp :=
  mk_gsp N (fun _ => 0%R) (fun _ => 0%R) (fun _ => z) (fun _ => 0%R) (fun _ => 0%R) (fun _ => 5%R) (fun _ => 1%R) (fun _ => 7%R) []
    (Some (fun _ => 1)) None false (fun _ => 0) (fun _ => 0) (fun _ => 0) 0 (fun _ => 0%R) (fun _ => 0).
Lemma wgrid_ok z0 : grid_ok (wgrid z0).
Proof. unfold grid_ok, wgrid. cbn. repeat split; try lra; lia. Qed.
Lemma wsp_kind N z : kind true false (wsp N z).
Proof. split; cbn; congruence. Qed.
Lemma wsp_ready z0 N z : 0 <= N < 2 ^ 52 -> (z0 - / 2 < z <= z0 + 155 / 10)%R -> ready 4 (wgrid z0) (wsp N z).
Proof.
  intros HN Hz. unfold ready. split; [apply wgrid_ok|]. split; [exact HN|]. cbn [wgrid g_Nz wsp p_sorted p_N p_z].
  split; [reflexivity|]. split; [lia|]. split; [lia|]. intros j _. cbn [g_zmin g_dz g_Nz wgrid]. lra.
Qed.

Lemma far_wrong : exists g n_guard s s' bl br, grid_ok g /\ 4 * n_guard <= g_Nz g /\ kind true false s /\ p_N s = 1 /\
  (pz (record s 0) < g_zmin g)%R /\ remove_particles_gpu g n_guard (Some 0) (Some 2) s s' bl br /\
  p_N s' = 0 /\ columns bl = 0 /\ br = buffer true false [record s 0].
Proof.
  set (g := wgrid 0). set (s := wsp 1 (-1)).
  destruct (remove_exists g 4 (Some 0) (Some 2) s ltac:(cbn; lia) eq_refl eq_refl) as (s' & bl & br & H).
  exists g, 4, s, s', bl, br. split; [apply wgrid_ok|]. split; [cbn; lia|]. split; [apply wsp_kind|]. split; [reflexivity|].
  split; [cbn; lra|]. split; [exact H|].
  destruct H as (s1 & He & Hrm). unfold ensure_sorted in He. change (p_sorted s) with false in He. cbv iota in He. destruct He as (Hso & Hsh & Hf & _).
  assert (Hnear : near_box g (sort_view s)).
  { intros j _. cbn. lra. }
  assert (Hsz : sizes_ok g (sort_view s)) by (split; [cbn; lia|reflexivity]).
  pose proof (rows_split g (sort_view s) (sort_view s1) 4 0 (wgrid_ok 0) Hsz Hnear Hso ltac:(lia) ltac:(lia) ltac:(cbn; lia)) as HB.
  assert (Es : stay_bounds g 4 (grids_moved 0 (sort_view s1)) = stay_bounds g 4 (sort_view s1)).
  { unfold stay_bounds, grids_moved. cbn [s_shift s_prefix]. rewrite Z.add_0_r. reflexivity. }
  rewrite Es in HB. clear Es.
  destruct (sorted_main g _ _ (wgrid_ok 0) Hsz Hnear Hso) as ((Hp & HN' & Hx & Hy & Hz & _) & _).
  destruct (sort_perm g s s1 ltac:(cbn; lia) (proj2 Hsz) (wgrid_ok 0) Hnear Hso Hsh Hf) as [EN Pm].
  unfold remove_sorted in Hrm. destruct (stay_bounds g 4 (sort_view s1)) as [i_min i_max]. destruct HB as (B1 & B2 & B3).
  change (s_N (sort_view s)) with 1 in *. destruct (B3 0 ltac:(lia)) as [X Y].
  assert (Ez : s_z (sort_view s1) 0 = (-1)%R) by (rewrite Hz by lia; reflexivity).
  assert (W : wrap (g_Nz g) (izr g (s_z (sort_view s1) 0)) = 15).
  { rewrite Ez. assert (izr g (-1) <= -1) by (apply izr_le; cbn; lra). assert (-2 < izr g (-1)) by (apply izr_gt; cbn; lra).
    unfold wrap. destruct (Z.ltb_spec (izr g (-1)) 0); [|lia]. cbn [g wgrid g_Nz]. lia. }
  rewrite W in X, Y. change (g_Nz g) with 16 in Y.
  assert (i_min = 0 /\ i_max = 0) as [-> ->] by lia.
  destruct Hrm as (fl & fr & il & ir & F & I & -> & -> & _ & HN2).
  change (p_N s) with 1 in EN. rewrite EN in *. apply split_rows in F; [|lia..]. apply split_rows in I; [|lia..].
  destruct F as (-> & -> & _). destruct I as (-> & -> & _). split; [exact HN2|]. split; [reflexivity|].
  cbn [send_rows]. pose proof (shape_kind true false s s1 (wsp_kind _ _) Hsh) as K1.
  pose proof (buffer_of true false s1 [0] K1) as E.
  assert (Ep : map (record s1) [0] = [record s 0]).
  { unfold particles in Pm. rewrite EN in Pm. change (p_N s) with 1 in Pm. change (range 1) with [0] in Pm. cbn [map] in Pm.
    apply Permutation_length_1 in Pm. cbn [map]. congruence. }
  rewrite Ep in E. rewrite E. change (range (1 - 0)) with [0]. reflexivity.
Qed.

Definition wS (r : Z) : gsp := if r =? 0 then wsp 1 13 else wsp 0 13.
Definition wg (r : Z) : sgrid := wgrid (if r =? 0 then 0 else 8).
Lemma wS_ok r : 0 <= r < 2 -> kind true false (wS r) /\ ready 4 (wg r) (wS r) /\ p_N (wS r) < 2 ^ 50 /\ 4 * 4 <= g_Nz (wg r).
Proof.
  intros Hr. unfold wS, wg. destruct (Z.eqb_spec r 0) as [->|Hne].
  - split; [apply wsp_kind|]. split; [apply wsp_ready; [lia|lra]|]. cbn; lia.
  - split; [apply wsp_kind|]. split; [apply wsp_ready; [lia|lra]|]. cbn; lia.
Qed.
Lemma wS_contiguous : contiguous 4 Open 2 100 wg.
Proof.
  intros r q Hr Hq. unfold right_proc in Hq. destruct (Z.eqb_spec r (2 - 1)); [discriminate|]. injection Hq as <-.
  assert (r = 0) as -> by lia. split; [reflexivity|]. cbn. lra.
Qed.
Lemma two_ranks : exists S', exchange_particles Open 2 4 100 wg None wS S' /\ particles (S' 0) = [] /\
  particles (S' 1) = [record (wS 0) 0] /\ pid (record (wS 0) 0) = Some 1.
Proof.
  destruct (exchange_exists true false Open 2 4 100 wg None wS) as [S' H]; [lia|congruence| |].
  { intros r Hr. destruct (wS_ok r Hr) as (A & B & _). split; [exact A|]. split; [exact B|]. unfold wS. destruct (r =? 0); split; reflexivity. }
  exists S'. split; [exact H|].
  assert (HS : forall r, 0 <= r < 2 -> kind true false (wS r) /\ ready 4 (wg r) (wS r) /\ p_N (wS r) < 2 ^ 50) by (intros r Hr; destruct (wS_ok r Hr) as (A & B & X & _); auto).
  destruct (conserved true false Open 2 4 100 wg None wS S' ltac:(lia) ltac:(discriminate) ltac:(congruence) HS ltac:(discriminate) H) as [_ P].
  destruct (inside true false Open 2 4 100 wg None wS S' ltac:(lia) ltac:(discriminate) ltac:(congruence) wS_ok ltac:(discriminate) wS_contiguous H 0 ltac:(lia)) as (Q & EQ & HQ).
  cbn [injected] in EQ. rewrite app_nil_r in EQ. unfold all_ranks in P. change (range 2) with [0; 1] in P. cbn [flat_map] in P. rewrite !app_nil_r in P.
  assert (D : flat_map (destiny Open 2 100 (fun q => keep_lo 4 (wg q)) (fun q => keep_hi 4 (wg q)) 0) (particles (wS 0)) = [record (wS 0) 0]).
  { change (particles (wS 0)) with [record (wS 0) 0]. cbn [flat_map]. rewrite app_nil_r. unfold destiny.
    change (pz (record (wS 0) 0)) with 13%R. unfold keep_lo, keep_hi. cbn [wg wgrid g_zmin g_dz g_Nz Z.eqb].
    destruct (Rle_dec 13 _) as [K|K]; [exfalso; cbn in K; lra|]. destruct (Rlt_dec _ 13) as [K'|K']; [reflexivity|exfalso; apply K'; cbn; lra]. }
  rewrite D in P. change (particles (wS 1)) with (@nil part) in P. cbn [flat_map app] in P.
  assert (E0 : particles (S' 0) = []).
  { rewrite EQ. destruct Q as [|p Q]; [reflexivity|]. exfalso. rewrite EQ in P. specialize (HQ p (or_introl eq_refl)).
    assert (In p [record (wS 0) 0]) as [<-|[]] by (eapply Permutation_in; [exact P|]; left; reflexivity).
    change (pz (record (wS 0) 0)) with 13%R in HQ. unfold keep_hi in HQ. cbn in HQ. lra. }
  split; [exact E0|]. rewrite E0 in P. cbn [app] in P. apply Permutation_sym, Permutation_length_1_inv in P. split; [exact P|reflexivity].
Qed.
