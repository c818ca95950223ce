(** Proofs of C97. *)
From Coq Require Import Reals Lra.
From Flocq Require Import Core.Core.
From Coquelicot Require Import Complex.
From Verif Require Import Base Decomp_Proofs Chunk_Model Chunk_Proofs Boost_Spec Shape_Model Sort_Model Sort_Spec Sort_Proofs Deposit_Model Deposit_Spec
  Deposit_Proofs GDeposit_Model GDeposit_Spec GDeposit_Proofs BPart_Model BPart_Spec BPart_Proofs GOrder_Model GOrder_Spec GOrder_Proofs GBack_Model GBack_Spec.
Open Scope Z_scope.

(** ** The selected particles are in the rows of cells that are copied *)
Lemma selected_cells d b t g p : diag_ok d b -> (0 < Sort_Model.g_dz g)%R -> (Rabs (buz p * big p) <= 1)%R ->
  selected d (current_z_boost d t) (prev_z_boost d t) p = true ->
  let cells := gpu_cells d (Sort_Model.g_zmin g) (Sort_Model.g_dz g) (current_z_boost d t) (prev_z_boost d t) in
  fst cells <= izr g (bz p) < snd cells.
Proof.
  intros OK Hd V Hs. pose proof (beta_eq d b OK) as Eb.
  assert (Hp : prev_z_boost d t = (current_z_boost d t + d_c d / b * d_dt d)%R).
  { pose proof OK as (_ & B0 & _). unfold prev_z_boost, current_z_boost, inv_beta_boost. rewrite Eb. field. lra. }
  pose proof (cb_gt d b OK) as Hc. destruct OK as (_ & B0 & C0 & D0).
  assert (K : (0 < d_dt d * d_c d)%R) by nra.
  assert (K2 : (d_dt d * d_c d < d_c d / b * d_dt d)%R) by nra.
  apply Rabs_le_inv in V.
  assert (W : (- (d_dt d * d_c d) <= buz p * big p * d_c d * d_dt d <= d_dt d * d_c d)%R).
  { replace (buz p * big p * d_c d * d_dt d)%R with (buz p * big p * (d_dt d * d_c d))%R by ring. split.
    - replace (- (d_dt d * d_c d))%R with (-1 * (d_dt d * d_c d))%R by ring. apply Rmult_le_compat_r; lra.
    - replace (d_dt d * d_c d)%R with (1 * (d_dt d * d_c d))%R at 2 by ring. apply Rmult_le_compat_r; lra. }
  unfold selected in Hs. apply Bool.orb_true_iff in Hs.
  assert (H : (current_z_boost d t <= bz p /\ bz p <= prev_z_boost d t + d_dt d * d_c d)%R).
  { destruct Hs as [Hs|Hs]; apply Bool.andb_true_iff in Hs as [H1 H2].
    - assert (R1 : (current_z_boost d t <= bz p)%R) by (destruct (Rle_bool_spec (current_z_boost d t) (bz p)); [assumption|discriminate]).
      assert (R2 : (bz p - buz p * big p * d_c d * d_dt d <= prev_z_boost d t)%R)
        by (destruct (Rle_bool_spec (bz p - buz p * big p * d_c d * d_dt d) (prev_z_boost d t)); [assumption|discriminate]).
      lra.
    - assert (R1 : (bz p <= current_z_boost d t)%R) by (destruct (Rle_bool_spec (bz p) (current_z_boost d t)); [assumption|discriminate]).
      assert (R2 : (prev_z_boost d t <= bz p - buz p * big p * d_c d * d_dt d)%R)
        by (destruct (Rle_bool_spec (prev_z_boost d t) (bz p - buz p * big p * d_c d * d_dt d)); [assumption|discriminate]).
      lra. }
  unfold gpu_cells. cbn [fst snd]. unfold izr.
  replace (/ Sort_Model.g_dz g * (bz p - Sort_Model.g_zmin g) - / 2)%R with ((bz p - Sort_Model.g_zmin g - 1 / 2 * Sort_Model.g_dz g) / Sort_Model.g_dz g)%R by (field; lra).
  assert (0 < / Sort_Model.g_dz g)%R by (apply Rinv_0_lt_compat; exact Hd).
  split; [|apply Z.lt_succ_r]; apply Zceil_le; apply Rmult_le_compat_r; lra.
Qed.

Lemma izr_moved g n z : (0 < Sort_Model.g_dz g)%R -> izr (moved_grid g n) z = izr g z - n.
Proof.
  intros Hd. unfold izr, moved_grid. cbn.
  replace (/ Sort_Model.g_dz g * (z - (Sort_Model.g_zmin g + IZR n * Sort_Model.g_dz g)) - / 2)%R
    with (/ Sort_Model.g_dz g * (z - Sort_Model.g_zmin g) - / 2 + IZR (- n))%R by (rewrite opp_IZR; field; lra).
  rewrite Zceil_shift. lia.
Qed.

(** ** The extraction *)
Lemma extracted_at {V} i0 n (a out : Z -> V) i : 0 <= n < 2 ^ 52 -> extracted i0 n a out -> 0 <= i < n -> out i = a (i0 + i).
Proof.
  intros Hn [gb H] Hi. apply (launched_val n _ gb out i _ Hn H).
  - intros t w _ Hw E. unfold extract_array in Hw. destruct (t <? n); [|destruct Hw]. destruct Hw as [<-|[]]. cbn [fst snd] in *. subst. reflexivity.
  - exists i. split; [lia|]. unfold extract_array. destruct (Z.ltb_spec i n); [|lia]. left. reflexivity.
Qed.
Definition gpu_row (ion : bool) (s : gspecies) (i : Z) : pdata :=
  ({| bx := s_x s i; by_ := s_y s i; bz := s_z s i; bux := attr 0 s i; buy := attr 1 s i; buz := attr 2 s i;
      bw := (if ion then last (s_fl s) (fun _ => 0%R) else attr 3 s) i; big := attr 4 s i |}, map (fun a => a i) (s_int s)).
Lemma slice_rows i0 n ion s data : 0 <= n < 2 ^ 52 -> extract_slice_from_gpu i0 n ion s data ->
  data = map (fun i => gpu_row ion s (i0 + i)) (range n).
Proof.
  intros Hn (part & ints & Hp & Hi & ->). apply map_ext_in. intros i Hin. apply in_range in Hin.
  repeat match goal with H : Forall2 _ (_ :: _) _ |- _ => inversion H; clear H; subst end.
  match goal with H : Forall2 _ [] _ |- _ => inversion H; clear H; subst end. cbn [nth].
  unfold gpu_row. f_equal.
  - f_equal; eapply extracted_at; eauto.
  - clear - Hi Hn Hin. induction Hi as [|a a' l l' H1 H2 IH]; [reflexivity|]. cbn [map]. f_equal; [|exact IH]. eapply extracted_at; eauto.
Qed.

Lemma range_add a b : 0 <= a -> 0 <= b -> range (a + b) = range a ++ map (fun i => a + i) (range b).
Proof.
  intros Ha. revert b. apply (natlike_ind (fun b => range (a + b) = range a ++ map (fun i => a + i) (range b))).
  - rewrite Z.add_0_r, (range_0 0) by lia. cbn [map]. symmetry. apply app_nil_r.
  - intros b Hb IH. replace (a + Z.succ b) with ((a + b) + 1) by lia. rewrite range_succ by lia. rewrite IH.
    replace (Z.succ b) with (b + 1) by lia. rewrite range_succ by lia. rewrite map_app, <- app_assoc. reflexivity.
Qed.
Lemma filter_none {A} (f : A -> bool) l : (forall a, In a l -> f a = false) -> filter f l = [].
Proof.
  induction l as [|a l IH]; intros H; [reflexivity|]. cbn [filter]. rewrite (H a) by (left; reflexivity). apply IH.
  intros b Hb. apply H. right. exact Hb.
Qed.
(** The particles outside of [i0, i1) not being selected, the slice is the same. *)
Lemma filter_part {A} (f : A -> bool) (P : Z -> A) N i0 i1 : 0 <= i0 <= i1 -> i1 <= N ->
  (forall i, 0 <= i < N -> f (P i) = true -> i0 <= i < i1) ->
  filter f (map (fun i => P (i0 + i)) (range (i1 - i0))) = filter f (map P (range N)).
Proof.
  intros H0 H1 H. replace N with (i0 + ((i1 - i0) + (N - i1))) at 1 by lia.
  rewrite (range_add i0) by lia. rewrite (range_add (i1 - i0)) by lia. rewrite !map_app, !map_map, !filter_app.
  rewrite (filter_none f (map P (range i0))).
  2:{ intros a Ha. apply in_map_iff in Ha as (i & <- & Hi). apply in_range in Hi. destruct (f (P i)) eqn:E; [|reflexivity].
      apply H in E; lia. }
  rewrite (filter_none f (map _ (range (N - i1)))).
  2:{ intros a Ha. apply in_map_iff in Ha as (i & <- & Hi). apply in_range in Hi. destruct (f (P (i0 + (i1 - i0 + i)))) eqn:E; [|reflexivity].
      apply H in E; lia. }
  rewrite app_nil_r. reflexivity.
Qed.

Lemma inside_wrap g s j : Sort_Spec.grid_ok g -> inside g s -> 0 <= j < s_N s ->
  0 <= izr g (s_z s j) <= Sort_Model.g_Nz g - 1 /\ wrap (Sort_Model.g_Nz g) (izr g (s_z s j)) = izr g (s_z s j).
Proof.
  intros (Hd & _) H Hj. specialize (H j Hj).
  assert (A : -1 < izr g (s_z s j)) by (apply izr_gt; [exact Hd|lra]).
  assert (B : izr g (s_z s j) <= Sort_Model.g_Nz g - 1) by (apply izr_le; [exact Hd|rewrite minus_IZR; lra]).
  split; [lia|]. unfold wrap. destruct (Z.ltb_spec (izr g (s_z s j)) 0); [lia|]. rewrite Z.gtb_ltb.
  destruct (Z.ltb_spec (Sort_Model.g_Nz g - 1) (izr g (s_z s j))); [lia|reflexivity].
Qed.
Lemma pref_at g s k : Sort_Spec.grid_ok g -> 0 <= s_N s -> inside g s -> described_on g s ->
  0 <= pref_sum_at g s k <= s_N s /\ forall i, 0 <= i < s_N s -> (izr g (s_z s i) < k <-> i < pref_sum_at g s k).
Proof.
  intros Hg HN Hin Hdes. unfold pref_sum_at.
  assert (HNr : 1 <= Sort_Model.g_Nr g /\ 1 <= Sort_Model.g_Nz g) by (destruct Hg as (_ & _ & A & B); lia).
  destruct (Z.leb_spec k 0).
  { split; [lia|]. intros i Hi. destruct (inside_wrap g s i Hg Hin Hi). lia. }
  rewrite Z.gtb_ltb. destruct (Z.ltb_spec (Sort_Model.g_Nz g) k).
  { split; [lia|]. intros i Hi. destruct (inside_wrap g s i Hg Hin Hi). lia. }
  destruct (Hdes (k * (Sort_Model.g_Nr g + 1) - 1)) as [A B]; [unfold ncells; nia|].
  split; [exact A|]. intros i Hi. rewrite <- (B i Hi). unfold cell. rewrite (cell_row g _ _ _ k Hg).
  destruct (inside_wrap g s i Hg Hin Hi) as [_ ->]. reflexivity.
Qed.

Lemma sort_described g s s' : Sort_Spec.grid_ok g -> sizes_ok g s -> near_box g s -> sort_particles g s s' -> described_on g s'.
Proof.
  intros Hg Hs Hn H. destruct (sorted_main _ _ _ Hg Hs Hn H) as (P & Hc & _ & _ & Hp & _).
  assert (E : s_N s' = s_N s) by apply P. intros c Hcc. destruct (Hp c Hcc) as [E1 E2]. rewrite E. split.
  - rewrite E1. apply count_upto_le. destruct Hs; lia.
  - intros i Hi. rewrite Hc by exact Hi. apply E2. exact Hi.
Qed.

Lemma inside_near g s : Sort_Spec.grid_ok g -> inside g s -> near_box g s.
Proof.
  intros (Hd & _ & HN & _) H j Hj. specialize (H j Hj). apply IZR_le in HN. split.
  - assert (Sort_Model.g_dz g <= IZR (Sort_Model.g_Nz g) * Sort_Model.g_dz g)%R by nra. lra.
  - assert (Sort_Model.g_dz g <= IZR (Sort_Model.g_Nz g) * Sort_Model.g_dz g)%R by nra. nra.
Qed.
Lemma moved_ok g n : Sort_Spec.grid_ok g -> Sort_Spec.grid_ok (moved_grid g n).
Proof. intros H. exact H. Qed.
Lemma moved_zero g : moved_grid g (-0) = g.
Proof. unfold moved_grid. destruct g; cbn. f_equal. ring. Qed.

(** The data copied from the GPU have the same slice as those of all the particles, in the order of the species. *)
Lemma slice_described d b t g ion s data : diag_ok d b -> Sort_Spec.grid_ok g -> 0 <= s_N s < 2 ^ 52 ->
  inside (moved_grid g (- s_shift s)) s -> slow s -> described_on (moved_grid g (- s_shift s)) s ->
  (let (a, b) := gpu_cells d (Sort_Model.g_zmin g) (Sort_Model.g_dz g) (current_z_boost d t) (prev_z_boost d t) in
   let i0 := pref_sum_at g s (a + s_shift s) in let n := pref_sum_at g s (b + s_shift s) - i0 in
   if n >? 0 then extract_slice_from_gpu i0 n ion s data else data = []) ->
  slice d (current_z_boost d t) (prev_z_boost d t) t data =
  slice d (current_z_boost d t) (prev_z_boost d t) t (map (gpu_row ion s) (range (s_N s))).
Proof.
  intros OK Hg HN Hin Hsl Hdes H.
  set (cells := gpu_cells d (Sort_Model.g_zmin g) (Sort_Model.g_dz g) (current_z_boost d t) (prev_z_boost d t)) in *.
  assert (Hsel : forall i, 0 <= i < s_N s -> selected d (current_z_boost d t) (prev_z_boost d t) (fst (gpu_row ion s i)) = true ->
            pref_sum_at g s (fst cells + s_shift s) <= i < pref_sum_at g s (snd cells + s_shift s)).
  { intros i Hi Hs. assert (Hd : (0 < Sort_Model.g_dz g)%R) by apply Hg.
    pose proof (selected_cells d b t g (fst (gpu_row ion s i)) OK Hd (Hsl i Hi) Hs) as Hc. cbn zeta in Hc. fold cells in Hc. cbn [fst gpu_row bz] in Hc.
    pose proof (izr_moved g (- s_shift s) (s_z s i) Hd) as Em.
    destruct (pref_at _ s (fst cells + s_shift s) (moved_ok g (- s_shift s) Hg) ltac:(lia) Hin Hdes) as [_ A].
    destruct (pref_at _ s (snd cells + s_shift s) (moved_ok g (- s_shift s) Hg) ltac:(lia) Hin Hdes) as [_ B].
    specialize (A i Hi). specialize (B i Hi).
    change (pref_sum_at (moved_grid g (- s_shift s)) s) with (pref_sum_at g s) in A, B. lia. }
  destruct (pref_at _ s (fst cells + s_shift s) (moved_ok g (- s_shift s) Hg) ltac:(lia) Hin Hdes) as [A _].
  destruct (pref_at _ s (snd cells + s_shift s) (moved_ok g (- s_shift s) Hg) ltac:(lia) Hin Hdes) as [B _].
  change (pref_sum_at (moved_grid g (- s_shift s)) s) with (pref_sum_at g s) in A, B.
  destruct cells as [ca cb]. cbn [fst snd] in *. cbn zeta in H.
  set (i0 := pref_sum_at g s (ca + s_shift s)) in *. set (i1 := pref_sum_at g s (cb + s_shift s)) in *.
  unfold slice. f_equal. rewrite Z.gtb_ltb in H. destruct (Z.ltb_spec 0 (i1 - i0)).
  - apply slice_rows in H; [|lia]. rewrite H.
    apply (filter_part (fun q => selected d (current_z_boost d t) (prev_z_boost d t) (fst q)) (gpu_row ion s)); [lia|lia|exact Hsel].
  - subst data. cbn [filter]. symmetry. apply filter_none. intros q Hq. apply in_map_iff in Hq as (i & <- & Hi). apply in_range in Hi.
    destruct (selected d (current_z_boost d t) (prev_z_boost d t) (fst (gpu_row ion s i))) eqn:E; [|reflexivity]. apply Hsel in E; lia.
Qed.

Lemma permuted_row pi s s' ion i : permuted_by pi s s' -> (if ion : bool then 6 else 5) <= Z.of_nat (length (s_fl s)) ->
  0 <= i < s_N s -> gpu_row ion s' i = gpu_row ion s (pi i).
Proof.
  intros Hp Hl Hi. pose proof (permuted_ptcl pi s s' ion i Hp Hl Hi) as E. unfold gptcl_at in E.
  unfold gpu_row. f_equal.
  - injection E as E1 E2 E3 E4 E5 E6 E7 E8 E9. rewrite E1, E2, E3, E4, E5, E6, E7. f_equal. destruct ion; assumption.
  - destruct Hp as (_ & _ & _ & _ & _ & _ & F). cbv beta in F. clear - F Hi. induction F as [|a a' l l' H1 H2 IH]; [reflexivity|].
    cbn [map]. f_equal; [apply H1; exact Hi|exact IH].
Qed.
Lemma permuted_slow pi s s' : permuted_by pi s s' -> 5 <= Z.of_nat (length (s_fl s)) -> slow s -> slow s'.
Proof.
  intros Hp Hl H j Hj. assert (E : s_N s' = s_N s) by apply Hp. rewrite E in Hj.
  pose proof (permuted_ptcl pi s s' false j Hp Hl Hj) as Eq. unfold gptcl_at in Eq. injection Eq as E1 E2 E3 E4 E5 E6 E7 E8.
  rewrite E6, E7. apply H. apply perm_index; [apply Hp|exact Hj].
Qed.
Lemma permuted_inside pi g s s' : permuted_by pi s s' -> inside g s -> inside g s'.
Proof.
  intros Hp H j Hj. assert (E : s_N s' = s_N s) by apply Hp. rewrite E in Hj. destruct Hp as (P & _ & _ & _ & Ez & _).
  rewrite (Ez j Hj). apply H. apply perm_index; assumption.
Qed.
Lemma Permutation_filter {A} (f : A -> bool) l l' : Permutation l l' -> Permutation (filter f l) (filter f l').
Proof.
  induction 1; cbn [filter]; try destruct (f x); try destruct (f y); auto; try reflexivity; try apply perm_swap.
  eapply perm_trans; eassumption.
Qed.
Lemma slice_perm d cur prev t l l' : Permutation l l' -> Permutation (slice d cur prev t l) (slice d cur prev t l').
Proof. intros H. apply Permutation_map, Permutation_filter, H. Qed.

Definition all_rows (sp : gsp) : list pdata := map (gpu_row (gs_ionizable sp) (gs_arr sp)) (range (s_N (gs_arr sp))).

Theorem gpu_slice d b t g sp sp' data : diag_ok d b -> Sort_Spec.grid_ok g -> sizes_ok g (gs_arr sp) -> complete sp ->
  inside (sort_grid g sp) (gs_arr sp) -> slow (gs_arr sp) -> order_kept g sp ->
  get_particle_data_gpu d g (current_z_boost d t) (prev_z_boost d t) sp sp' data ->
  Permutation (slice d (current_z_boost d t) (prev_z_boost d t) t data)
              (slice d (current_z_boost d t) (prev_z_boost d t) t (all_rows sp)).
Proof.
  intros OK Hg Hs Hc Hin Hsl Hord (_ & _ & Ei & _ & _ & Hsort & H). unfold sort_grid in Hin.
  destruct (gs_sorted sp) eqn:Es.
  - cbn zeta in H. rewrite Hsort, Ei in H. unfold all_rows.
    rewrite (slice_described d b t g (gs_ionizable sp) (gs_arr sp) data OK Hg ltac:(apply Hs) Hin Hsl (Hord Es) H). reflexivity.
  - pose proof (inside_near g _ Hg Hin) as Hn. destruct (sorted_main _ _ _ Hg Hs Hn Hsort) as (P & _ & _ & _ & _ & _ & Esh).
    set (pi := s_sidx (gs_arr sp')) in P.
    assert (EN : s_N (gs_arr sp') = s_N (gs_arr sp)) by apply P.
    cbn zeta in H. rewrite Ei in H.
    rewrite (slice_described d b t g (gs_ionizable sp) (gs_arr sp') data); auto.
    + apply slice_perm. unfold all_rows. rewrite EN.
      rewrite (map_ext_in (gpu_row (gs_ionizable sp) (gs_arr sp')) (fun i => gpu_row (gs_ionizable sp) (gs_arr sp) (pi i))).
      2:{ intros i Hi. apply in_range in Hi. apply permuted_row; assumption. }
      rewrite <- (map_map pi). apply Permutation_map. apply P.
    + rewrite EN. apply Hs.
    + rewrite Esh, moved_zero. apply (permuted_inside pi _ _ _ P Hin).
    + apply (permuted_slow pi _ _ P); [|exact Hsl]. unfold complete in Hc. destruct (gs_ionizable sp); lia.
    + rewrite Esh, moved_zero. apply (sort_described g _ _ Hg Hs Hn Hsort).
Qed.

Lemma rows_no_weight d cur prev t ion s l : map no_weight (slice d cur prev t (map (gpu_row ion s) l)) =
  map no_weight (slice d cur prev t (map (cpu_row s) l)).
Proof.
  unfold slice. induction l as [|i l IH]; [reflexivity|]. cbn [map filter].
  change (selected d cur prev (fst (cpu_row s i))) with (selected d cur prev (fst (gpu_row ion s i))).
  destruct (selected d cur prev (fst (gpu_row ion s i))); [|exact IH]. cbn [map]. f_equal. exact IH.
Qed.

(** ** The order is kept through the loop *)
Definition kept (g : grid) (l : list gsp) : Prop := Forall (fun sp => order_kept (sgrid_of g) sp) l.
Lemma cleared_kept g l : cleared l -> kept g l.
Proof. intros H. unfold cleared in H. eapply Forall_impl; [|exact H]. intros sp E Es. cbv beta in E. congruence. Qed.
Lemma sorted_kept g s0 sp : Deposit_Spec.grid_ok g -> sizes_ok (sgrid_of g) s0 -> near_box (sgrid_of g) s0 ->
  sort_particles (sgrid_of g) s0 (gs_arr sp) -> order_kept (sgrid_of g) sp.
Proof.
  intros Hg H1 H2 H3 _. destruct (sorted_main _ _ _ (sgrid_ok g Hg) H1 H2 H3) as (_ & _ & _ & _ & _ & _ & E). rewrite E, moved_zero.
  exact (sort_described _ _ _ (sgrid_ok g Hg) H1 H2 H3).
Qed.
Lemma species_kept v100 c g Nm ft sp sp' A A' : Deposit_Spec.grid_ok g -> gsp_ok g sp -> order_kept (sgrid_of g) sp ->
  gpu_species_deposit c v100 g Nm ft sp sp' A A' -> order_kept (sgrid_of g) sp'.
Proof.
  intros Hg Hok Hf H. unfold gpu_species_deposit in H.
  destruct (Req_EM_T (gs_q sp) 0) as [E|E]; [destruct H as [-> _]; exact Hf|].
  destruct H as (_ & _ & _ & _ & E5 & Hsort & _). destruct (gs_sorted sp) eqn:Es.
  - intros _. rewrite Hsort. exact (Hf Es).
  - destruct (gsp_near g sp Hg Hok) as [Hsz Hnear]. eapply sorted_kept; eassumption.
Qed.
Lemma loop_kept v100 c g Nm ft l l' A A' : Deposit_Spec.grid_ok g -> Forall (gsp_ok g) l -> kept g l ->
  gpu_species_loop c v100 g Nm ft l l' A A' -> kept g l'.
Proof.
  intros Hg Hl Hf H. induction H as [A|sp sp' l l' A A1 A' H1 H2 IH]; [constructor|].
  inversion Hl; inversion Hf; subst. constructor; [eapply species_kept; eassumption|apply IH; assumption].
Qed.
Lemma merged_kept g l : forall l1, kept g l -> kept g l1 -> kept g (merged l l1).
Proof.
  induction l as [|s l IH]; intros l1 H H1; [constructor|]. inversion H; subst. cbn [merged].
  destruct (gs_tracer s); [constructor; [assumption|apply IH; assumption]|].
  destruct l1 as [|s1 l1]; [constructor; [assumption|apply IH; [assumption|constructor]]|].
  inversion H1; subst. constructor; [assumption|apply IH; assumption].
Qed.
Lemma described_attr g s fl ints : described_on g s ->
  described_on g {| s_N := s_N s; s_x := s_x s; s_y := s_y s; s_z := s_z s; s_fl := fl; s_int := ints;
    s_cell := s_cell s; s_sidx := s_sidx s; s_prefix := s_prefix s; s_shift := s_shift s; s_buf := s_buf s; s_ibuf := s_ibuf s |}.
Proof. intros H. exact H. Qed.
Lemma attributes_kept g a b : order_kept g a -> attributes_changed a b -> order_kept g b.
Proof. intros H (fl & ints & _ & ->) E. exact (H E). Qed.
Lemma window_kept g n sp : order_kept (sgrid_of g) sp -> order_kept (sgrid_of (grid_moved n g)) (species_window_moved n sp).
Proof.
  intros H E. specialize (H E). cbn [species_window_moved gs_arr grids_moved s_shift].
  replace (moved_grid (sgrid_of (grid_moved n g)) (- (s_shift (gs_arr sp) + n))) with (moved_grid (sgrid_of g) (- s_shift (gs_arr sp))); [exact H|].
  unfold moved_grid, sgrid_of, grid_moved. cbn. f_equal. rewrite !opp_IZR, plus_IZR. ring.
Qed.
Lemma diagnosed_kept g a b : Deposit_Spec.grid_ok g -> order_kept (sgrid_of g) a -> diagnosed g a b -> order_kept (sgrid_of g) b.
Proof.
  intros Hg H [->|(_ & H1 & H2 & x & H3 & ->)]; [exact H|]. eapply sorted_kept; [exact Hg|exact H1|exact H2|exact H3].
Qed.
Lemma deposit_kept k ft g l l1 A A' : grids_ok k g -> Forall (gsp_ok g) (depositing_gpu l) -> kept g (depositing_gpu l) ->
  gpu_deposit (l_c k) (l_v100 k) g (l_vol k) (l_Nm k) ft l l1 A A' -> kept g l1.
Proof.
  intros Hg Hl Ho (A1 & H & _).
  exact (loop_kept (l_v100 k) (l_c k) (mode_grid g (l_vol k) 0) _ _ _ _ _ _ (grid_of k _ Hg) Hl Ho (loop_mode_grid _ _ _ _ _ _ _ _ _ _ _ H)).
Qed.
Lemma kept_filter g l : kept g l -> kept g (depositing_gpu l).
Proof.
  intros H. unfold kept, depositing_gpu in *. rewrite Forall_forall in *. intros s Hs. apply filter_In in Hs as [Hs _]. auto.
Qed.
Lemma diags_kept k st tr st' : diags k st tr st' -> grids_ok k (st_g st) -> kept (st_g st) (st_sp st) -> Forall fits tr ->
  st_g st' = st_g st /\ kept (st_g st') (st_sp st').
Proof.
  induction 1 as [st|st l st' tr F Hd IH|st l1 sp l2 sp' A' st' tr E Hdep Et Hd IH]; intros Hg HP Hf.
  - auto.
  - apply IH; [exact Hg| |exact Hf]. refine (Forall2_right _ _ _ _ _ _ HP F). intros a b Ha Hb.
    exact (diagnosed_kept (mode_grid (st_g st) (l_vol k) 0) a b (grid_of k _ Hg) Ha Hb).
  - inversion Hf as [|? ? F1 F2]; subst. unfold fits in F1. cbn [e_g e_sp] in F1.
    unfold kept in HP. rewrite E in HP. apply Forall_app in HP as [P1 P2]. inversion P2 as [|? ? Q1 Q2]; subst.
    apply IH; [exact Hg| |exact F2]. cbn [st_sp st_g]. unfold kept. apply Forall_app. split; [exact P1|]. constructor; [|exact Q2].
    assert (K : kept (st_g st) [untracer sp']).
    { eapply (deposit_kept k FRho (st_g st) [untracer sp]); [exact Hg|exact F1| |exact Hdep]. constructor; [exact Q1|constructor]. }
    inversion K as [|? ? K1 _]; subst. exact K1.
Qed.

Definition kpt : cond := kept.
Definition wtriple (k : loop_cfg) (P : cond) (ops : list op) (Q : cond) : Prop :=
  forall st tr st', grids_ok k (st_g st) -> P (st_g st) (st_sp st) -> execs k ops st tr st' -> Forall fits tr ->
  grids_ok k (st_g st') /\ Q (st_g st') (st_sp st').
Lemma w_nil k (P : cond) : wtriple k P [] P.
Proof. intros st tr st' Hg HP H _. inversion H; subst. auto. Qed.
Lemma w_one k (P Q : cond) o :
  (forall st tr st', grids_ok k (st_g st) -> P (st_g st) (st_sp st) -> exec k o st tr st' -> Forall fits tr ->
     grids_ok k (st_g st') /\ Q (st_g st') (st_sp st')) -> wtriple k P [o] Q.
Proof.
  intros H st tr st' Hg HP He Hf. inversion He as [|? ? ? tr1 st1 tr2 ? H1 H2]; subst. inversion H2; subst. rewrite app_nil_r in *.
  eapply H; eassumption.
Qed.
Lemma w_seq k P Q T a b : wtriple k P a Q -> wtriple k Q b T -> wtriple k P (a ++ b) T.
Proof.
  intros H1 H2 st tr st' Hg HP H Hf. apply execs_app in H as (t1 & s1 & t2 & A & B & ->). apply Forall_app in Hf as [F1 F2].
  destruct (H1 _ _ _ Hg HP A F1) as [G1 Q1]. exact (H2 _ _ _ G1 Q1 B F2).
Qed.
Lemma w_weak k (P Q : cond) a (P' : cond) : (forall g l, P' g l -> P g l) -> wtriple k P a Q -> wtriple k P' a Q.
Proof. intros H H1 st tr st' Hg HP. apply H1; auto. Qed.
Lemma of_t s k P a Q : triple s k P a Q -> wtriple k P a Q.
Proof. intros H st tr st' Hg HP He Hf. destruct (H _ _ _ Hg HP He Hf) as (_ & A & B). auto. Qed.

(** Operations of the loop that keep the order; those that move the particles or change the grid continuously go together. *)
Inductive tame : list op -> Prop :=
| tame_nil : tame []
| tame_op o l : match o with OGalilean _ => False | _ => True end -> tame l -> tame (o :: l)
| tame_push f x y z f' l : tame l -> tame (OPushX f x y z :: OGalilean f' :: l).
Lemma tame_app a b : tame a -> tame b -> tame (a ++ b).
Proof. induction 1; intros Hb; cbn [app]; [exact Hb|apply tame_op; auto|apply tame_push; auto]. Qed.
Lemma tame_before a b : tame (a ++ ODiags :: b) -> tame a.
Proof.
  intros H. remember (a ++ ODiags :: b) as l eqn:E. revert a E. induction H as [|o l Ho Hl IH|f x y z f' l Hl IH]; intros a E.
  - destruct a; discriminate.
  - destruct a as [|o' a]; [constructor|]. cbn [app] in E. injection E as <- E. constructor; [exact Ho|apply IH; exact E].
  - destruct a as [|o' a]; [constructor|]. cbn [app] in E. injection E as <- E. destruct a as [|o'' a]; [discriminate|].
    cbn [app] in E. injection E as <- E. apply tame_push. apply IH. exact E.
Qed.
Lemma tame_flat (f : Z -> list op) l : (forall i, tame (f i)) -> tame (flat_map f l).
Proof. intros H. induction l as [|i l IH]; [constructor|]. cbn [flat_map]. apply tame_app; auto. Qed.
Lemma tame_pg k f x y z f' : tame ([OPushX f x y z] ++ (if l_galilean k then [OGalilean f'] else [])).
Proof. destruct (l_galilean k); cbn [app]; [apply tame_push; constructor|repeat constructor]. Qed.
Lemma tame_cross k : l_move_positions k = true -> tame (cross_deposit k).
Proof.
  intros E. unfold cross_deposit. rewrite E. cbn zeta. rewrite app_assoc. apply tame_app; [apply tame_pg|].
  apply (tame_app [_]); [repeat constructor|]. rewrite app_assoc. apply tame_app; [apply tame_pg|].
  apply (tame_app [_]); [repeat constructor|]. apply tame_pg.
Qed.
Lemma tame_iteration k it i : l_move_positions k = true -> tame (iteration k it i).
Proof.
  intros E. unfold iteration. rewrite E. cbn zeta.
  apply tame_app; [destruct (_ || _); repeat constructor|]. apply tame_app; [destruct (i =? 0); repeat constructor|].
  apply (tame_app [_; _; _]); [repeat constructor|]. rewrite app_assoc. apply tame_app; [apply tame_pg|].
  apply (tame_app [_; _]); [repeat constructor|]. apply tame_app; [destruct (_ && _); [apply tame_cross; exact E|constructor]|].
  rewrite app_assoc. apply tame_app; [apply tame_pg|]. apply (tame_app [_]); [repeat constructor|].
  destruct (l_window k); repeat constructor.
Qed.
Lemma tame_calls k Ns : l_move_positions k = true -> forall it, tame (calls_ops k it Ns).
Proof.
  intros E. induction Ns as [|N Ns IH]; intros it; [constructor|]. cbn [calls_ops]. apply tame_app; [|apply IH].
  unfold step_ops. apply tame_flat. intros i. apply tame_iteration. exact E.
Qed.

Lemma moved_geometry n g : geometry g (grid_moved n g).
Proof. repeat split. Qed.
Lemma op_kept k o : l_wrap k = false -> match o with OGalilean _ => False | _ => True end -> wtriple k kpt [o] kpt.
Proof.
  intros Ew Ho. apply w_one. intros st tr st' Hg HP He Hf. unfold kpt in *. destruct o; try contradiction; cbn [exec] in He.
  - destruct He as (-> & Eg & _ & F). rewrite Ew in F. rewrite Eg. split; [exact Hg|]. apply cleared_kept.
    refine (Forall2_right _ (fun _ => True) _ _ _ _ (Forall_true _) F). intros a b _ (x & ->). reflexivity.
  - destruct He as (l1 & Hd & Eg & Es & ->). rewrite Eg, Es. split; [exact Hg|]. inversion Hf as [|? ? F1 _]; subst.
    unfold fits in F1. cbn [e_g e_sp] in F1. apply merged_kept; [exact HP|].
    eapply deposit_kept; [exact Hg|exact F1|apply kept_filter; exact HP|exact Hd].
  - destruct He as (-> & Eg & _ & F). rewrite Eg. split; [exact Hg|].
    refine (Forall2_right _ _ _ _ _ _ HP F). intros a b Ha Hb. exact (attributes_kept _ a b Ha Hb).
  - destruct (diags_kept k st tr st' He Hg HP Hf) as [Eg HQ]. split; [rewrite Eg; exact Hg|exact HQ].
  - destruct He as (-> & Eg & _ & F). rewrite Eg, F. split; [exact Hg|]. apply cleared_kept.
    unfold cleared. apply Forall_forall. intros b Hb. apply in_map_iff in Hb as [a [<- _]]. reflexivity.
  - destruct He as (-> & Eg & _ & F). rewrite Eg. split; [exact Hg|].
    refine (Forall2_right _ _ _ _ _ _ HP F). intros a b Ha [Hb|(x & ->)]; [exact (attributes_kept _ a b Ha Hb)|].
    intros E. discriminate E.
  - destruct He as (n & -> & Eg & _ & F). rewrite Eg, F. split; [eapply geometry_ok; [apply moved_geometry|exact Hg]|].
    unfold kept in *. rewrite Forall_forall in *. intros b Hb. apply in_map_iff in Hb as [a [<- Ha]]. apply window_kept. apply HP. exact Ha.
Qed.
Lemma tame_kept k ops : l_wrap k = false -> tame ops -> wtriple k kpt ops kpt.
Proof.
  intros Ew. induction 1 as [|o l Ho Hl IH|f x y z f' l Hl IH]; [apply w_nil| |].
  - apply (w_seq k kpt kpt kpt [o] l); [apply op_kept; assumption|exact IH].
  - apply (w_seq k kpt clr kpt [OPushX f x y z]); [eapply w_weak; [|eapply (of_t true), t_push]; intros; exact I|].
    apply (w_seq k clr kpt kpt [OGalilean f']); [|exact IH]. intros st tr st' Hg HP He Hf.
    destruct (of_t true _ _ _ _ (t_galilean true k f') st tr st' Hg HP He Hf) as [A B]. split; [exact A|]. apply cleared_kept. exact B.
Qed.
Lemma loop_kept_at k it Ns ops1 ops2 st tr st' : l_move_positions k = true -> l_wrap k = false -> grids_ok k (st_g st) ->
  Forall created (st_sp st) -> calls_ops k it Ns = ops1 ++ ODiags :: ops2 -> execs k ops1 st tr st' -> Forall fits tr ->
  grids_ok k (st_g st') /\ Forall (order_kept (sgrid_of (st_g st'))) (st_sp st').
Proof.
  intros Em Ew Hg Hc E He Hf. pose proof (tame_calls k Ns Em it) as T. rewrite E in T. apply tame_before in T.
  apply (tame_kept k ops1 Ew T st tr st' Hg); [|exact He|exact Hf]. apply cleared_kept. exact Hc.
Qed.

(** ** The content of the buffers *)
Lemma gpu_which d b t g sp sp' out : diag_ok d b -> Sort_Spec.grid_ok g -> sizes_ok g (gs_arr sp) -> complete sp ->
  inside (sort_grid g sp) (gs_arr sp) -> slow (gs_arr sp) -> order_kept g sp -> store_gpu d g t sp sp' out ->
  Permutation (map no_weight out) (map no_weight (store_cpu d g t (gs_arr sp))).
Proof.
  intros OK Hg Hs Hc Hin Hsl Hord H. unfold store_gpu, store_cpu in *. destruct (stored d _ (zmax g) t); [|destruct H as [_ ->]; constructor].
  destruct H as (data & H & ->). pose proof (gpu_slice d b t g sp sp' data OK Hg Hs Hc Hin Hsl Hord H) as P.
  apply (Permutation_map no_weight) in P. unfold all_rows in P. rewrite rows_no_weight in P. exact P.
Qed.
Lemma gpu_same d b t g sp sp' out : diag_ok d b -> Sort_Spec.grid_ok g -> sizes_ok g (gs_arr sp) -> complete sp ->
  inside (sort_grid g sp) (gs_arr sp) -> slow (gs_arr sp) -> order_kept g sp -> gs_ionizable sp = false -> store_gpu d g t sp sp' out ->
  Permutation out (store_cpu d g t (gs_arr sp)).
Proof.
  intros OK Hg Hs Hc Hin Hsl Hord Ei H. unfold store_gpu, store_cpu in *. destruct (stored d _ (zmax g) t); [|destruct H as [_ ->]; constructor].
  destruct H as (data & H & ->). pose proof (gpu_slice d b t g sp sp' data OK Hg Hs Hc Hin Hsl Hord H) as P.
  unfold all_rows in P. rewrite Ei in P. exact P.
Qed.

(** ** Executions exist *)
Lemma extract_exists i0 n ion s : exists data, extract_slice_from_gpu i0 n ion s data.
Proof.
  assert (A : forall V (l : list (Z -> V)), exists l', Forall2 (extracted i0 n) l l').
  { intros V l. induction l as [|a l [l' IH]]; [exists []; constructor|].
    exists (launch n (extract_array i0 n a) a :: l'). constructor; [|exact IH]. exists a. apply launch_launched. }
  unfold extract_slice_from_gpu. set (w := if ion then last (s_fl s) (fun _ => 0%R) else attr 3 s).
  destruct (A R [s_x s; s_y s; s_z s; attr 0 s; attr 1 s; attr 2 s; w; attr 4 s]) as [part Hp].
  destruct (A Z (s_int s)) as [ints Hi]. eexists. exists part, ints. split; [exact Hp|]. split; [exact Hi|]. reflexivity.
Qed.
Lemma data_exists d g cur prev sp : (if gs_sorted sp then True else s_N (gs_arr sp) = 1) ->
  exists sp' data, get_particle_data_gpu d g cur prev sp sp' data.
Proof.
  intros H.
  assert (S1 : exists a, if gs_sorted sp then a = gs_arr sp else sort_particles g (gs_arr sp) a).
  { destruct (gs_sorted sp); [eexists; reflexivity|]. apply one_sorted. exact H. }
  destruct S1 as [a Ha].
  exists {| gs_q := gs_q sp; gs_tracer := gs_tracer sp; gs_ionizable := gs_ionizable sp; gs_shape := gs_shape sp;
            gs_sorted := true; gs_arr := a |}.
  unfold get_particle_data_gpu. cbn [gs_q gs_tracer gs_ionizable gs_shape gs_sorted gs_arr].
  destruct (gpu_cells d _ _ cur prev) as [ca cb]. cbn zeta.
  set (i0 := pref_sum_at g a (ca + s_shift a)). set (n := pref_sum_at g a (cb + s_shift a) - i0).
  destruct (n >? 0).
  - destruct (extract_exists i0 n (gs_ionizable sp) a) as [data Hdata]. exists data. repeat (split; [reflexivity|]). split; [exact Ha|exact Hdata].
  - exists []. repeat (split; [reflexivity|]). split; [exact Ha|reflexivity].
Qed.

(** One particle at rest. *)
Definition wd (st : R) : bdiag := {| d_c := 3; d_g := 5 / 4; d_dt := 1; s_t := st; s_zmin := 0; s_zmax := 10 |}%R.
Definition wion (ion : bool) (z : R) : gsp :=
  {| gs_q := 1%R; gs_tracer := false; gs_ionizable := ion; gs_shape := Linear; gs_sorted := false; gs_arr :=
     {| s_N := 1; s_x := fun _ => 0%R; s_y := fun _ => 0%R; s_z := fun _ => z;
        s_fl := [fun _ => 0; fun _ => 0; fun _ => 0; fun _ => 1; fun _ => 1; fun _ => 0]%R; s_int := [];
        s_cell := fun _ => 0; s_sidx := fun _ => 0; s_prefix := fun _ => 0; s_shift := 0;
        s_buf := fun _ => 0%R; s_ibuf := fun _ => 0 |} |}.
Definition g8 : sgrid := {| Sort_Model.g_zmin := 0; Sort_Model.g_dz := 1; Sort_Model.g_Nz := 8; Sort_Model.g_dr := 1; Sort_Model.g_Nr := 4 |}.
Lemma wd_ok st : diag_ok (wd st) (3 / 5).
Proof. unfold diag_ok, boost_ok, wd; cbn. repeat split; try lra. Qed.
Lemma wd_cur st : current_z_boost (wd st) 0 = (4 * st)%R.
Proof. unfold current_z_boost, inv_beta_boost, inv_gamma_boost. rewrite (beta_eq _ _ (wd_ok st)). cbn. field. Qed.
Lemma wd_prev st : prev_z_boost (wd st) 0 = (4 * st + 5)%R.
Proof. unfold prev_z_boost, inv_beta_boost, inv_gamma_boost. rewrite (beta_eq _ _ (wd_ok st)). cbn. field. Qed.
Lemma wd_lab st : current_z_lab (wd st) 0 = (5 * st)%R.
Proof. unfold current_z_lab, inv_beta_boost, inv_gamma_boost. rewrite (beta_eq _ _ (wd_ok st)). cbn. field. Qed.
Lemma Rle_b a b : (a <= b)%R -> Rle_bool a b = true. Proof. apply Rle_bool_true. Qed.
Lemma wd_stored st : (0 <= st < 2)%R -> stored (wd st) (Sort_Model.g_zmin g8) (zmax g8) 0 = true.
Proof.
  intros H. unfold stored, zmax. cbn zeta. rewrite wd_cur, wd_lab. cbn [wd g8 Sort_Model.g_zmin Sort_Model.g_dz Sort_Model.g_Nz s_zmin s_zmax].
  rewrite !Rle_bool_true by lra. rewrite !Rlt_bool_true by lra. reflexivity.
Qed.
Lemma wd_selected st z ion : (4 * st <= z)%R -> (z <= 4 * st + 5)%R ->
  selected (wd st) (current_z_boost (wd st) 0) (prev_z_boost (wd st) 0) (fst (gpu_row ion (gs_arr (wion ion z)) 0)) = true.
Proof.
  intros H1 H2. rewrite wd_cur, wd_prev. unfold selected. cbn [fst gpu_row bz buz big attr nth s_fl gs_arr wion s_z wd d_c d_dt].
  rewrite (Rle_bool_true (4 * st) z) by lra. rewrite (Rle_bool_true _ (4 * st + 5)) by lra. reflexivity.
Qed.
Lemma w_cpu st z ion : (0 <= st < 2)%R -> (4 * st <= z)%R -> (z <= 4 * st + 5)%R ->
  map (fun q => lw (fst q)) (store_cpu (wd st) g8 0 (gs_arr (wion ion z))) = [1%R].
Proof.
  intros H0 H1 H2. unfold store_cpu. rewrite wd_stored by exact H0. unfold cpu_data. cbn [gs_arr wion s_N]. change (range 1) with [0]. cbn [map].
  unfold slice. cbn [filter]. pose proof (wd_selected st z ion H1 H2) as E. cbn [gs_arr wion] in E.
  match type of E with ?a = true => match goal with |- context [if ?b then _ else _] => change b with a end end. rewrite E. reflexivity.
Qed.
Lemma w_hyps st z ion : (0 <= z <= 15 / 2)%R ->
  Sort_Spec.grid_ok g8 /\ sizes_ok g8 (gs_arr (wion ion z)) /\ complete (wion ion z) /\
  inside (sort_grid g8 (wion ion z)) (gs_arr (wion ion z)) /\ slow (gs_arr (wion ion z)) /\ order_kept g8 (wion ion z) /\ diag_ok (wd st) (3 / 5).
Proof.
  intros Hz. split; [unfold Sort_Spec.grid_ok, g8; cbn; repeat split; lra || lia|]. split; [unfold sizes_ok, ncells; cbn; lia|].
  split; [unfold complete; cbn; destruct ion; lia|]. split; [intros j _; cbn; lra|].
  split; [intros j _; cbn; unfold attr; cbn; rewrite Rmult_0_l, Rabs_R0; lra|]. split; [intros E; discriminate E|]. apply wd_ok.
Qed.
Lemma ion_weights : exists d b t g sp sp' out,
  diag_ok d b /\ Sort_Spec.grid_ok g /\ sizes_ok g (gs_arr sp) /\ complete sp /\ inside (sort_grid g sp) (gs_arr sp) /\ slow (gs_arr sp) /\
  order_kept g sp /\ store_gpu d g t sp sp' out /\
  map (fun q => lw (fst q)) out = [0%R] /\ map (fun q => lw (fst q)) (store_cpu d g t (gs_arr sp)) = [1%R].
Proof.
  destruct (w_hyps (/ 2) 3 true ltac:(lra)) as (A & B & E & F & G & J & K).
  destruct (data_exists (wd (/ 2)) g8 (current_z_boost (wd (/ 2)) 0) (prev_z_boost (wd (/ 2)) 0) (wion true 3) eq_refl) as (sp' & data & Hd).
  exists (wd (/ 2)), (3 / 5)%R, 0%R, g8, (wion true 3), sp', (slice (wd (/ 2)) (current_z_boost (wd (/ 2)) 0) (prev_z_boost (wd (/ 2)) 0) 0 data).
  repeat (split; [assumption|]). split; [|split].
  - unfold store_gpu. rewrite wd_stored by lra. exists data. split; [exact Hd|reflexivity].
  - pose proof (gpu_slice _ _ 0%R g8 (wion true 3) sp' data K A B E F G J Hd) as P. apply Permutation_sym in P.
    apply (Permutation_map (fun q => lw (fst q))) in P.
    assert (Q : map (fun q => lw (fst q)) (slice (wd (/ 2)) (current_z_boost (wd (/ 2)) 0) (prev_z_boost (wd (/ 2)) 0) 0 (all_rows (wion true 3))) = [0%R]).
    { unfold all_rows. cbn [gs_arr wion s_N gs_ionizable]. change (range 1) with [0]. cbn [map]. unfold slice. cbn [filter].
      pose proof (wd_selected (/ 2) 3 true ltac:(lra) ltac:(lra)) as E1. cbn [gs_arr wion] in E1. rewrite E1. reflexivity. }
    rewrite Q in P. apply Permutation_length_1_inv in P. exact P.
  - apply w_cpu; lra.
Qed.
Lemma same_met : exists d b t g sp sp' out,
  diag_ok d b /\ Sort_Spec.grid_ok g /\ sizes_ok g (gs_arr sp) /\ complete sp /\ inside (sort_grid g sp) (gs_arr sp) /\ slow (gs_arr sp) /\
  order_kept g sp /\ gs_ionizable sp = false /\ store_gpu d g t sp sp' out /\ length out = 1%nat.
Proof.
  destruct (w_hyps (/ 2) 3 false ltac:(lra)) as (A & B & E & F & G & J & K).
  destruct (data_exists (wd (/ 2)) g8 (current_z_boost (wd (/ 2)) 0) (prev_z_boost (wd (/ 2)) 0) (wion false 3) eq_refl) as (sp' & data & Hd).
  exists (wd (/ 2)), (3 / 5)%R, 0%R, g8, (wion false 3), sp', (slice (wd (/ 2)) (current_z_boost (wd (/ 2)) 0) (prev_z_boost (wd (/ 2)) 0) 0 data).
  assert (H : store_gpu (wd (/ 2)) g8 0 (wion false 3) sp' (slice (wd (/ 2)) (current_z_boost (wd (/ 2)) 0) (prev_z_boost (wd (/ 2)) 0) 0 data)).
  { unfold store_gpu. rewrite wd_stored by lra. exists data. split; [exact Hd|reflexivity]. }
  repeat (split; [assumption|]). split; [reflexivity|]. split; [exact H|].
  pose proof (gpu_same _ _ _ _ _ _ _ K A B E F G J eq_refl H) as P. rewrite (Permutation_length P).
  rewrite <- (map_length (fun q => lw (fst q))). rewrite w_cpu by lra. reflexivity.
Qed.
(** A particle of the last half cell is counted with the first row of cells. *)
Lemma edge_missed : exists d b t g sp,
  diag_ok d b /\ Sort_Spec.grid_ok g /\ sizes_ok g (gs_arr sp) /\ complete sp /\ slow (gs_arr sp) /\ gs_sorted sp = false /\
  (forall j, 0 <= j < s_N (gs_arr sp) -> (Sort_Model.g_zmin g < s_z (gs_arr sp) j < zmax g)%R) /\
  (exists sp' out, store_gpu d g t sp sp' out) /\ (forall sp' out, store_gpu d g t sp sp' out -> out = []) /\
  length (store_cpu d g t (gs_arr sp)) = 1%nat.
Proof.
  exists (wd (19 / 10)), (3 / 5)%R, 0%R, g8, (wion false (31 / 4)).
  destruct (w_hyps (19 / 10) 3 false ltac:(lra)) as (A & B & E & F & G & J & K).
  split; [exact K|]. split; [exact A|]. split; [exact B|]. split; [exact E|]. split; [exact G|]. split; [reflexivity|].
  split; [intros j _; unfold zmax; cbn; lra|].
  assert (St : stored (wd (19 / 10)) (Sort_Model.g_zmin g8) (zmax g8) 0 = true) by (apply wd_stored; lra).
  split; [|split].
  - destruct (data_exists (wd (19 / 10)) g8 (current_z_boost (wd (19 / 10)) 0) (prev_z_boost (wd (19 / 10)) 0) (wion false (31 / 4)) eq_refl) as (sp' & data & Hd).
    eexists. eexists. unfold store_gpu. rewrite St. exists data. split; [exact Hd|reflexivity].
  - intros sp' out H. unfold store_gpu in H. rewrite St in H. destruct H as (data & (_ & _ & _ & _ & _ & Hs & H) & ->).
    cbn [gs_sorted wion] in Hs.
    assert (Hn : near_box g8 (gs_arr (wion false (31 / 4)))) by (intros j _; cbn; lra).
    destruct (sorted_main g8 (gs_arr (wion false (31 / 4))) (gs_arr sp') A B Hn Hs) as (P & Hc & _ & Hb & Hp & _ & Esh).
    assert (EN : s_N (gs_arr sp') = 1) by (destruct P as (_ & EN & _); rewrite EN; reflexivity).
    rewrite wd_cur, wd_prev in H. cbn zeta in H. rewrite Esh in H. unfold gpu_cells in H.
    cbn [g8 Sort_Model.g_zmin Sort_Model.g_dz wd d_dt d_c] in H.
    rewrite (Zceil_val ((4 * (19 / 10) - 0 - 1 / 2 * 1) / 1) 8) in H by (unfold Rdiv; rewrite Rinv_1; lra).
    rewrite (Zceil_val ((4 * (19 / 10) + 5 - 0 - 1 / 2 * 1 + 1 * 3) / 1) 16) in H by (unfold Rdiv; rewrite Rinv_1; lra).
    cbn zeta beta iota in H. change (pref_sum_at g8 (gs_arr sp') (16 + 1 + 0)) with (s_N (gs_arr sp')) in H.
    change (pref_sum_at g8 (gs_arr sp') (8 + 0)) with (s_prefix (gs_arr sp') 39) in H.
    destruct (Hp 39 ltac:(unfold ncells; cbn; lia)) as [E1 E2]. specialize (E2 0 ltac:(cbn; lia)).
    specialize (Hb 0 ltac:(cbn; lia)). rewrite (Hc 0 ltac:(cbn; lia)) in Hb. change (ncells g8) with 40 in Hb.
    rewrite EN in H. replace (1 - s_prefix (gs_arr sp') 39 >? 0) with false in H by lia. subst data. reflexivity.
  - rewrite <- (map_length (fun q => lw (fst q))). rewrite w_cpu by lra. reflexivity.
Qed.
