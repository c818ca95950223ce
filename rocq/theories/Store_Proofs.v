From Verif Require Import Base Store_Model Store_Spec.
From Coq Require Import Reals String List Lra Lia.
From Coquelicot Require Import Complex.
Open Scope R_scope.

Lemma write_from mode : forall l d k ir iz, (forall m, In m l -> (1 <= m)%Z) -> NoDup l ->
  fold_left (fun d m => set_slice (set_slice d (2 * m - 1) (fun ir iz => 2 * fst (mode m iz ir))) (2 * m) (fun ir iz => 2 * snd (mode m iz ir))) l d k ir iz =
  (if existsb (fun m => k =? 2 * m - 1)%Z l then 2 * fst (mode ((k + 1) / 2)%Z iz ir) else if existsb (fun m => k =? 2 * m)%Z l then 2 * snd (mode (k / 2)%Z iz ir) else d k ir iz).
Proof.
  induction l as [|m l IH]; intros d k ir iz Hm N; [reflexivity|]. cbn [fold_left existsb]. inversion N as [|m' l' Nm Nl]; subst.
  rewrite IH by (intros; auto with datatypes). unfold set_slice.
  assert (E0 : (k =? 2 * m)%Z = true -> existsb (fun m => k =? 2 * m - 1)%Z l = false /\ existsb (fun m => k =? 2 * m)%Z l = false).
  { intros E. apply Z.eqb_eq in E. split; apply Bool.not_true_iff_false; intros X; apply existsb_exists in X as (y & Y & Z); apply Z.eqb_eq in Z; [lia|]. assert (y = m) by lia. subst. contradiction. }
  assert (E1 : (k =? 2 * m - 1)%Z = true -> existsb (fun m => k =? 2 * m - 1)%Z l = false /\ existsb (fun m => k =? 2 * m)%Z l = false /\ (k =? 2 * m)%Z = false).
  { intros E. apply Z.eqb_eq in E. split; [|split]; [apply Bool.not_true_iff_false; intros X; apply existsb_exists in X as (y & Y & Z); apply Z.eqb_eq in Z; [assert (y = m) by lia; subst; contradiction..]| |apply Z.eqb_neq; lia].
    apply Bool.not_true_iff_false; intros X; apply existsb_exists in X as (y & Y & Z); apply Z.eqb_eq in Z; lia. }
  destruct (k =? 2 * m - 1)%Z eqn:K1.
  - destruct (E1 eq_refl) as (-> & -> & ->). cbn [orb]. apply Z.eqb_eq in K1. replace ((k + 1) / 2)%Z with m; [reflexivity|]. apply Z.div_unique with 0%Z; lia.
  - cbn [orb]. destruct (k =? 2 * m)%Z eqn:K2; [|reflexivity]. destruct (E0 eq_refl) as (-> & ->). cbn [orb]. apply Z.eqb_eq in K2. replace (k / 2)%Z with m; [reflexivity|]. apply Z.div_unique with 0%Z; lia.
Qed.
Lemma zrange_one_in Nm m : In m (range1 Nm) <-> (1 <= m < Nm)%Z.
Proof. unfold range1. rewrite in_map_iff. split; [intros (i & <- & H); apply in_range in H; lia|]. intros H. exists (m - 1)%Z. rewrite in_range. lia. Qed.
Lemma zrange_one_nodup Nm : NoDup (range1 Nm).
Proof. unfold range1. apply FinFun.Injective_map_NoDup; [intros i j; lia|apply NoDup_range]. Qed.
Lemma write_mode0 Nm mode old ir iz : write_dataset Nm mode old 0%Z ir iz = fst (mode 0%Z iz ir).
Proof.
  unfold write_dataset. rewrite write_from; [|intros m Hm; apply zrange_one_in in Hm; lia|apply zrange_one_nodup].
  assert (A : forall f : Z -> Z, (forall m, (1 <= m)%Z -> (1 <= f m)%Z) -> existsb (fun m => 0 =? f m)%Z (range1 Nm) = false).
  { intros f H. apply Bool.not_true_iff_false. intros X. apply existsb_exists in X as (y & Y & Z). apply Z.eqb_eq in Z. apply zrange_one_in in Y. specialize (H y). lia. }
  rewrite (A (fun m => 2 * m - 1)%Z), (A (fun m => 2 * m)%Z) by (intros; lia). unfold set_slice. reflexivity.
Qed.
Lemma write_mode Nm mode old m ir iz : (1 <= m < Nm)%Z ->
  write_dataset Nm mode old (2 * m - 1)%Z ir iz = 2 * fst (mode m iz ir) /\ write_dataset Nm mode old (2 * m)%Z ir iz = 2 * snd (mode m iz ir).
Proof.
  intros H. unfold write_dataset. rewrite !write_from; try apply zrange_one_nodup; try (intros x Hx; apply zrange_one_in in Hx; lia). split.
  - replace (existsb _ _) with true by (symmetry; apply existsb_exists; exists m; split; [apply zrange_one_in; lia|apply Z.eqb_refl]).
    replace ((2 * m - 1 + 1) / 2)%Z with m; [reflexivity|]. apply Z.div_unique with 0%Z; lia.
  - replace (existsb (fun m0 => (2 * m =? 2 * m0 - 1)%Z) _) with false.
    + replace (existsb _ _) with true by (symmetry; apply existsb_exists; exists m; split; [apply zrange_one_in; lia|apply Z.eqb_refl]).
      replace (2 * m / 2)%Z with m; [reflexivity|]. apply Z.div_unique with 0%Z; lia.
    + symmetry. apply Bool.not_true_iff_false. intros X. apply existsb_exists in X as (y & Y & Z). apply Z.eqb_eq in Z. lia.
Qed.

(** Selection *)
Lemma land_length a : forall b, length (logical_and a b) = Nat.min (length a) (length b).
Proof. induction a as [|x a IH]; intros [|y b]; cbn; [reflexivity..|]. rewrite IH. reflexivity. Qed.
Lemma mask_land {A} (f : A -> bool) : forall (l : list A) b, length b = length l -> mask l (logical_and (map f l) b) = filter f (mask l b).
Proof.
  induction l as [|x l IH]; intros [|y b] H; try reflexivity. cbn [map logical_and]. injection H as H. specialize (IH b H).
  destruct y; [rewrite Bool.andb_true_r|rewrite Bool.andb_false_r; exact IH]. cbn [mask filter]. destruct (f x); cbn [mask]; rewrite IH; reflexivity.
Qed.
Lemma mask_map {A B} (f : A -> B) : forall l b, mask (map f l) b = map f (mask l b).
Proof. induction l as [|x l IH]; intros [|[] b]; cbn; try reflexivity; rewrite IH; reflexivity. Qed.
Lemma mask_all {A} (l : list A) : mask l (repeat true (length l)) = l.
Proof. induction l; cbn; [reflexivity|]. rewrite IHl. reflexivity. Qed.
Definition rule_ok (r : rule) (p : particle) : bool := let '(q, (lo, hi)) := r in
  (match lo with None => true | Some b => Rltb b (value q p) end && match hi with None => true | Some b => Rltb (value q p) b end)%bool.
Lemma quantity_value s q : available s q -> quantity_array s q = Ok (map (value q) (s_ptcl s)).
Proof. unfold available, quantity_array, value. destruct (q =? "gamma")%string; intros ->; reflexivity. Qed.
Lemma filter_true {A} (l : list A) : filter (fun _ => true) l = l.
Proof. induction l as [|x l IH]; [reflexivity|]. cbn. rewrite IH. reflexivity. Qed.
Lemma filter_comp {A} (f g : A -> bool) l : filter f (filter g l) = filter (fun x => (g x && f x)%bool) l.
Proof. induction l as [|x l IH]; [reflexivity|]. cbn. destruct (g x); cbn; [destruct (f x); rewrite IH; reflexivity|exact IH]. Qed.
Lemma rule_kept s q lo hi a : available s q -> length a = length (s_ptcl s) ->
  exists a', apply_rule s (q, (lo, hi)) a = Ok a' /\ length a' = length (s_ptcl s) /\
  mask (s_ptcl s) a' = filter (rule_ok (q, (lo, hi))) (mask (s_ptcl s) a).
Proof.
  intros V L. unfold apply_rule. rewrite (quantity_value s q V). cbn [bind]. cbv zeta.
  set (lof := fun p => match lo with None => true | Some b => Rltb b (value q p) end).
  set (a1 := match lo with None => a | Some b => logical_and (map (fun x => Rltb b x) (map (value q) (s_ptcl s))) a end).
  assert (H1 : length a1 = length (s_ptcl s) /\ mask (s_ptcl s) a1 = filter lof (mask (s_ptcl s) a)).
  { unfold a1, lof. destruct lo.
    - rewrite map_map. split; [rewrite land_length, map_length, L; apply Nat.min_id|apply mask_land; exact L].
    - split; [exact L|]. symmetry. apply filter_true. }
  destruct H1 as [L1 M1]. clearbody a1. eexists. split; [reflexivity|]. replace (rule_ok (q, (lo, hi))) with (fun p => (lof p && match hi with None => true | Some b => Rltb (value q p) b end)%bool) by reflexivity.
  rewrite <- filter_comp, <- M1. destruct hi.
  - rewrite map_map. split; [rewrite land_length, map_length, L1; apply Nat.min_id|apply mask_land; exact L1].
  - split; [exact L1|]. symmetry. apply filter_true.
Qed.
Lemma apply_rules s : forall rules a, length a = length (s_ptcl s) -> (forall q b, In (q, b) rules -> available s q) ->
  exists a', fold_left (fun acc r => bind acc (apply_rule s r)) rules (Ok a) = Ok a' /\ length a' = length (s_ptcl s) /\
  mask (s_ptcl s) a' = filter (fun p => forallb (fun r => rule_ok r p) rules) (mask (s_ptcl s) a).
Proof.
  induction rules as [|[q [lo hi]] rules IH]; intros a L V.
  - exists a. split; [reflexivity|]. split; [exact L|]. symmetry. apply filter_true.
  - cbn [fold_left]. cbn [bind]. destruct (rule_kept s q lo hi a (V q _ (or_introl eq_refl)) L) as (a1 & E & L1 & M). rewrite E.
    destruct (IH a1 L1 (fun q b H => V q b (or_intror H))) as (a' & E' & L' & M'). exists a'. split; [exact E'|]. split; [exact L'|].
    rewrite M', M, filter_comp. reflexivity.
Qed.
Lemma Rltb_true a b : Rltb a b = true <-> a < b.
Proof. unfold Rltb. destruct (Rlt_dec a b); split; intros; try assumption; try reflexivity; [discriminate|contradiction]. Qed.
Lemma within_rules rules p : forallb (fun r => rule_ok r p) rules = true <-> within rules p.
Proof.
  rewrite forallb_forall. unfold within. split.
  - intros H q lo hi I. specialize (H _ I). cbn in H. apply andb_prop in H as [A B]. split; intros b ->; apply Rltb_true; assumption.
  - intros H [q [lo hi]] I. destruct (H q lo hi I) as [A B]. cbn. apply andb_true_intro. split; [destruct lo as [b|]|destruct hi as [b|]]; try reflexivity; apply Rltb_true; auto.
Qed.
(** Gathering *)
Lemma put_next {A} (pre a rest : list A) : (length a <= length rest)%nat -> put (pre ++ rest) (length pre) a = (pre ++ a) ++ skipn (length a) rest.
Proof.
  intros H. unfold put. rewrite firstn_app, Nat.sub_diag, firstn_all. cbn [firstn]. rewrite app_nil_r, skipn_app.
  rewrite (skipn_all2 pre) by lia. replace (length pre + length a - length pre)%nat with (length a) by lia. cbn. rewrite app_assoc. reflexivity.
Qed.
Lemma gather_from {A} : forall (arrays : list (list A)) pre rest, length rest = length (List.concat arrays) ->
  fold_left (fun b '(start, a) => put b start a) (combine (cumsum (length pre) (map (@List.length A) arrays)) arrays) (pre ++ rest) = pre ++ List.concat arrays.
Proof.
  induction arrays as [|a arrays IH]; intros pre rest H; cbn in *.
  - apply length_zero_iff_nil in H. subst. reflexivity.
  - rewrite app_length in H. rewrite put_next by lia. rewrite <- (app_length pre a), IH; [rewrite app_assoc; reflexivity|]. rewrite skipn_length. lia.
Qed.
Lemma gather_concat {A} (arrays : list (list A)) buf : length buf = length (List.concat arrays) -> gather_ptcl_array buf arrays = List.concat arrays.
Proof. intros H. apply (gather_from arrays [] buf H). Qed.

(** Everything together: one rank. *)
Definition drawn (subsampling : option R) (x : particle * R) : bool := match subsampling with None => true | Some f => Rltb (snd x) f end.
Definition kept (subsampling : option R) (rules : list rule) (s : species) (draws : list R) : list particle :=
  filter (fun p => forallb (fun r => rule_ok r p) rules) (map fst (filter (drawn subsampling) (combine (s_ptcl s) draws))).
Lemma draw_mask (f : R) : forall (l : list particle) draws, length draws = length l ->
  mask l (logical_and (map (fun u => Rltb u f) draws) (repeat true (length l))) = map fst (filter (fun x => Rltb (snd x) f) (combine l draws)).
Proof.
  induction l as [|x l IH]; intros [|u draws] H; try reflexivity; try discriminate. cbn [length map repeat logical_and combine filter snd]. injection H as H.
  rewrite Bool.andb_true_r. destruct (Rltb u f); cbn [mask map fst]; rewrite (IH draws H); reflexivity.
Qed.
Lemma selection_kept sub draws select s : length draws = length (s_ptcl s) ->
  (forall rules q b, select = Some rules -> In (q, b) rules -> available s q) ->
  exists a, apply_selection sub draws select s = Ok a /\ length a = length (s_ptcl s) /\
    mask (s_ptcl s) a = kept sub (match select with None => [] | Some rules => rules end) s draws.
Proof.
  intros L V. unfold apply_selection. cbv zeta.
  set (a0 := match sub with None => _ | Some _ => _ end).
  assert (H0 : length a0 = length (s_ptcl s) /\ mask (s_ptcl s) a0 = map fst (filter (drawn sub) (combine (s_ptcl s) draws))).
  { unfold a0, drawn. destruct sub as [f|].
    - split; [rewrite land_length, map_length, repeat_length, L; apply Nat.min_id|apply draw_mask; exact L].
    - split; [apply repeat_length|]. rewrite mask_all, filter_true. clear - L. revert draws L. induction (s_ptcl s) as [|x l IH]; intros [|u d] L; try reflexivity; [discriminate|]. cbn. rewrite <- IH; [reflexivity|]. injection L as L. exact L. }
  destruct H0 as [L0 M0]. unfold kept. rewrite <- M0. destruct select as [rules|].
  - apply apply_rules; [exact L0|]. intros q b I. exact (V rules q b eq_refl I).
  - exists a0. split; [reflexivity|]. split; [exact L0|]. cbn. rewrite filter_true. reflexivity.
Qed.
Lemma local_kept cc s q a : available s q -> local_dataset cc s q a = Ok (map (fun p => value q p * unit_of cc (s_m s) q) (mask (s_ptcl s) a)).
Proof.
  intros V. unfold local_dataset. rewrite (quantity_value s q V). cbn [bind]. rewrite mask_map. unfold unit_of. f_equal.
  assert (E : forall l, map (value q) l = map (fun p => value q p * 1) l) by (intros l; apply map_ext; intros; ring).
  destruct ((q =? "ux") || (q =? "uy") || (q =? "uz"))%string; [|apply E]. destruct (Rlt_dec 0 (s_m s)); [|apply E]. rewrite map_map. reflexivity.
Qed.
Lemma all_ok_map {A B} (f : A -> res B) (g : A -> B) : forall l, (forall x, In x l -> f x = Ok (g x)) -> all_ok (map f l) = Ok (map g l).
Proof. induction l as [|x l IH]; intros H; [reflexivity|]. cbn. rewrite (H x (or_introl eq_refl)). cbn. rewrite IH by (intros; apply H; right; assumption). reflexivity. Qed.
