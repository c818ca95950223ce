(** Proofs for C27 and C28. *)
From Verif Require Import Base Inject_Proofs Chunk_Proofs Sort_Model Sort_Proofs Ionize_Model Ionize_Spec.
From Coq Require Import Reals Lra.
Open Scope Z_scope.

(** ** Batches *)
Lemma range2_range b : range2 0 b = range b.
Proof. unfold range2. rewrite Z.sub_0_r. rewrite (map_ext _ (fun i => i)) by (intros; lia). apply map_id. Qed.
Lemma range2_empty a b : b <= a -> range2 a b = [].
Proof. intros H. unfold range2. rewrite range_0 by lia. reflexivity. Qed.
Lemma range_range2 a b : 0 <= a <= b -> range a ++ range2 a b = range b.
Proof. intros H. unfold range2. replace b with (a + (b - a)) at 2 by lia. rewrite range_add by lia. reflexivity. Qed.
Lemma in_range2 a b i : In i (range2 a b) <-> a <= i < b.
Proof.
  unfold range2. rewrite in_map_iff. split.
  - intros (k & <- & Hk). apply in_range in Hk. lia.
  - intros H. exists (i - a). split; [lia|]. apply in_range. lia.
Qed.
Lemma NoDup_range2 a b : NoDup (range2 a b).
Proof. unfold range2. apply FinFun.Injective_map_NoDup; [intros u v; lia|apply NoDup_range]. Qed.

Lemma batches_flat N bs k : 0 < bs -> 0 <= N -> 0 <= k ->
  flat_map (batch_ips N bs) (range k) = range (Z.min (k * bs) N).
Proof.
  intros Hb HN Hk. pattern k. apply natlike_ind; [| |exact Hk].
  - replace (0 * bs) with 0 by lia. rewrite Z.min_l by lia. reflexivity.
  - intros i Hi IH. unfold Z.succ. rewrite range_succ by lia. rewrite flat_map_app, IH. cbn [flat_map]. rewrite app_nil_r.
    unfold batch_ips. destruct (Z.le_gt_cases N (i * bs)) as [L|L].
    + rewrite range2_empty by lia. rewrite app_nil_r. f_equal. nia.
    + rewrite Z.min_l by lia. apply range_range2. nia.
Qed.
Lemma batches_all N bs : 0 < bs -> 0 <= N -> flat_map (batch_ips N bs) (range (Z.quot N bs + 1)) = range N.
Proof.
  intros Hb HN. assert (0 <= Z.quot N bs) by (apply Z.quot_pos; lia). rewrite batches_flat by lia. f_equal.
  rewrite Z.quot_div_nonneg by lia. pose proof (Z.div_mod N bs ltac:(lia)). pose proof (Z.mod_pos_bound N bs Hb). nia.
Qed.

Definition zlen {A} (l : list A) : Z := Z.of_nat (length l).
Lemma zlen_app {A} (l m : list A) : zlen (l ++ m) = zlen l + zlen m.
Proof. unfold zlen. rewrite app_length. lia. Qed.
Lemma zlen_cons {A} (a : A) l : zlen (a :: l) = 1 + zlen l.
Proof. unfold zlen. simpl length. lia. Qed.

(** ** Numbered writes *)
Fixpoint number {A} (i : Z) (l : list A) : list (Z * option A) :=
  match l with [] => [] | a :: l => (i, Some a) :: number (i + 1) l end.
Lemma number_app {A} (l m : list A) : forall i, number i (l ++ m) = number i l ++ number (i + zlen l) m.
Proof.
  induction l as [|a l IH]; intros i.
  - cbn. rewrite Z.add_0_r. reflexivity.
  - rewrite zlen_cons. cbn [app number]. f_equal. rewrite IH. do 2 f_equal. lia.
Qed.
Lemma in_number {A} (l : list A) : forall i j v, In (j, v) (number i l) <-> exists k, (k < length l)%nat /\ j = i + Z.of_nat k /\ nth_error l k = match v with Some a => Some a | None => None end /\ v <> None.
Proof.
  induction l as [|a l IH]; intros i j v; cbn [number In length].
  - split; [intros []|intros (k & H & _); lia].
  - rewrite IH. split.
    + intros [E|(k & H1 & H2 & H3 & H4)].
      * injection E as <- <-. exists O. split; [lia|]. split; [lia|]. split; [reflexivity|discriminate].
      * exists (S k). split; [lia|]. split; [lia|]. split; [exact H3|exact H4].
    + intros (k & H1 & H2 & H3 & H4). destruct k as [|k].
      * left. cbn in H3. destruct v as [v|]; [|congruence]. injection H3 as ->. f_equal. lia.
      * right. exists k. split; [lia|]. split; [lia|]. split; [exact H3|exact H4].
Qed.

Lemma number_nth {A} (l : list A) : forall i k d, (k < length l)%nat -> In (i + Z.of_nat k, Some (nth k l d)) (number i l).
Proof.
  induction l as [|a l IH]; intros i k d Hk; cbn [length] in Hk; [lia|]. destruct k as [|k]; cbn [number nth].
  - left. f_equal. lia.
  - right. replace (i + Z.of_nat (S k)) with (i + 1 + Z.of_nat k) by lia. apply IH. lia.
Qed.
Lemma number_inv {A} (l : list A) : forall i j v d, In (j, v) (number i l) -> exists k, (k < length l)%nat /\ j = i + Z.of_nat k /\ v = Some (nth k l d).
Proof.
  induction l as [|a l IH]; intros i j v d H; cbn [number] in H; [destruct H|]. destruct H as [E|H].
  - injection E as <- <-. exists O. cbn. split; [lia|]. split; [lia|reflexivity].
  - apply (IH _ _ _ d) in H as (k & H1 & H2 & H3). exists (S k). cbn [length nth]. split; [lia|]. split; [lia|exact H3].
Qed.
Lemma map_range_nth {A B} (f : A -> B) (l : list A) d : map (fun i => f (nth (Z.to_nat i) l d)) (range (zlen l)) = map f l.
Proof.
  unfold range, zrange, zlen. rewrite Nat2Z.id, map_map.
  rewrite (map_ext (fun i => f (nth (Z.to_nat (Z.of_nat i)) l d)) (fun i => f (nth i l d))) by (intros; rewrite Nat2Z.id; reflexivity).
  induction l as [|a l IH]; [reflexivity|]. cbn [length seq map]. f_equal. rewrite <- seq_shift, map_map. exact IH.
Qed.

Lemma write_numbered {A} (els : list A) (a : Z -> option A) old : 0 <= old ->
  map (apply_writes (fun i => if (0 <=? i) && (i <? old) then a i else None) (number old els)) (range (old + zlen els)) =
  map a (range old) ++ map Some els.
Proof.
  intros Ho. rewrite range_add by (unfold zlen; lia). rewrite map_app, map_map. f_equal.
  - apply map_ext_in. intros i Hi. apply in_range in Hi. rewrite apply_writes_none.
    + replace (0 <=? i) with true by lia. replace (i <? old) with true by lia. reflexivity.
    + intros [j v] Hj E. cbn in E. destruct els as [|e els']; [destruct Hj|].
      apply (number_inv _ _ _ _ e) in Hj as (k & _ & -> & _). lia.
  - destruct els as [|e els'] eqn:Ee; [reflexivity|]. rewrite <- Ee. rewrite <- (map_range_nth Some els e).
    apply map_ext_in. intros i Hi. apply in_range in Hi. unfold zlen in Hi. apply apply_writes_val.
    + intros [j v] Hj Hv. cbn in Hv. apply (number_inv _ _ _ _ e) in Hj as (k & _ & E2 & ->). cbn. do 2 f_equal. lia.
    + replace i with (Z.of_nat (Z.to_nat i)) at 1 by lia. apply number_nth. lia.
Qed.

Lemma cumsum_step a l b : 0 <= b -> perform_cumsum_2d a l (b + 1) = perform_cumsum_2d a l b + a l b.
Proof. intros H. unfold perform_cumsum_2d. rewrite range_succ by lia. rewrite fold_left_app. reflexivity. Qed.

Lemma upd_eq {V} (a : Z -> V) i v : upd a (i, v) i = v.
Proof. unfold upd. cbn. rewrite Z.eqb_refl. reflexivity. Qed.
Lemma upd_neq {V} (a : Z -> V) i j v : j <> i -> upd a (i, v) j = a j.
Proof. intros H. unfold upd. cbn. destruct (Z.eqb_spec j i); [congruence|reflexivity]. Qed.

Section P.
Context (c : R) (tab : adk) (level_start level_max n_levels Ntot batch_size : Z)
        (ion : Z -> ptc) (random_draw : Z -> R).
Notation ev := (event c tab level_max ion random_draw).
Notation one := (ionize_one c tab level_start level_max n_levels ion random_draw).
Notation bat := (ionize_batch c tab level_start level_max n_levels Ntot batch_size ion random_draw).

Definition row (lv : Z) : Z := if n_levels =? 1 then 0 else lv - level_start.
Definition hit (s : istate) (l ip : Z) : bool := ev s ip && (l =? row (ionization_level s ip)).

(** Effect on one ion. *)
Definition done (s s' : istate) (ip : Z) : Prop :=
  ionized_from s' ip = (if ev s ip then ionization_level s ip - level_start else -1) /\
  ionization_level s' ip = (if ev s ip then ionization_level s ip + 1 else ionization_level s ip) /\
  w_times_level s' ip = (if ev s ip then (w (ion ip) * IZR (ionization_level s ip + 1))%R else w_times_level s ip).
Definition same (s s' : istate) (ip : Z) : Prop :=
  ionized_from s' ip = ionized_from s ip /\ ionization_level s' ip = ionization_level s ip /\
  w_times_level s' ip = w_times_level s ip.

Lemma one_spec b s ip : done s (one b s ip) ip /\ (forall j, j <> ip -> same s (one b s ip) j) /\
  (forall l b', n_ionized (one b s ip) l b' = n_ionized s l b' + (if (b' =? b) && hit s l ip then 1 else 0)).
Proof.
  unfold done, same, hit, event, one. cbv zeta. unfold row.
  destruct (Z.geb_spec (ionization_level s ip) level_max) as [L|L];
    [replace (ionization_level s ip <? level_max) with false by lia|replace (ionization_level s ip <? level_max) with true by lia];
    cbn [andb].
  - cbn [ionized_from ionization_level w_times_level n_ionized]. rewrite upd_eq. split; [auto|]. split.
    + intros j Hj. rewrite upd_neq by exact Hj. auto.
    + intros l b'. rewrite andb_false_r. lia.
  - destruct (Rlt_dec _ _) as [D|D]; cbn [ionized_from ionization_level w_times_level n_ionized andb].
    + rewrite !upd_eq. split; [auto|]. split.
      * intros j Hj. rewrite !upd_neq by exact Hj. auto.
      * intros l b'. rewrite (andb_comm (l =? _)). destruct (_ && _); lia.
    + rewrite upd_eq. split; [auto|]. split.
      * intros j Hj. rewrite upd_neq by exact Hj. auto.
      * intros l b'. rewrite andb_false_r. lia.
Qed.

Lemma ev_same s s' ip : ionization_level s' ip = ionization_level s ip -> ev s' ip = ev s ip.
Proof. intros E. unfold event. rewrite E. reflexivity. Qed.
Lemma hit_same s s' l ip : ionization_level s' ip = ionization_level s ip -> hit s' l ip = hit s l ip.
Proof. intros E. unfold hit. rewrite (ev_same s s' ip E), E. reflexivity. Qed.
Lemma done_same_l s s1 s2 ip : same s s1 ip -> done s1 s2 ip -> done s s2 ip.
Proof. intros (A & B & C) (D & E & F). unfold done. rewrite <- (ev_same s s1 ip B). rewrite <- B, <- C. auto. Qed.
Lemma done_same_r s s1 s2 ip : done s s1 ip -> same s1 s2 ip -> done s s2 ip.
Proof. intros (A & B & C) (D & E & F). unfold done. rewrite D, E, F. auto. Qed.
Lemma same_trans s s1 s2 ip : same s s1 ip -> same s1 s2 ip -> same s s2 ip.
Proof. intros (A & B & C) (D & E & F). unfold same. rewrite D, E, F. auto. Qed.

Lemma fold_ips b L : forall s, NoDup L -> let s' := fold_left (one b) L s in
  (forall ip, In ip L -> done s s' ip) /\ (forall ip, ~ In ip L -> same s s' ip) /\
  (forall l b', n_ionized s' l b' = n_ionized s l b' + (if b' =? b then zlen (filter (hit s l) L) else 0)).
Proof.
  induction L as [|i L IH]; intros s Hnd; cbv zeta; cbn [fold_left].
  - split; [intros ip []|]. split; [intros ip _; unfold same; auto|]. intros l b'. cbn. destruct (b' =? b); lia.
  - inversion Hnd as [|? ? Hi HL]; subst. destruct (one_spec b s i) as (O1 & O2 & O3).
    destruct (IH (one b s i) HL) as (A & B & C). split; [|split].
    + intros ip [<-|Hip].
      * eapply done_same_r; [exact O1|]. apply B. exact Hi.
      * eapply done_same_l; [|apply A; exact Hip]. apply O2. intros ->. contradiction.
    + intros ip Hn. eapply same_trans; [|apply B; intros H; apply Hn; right; exact H].
      apply O2. intros ->. apply Hn. left. reflexivity.
    + intros l b'. rewrite C, O3. cbn [filter].
      rewrite (filter_ext_in (hit (one b s i) l) (hit s l)).
      * destruct (b' =? b), (hit s l i); cbn [andb]; rewrite ?zlen_cons; lia.
      * intros j Hj. apply hit_same. apply (O2 j). intros ->. contradiction.
Qed.

Lemma fold_batches B : forall s, NoDup (flat_map (batch_ips Ntot batch_size) B) -> NoDup B ->
  let s' := fold_left bat B s in
  (forall ip, In ip (flat_map (batch_ips Ntot batch_size) B) -> done s s' ip) /\
  (forall ip, ~ In ip (flat_map (batch_ips Ntot batch_size) B) -> same s s' ip) /\
  (forall l b, 0 <= l < n_levels -> n_ionized s' l b = if in_dec Z.eq_dec b B then zlen (filter (hit s l) (batch_ips Ntot batch_size b)) else n_ionized s l b).
Proof.
  induction B as [|b B IH]; intros s Hnd HB; cbv zeta; cbn [fold_left flat_map].
  - split; [intros ip []|]. split; [intros ip _; unfold same; auto|]. intros l b _. destruct (in_dec _ b []) as [[]|]. reflexivity.
  - cbn [flat_map] in Hnd. inversion HB as [|? ? Hb HB']; subst.
    assert (Hd : forall j, In j (batch_ips Ntot batch_size b) -> ~ In j (flat_map (batch_ips Ntot batch_size) B)).
    { revert Hnd. generalize (batch_ips Ntot batch_size b) as L. induction L as [|a L IHL]; [intros _ j []|]. intros HN j [E|E].
      - subst a. inversion HN as [|? ? Ha _]. intros H'. apply Ha. apply in_or_app. right. exact H'.
      - apply IHL; [inversion HN; assumption|assumption]. }
    assert (HBn : NoDup (flat_map (batch_ips Ntot batch_size) B)).
    { revert Hnd. generalize (batch_ips Ntot batch_size b) as L. induction L as [|a L IHL]; intros HN; [exact HN|]. inversion HN; auto. }
    set (s0 := {| ionized_from := ionized_from s;
               n_ionized := fun l b' => if (b' =? b) && (0 <=? l) && (l <? n_levels) then 0 else n_ionized s l b';
               ionization_level := ionization_level s; w_times_level := w_times_level s |}).
    destruct (fold_ips b (batch_ips Ntot batch_size b) s0 (NoDup_range2 _ _)) as (A1 & A2 & A3).
    change (fold_left (one b) (batch_ips Ntot batch_size b) s0) with (bat s b) in *.
    assert (E0 : forall ip, same s s0 ip) by (intros ip; unfold same; auto).
    destruct (IH (bat s b) HBn HB') as (B1 & B2 & B3). split; [|split].
    + intros ip Hip. apply in_app_or in Hip as [Hip|Hip].
      * eapply done_same_r; [eapply done_same_l; [apply E0|apply A1; exact Hip]|]. apply B2. apply Hd. exact Hip.
      * eapply done_same_l; [|apply B1; exact Hip]. eapply same_trans; [apply E0|]. apply A2. intros H. exact (Hd ip H Hip).
    + intros ip Hn. eapply same_trans; [eapply same_trans; [apply E0|apply A2]|apply B2]; intros H; apply Hn; apply in_or_app; [left|right]; exact H.
    + intros l b' Hl. rewrite B3 by exact Hl. destruct (in_dec Z.eq_dec b' B) as [I|I], (in_dec Z.eq_dec b' (b :: B)) as [J|J].
      * f_equal. apply filter_ext_in. intros j Hj. apply hit_same. apply (same_trans s s0 (bat s b) j); [apply E0|].
        apply A2. intros H. apply (Hd j H). apply in_flat_map. exists b'. auto.
      * exfalso. apply J. right. exact I.
      * destruct J as [->|J]; [|contradiction]. rewrite A3. rewrite Z.eqb_refl. cbn [n_ionized s0]. rewrite Z.eqb_refl.
        replace (0 <=? l) with true by lia. replace (l <? n_levels) with true by lia. cbn [andb].
        rewrite Z.add_0_l. reflexivity.
      * rewrite A3. cbn [n_ionized s0]. destruct (Z.eqb_spec b' b) as [->|]; [exfalso; apply J; left; reflexivity|]. cbn [andb]. lia.
Qed.

(** ** Copy of the electrons *)
Lemma copy_fold (cr : Z -> bool) L : forall i ws,
  fold_left (fun '(elec_index, ws) ion_index =>
     if cr ion_index then (elec_index + 1, ws ++ [(elec_index, Some (electron_of (ion ion_index)))]) else (elec_index, ws)) L (i, ws) =
  (i + zlen (filter cr L), ws ++ number i (map (fun j => electron_of (ion j)) (filter cr L))).
Proof.
  induction L as [|j L IH]; intros i ws; cbn [fold_left filter].
  - cbn. rewrite app_nil_r. f_equal. unfold zlen. cbn. lia.
  - destruct (cr j).
    + rewrite IH. cbn [map number]. rewrite zlen_cons. f_equal; [lia|]. rewrite <- app_assoc. reflexivity.
    + apply IH.
Qed.
Lemma electron_of_id a : electron_of a = a. Proof. destruct a; reflexivity. Qed.

Lemma copy_all per l old (n : Z -> Z -> Z) from k : 0 <= k ->
  (forall b, 0 <= b < k -> n l b = zlen (filter (fun j => create_electron per l (from j)) (batch_ips Ntot batch_size b))) ->
  let sel := filter (fun j => create_electron per l (from j)) (flat_map (batch_ips Ntot batch_size) (range k)) in
  copy_electrons Ntot batch_size ion per l old (perform_cumsum_2d n) from k = number old (map ion sel) /\
  perform_cumsum_2d n l k = zlen sel.
Proof.
  intros Hk. pattern k. apply natlike_ind; [| |exact Hk].
  - intros _. cbv zeta. split; reflexivity.
  - intros i Hi IH Hn. unfold Z.succ in *. cbv zeta in *. destruct IH as [IH1 IH2]; [intros b Hb; apply Hn; lia|].
    rewrite range_succ by lia. rewrite flat_map_app. cbn [flat_map]. rewrite app_nil_r, filter_app, map_app, number_app.
    unfold copy_electrons in *. rewrite range_succ by lia. rewrite flat_map_app, IH1. cbn [flat_map]. rewrite app_nil_r.
    rewrite cumsum_step by lia. rewrite Hn by lia. rewrite zlen_app, IH2. split; [|reflexivity].
    f_equal. unfold copy_batch. rewrite copy_fold. cbn [snd app]. rewrite IH2. unfold zlen at 2. rewrite map_length.
    f_equal. apply map_ext. intros j. apply electron_of_id.
Qed.
End P.

(** ** Sums *)
Lemma sumR_app {A} (f : A -> R) l m : sumR f (l ++ m) = (sumR f l + sumR f m)%R.
Proof. induction l as [|a l IH]; simpl; [ring|]. rewrite IH. ring. Qed.
Lemma sumR_map {A B} (f : B -> R) (h : A -> B) l : sumR f (map h l) = sumR (fun a => f (h a)) l.
Proof. induction l as [|a l IH]; simpl; [reflexivity|]. rewrite IH. reflexivity. Qed.
Lemma sumR_flat_map {A B} (f : B -> R) (h : A -> list B) l : sumR f (flat_map h l) = sumR (fun a => sumR f (h a)) l.
Proof. induction l as [|a l IH]; simpl; [reflexivity|]. rewrite sumR_app, IH. reflexivity. Qed.
Lemma sumR_ext {A} (f h : A -> R) l : (forall a, In a l -> f a = h a) -> sumR f l = sumR h l.
Proof. induction l as [|a l IH]; intros H; simpl; [reflexivity|]. rewrite IH by (intros; apply H; right; assumption). rewrite H by (left; reflexivity). reflexivity. Qed.
Lemma sumR_plus {A} (f h : A -> R) l : sumR (fun a => (f a + h a)%R) l = (sumR f l + sumR h l)%R.
Proof. induction l as [|a l IH]; simpl; [ring|]. rewrite IH. ring. Qed.
Lemma sumR_zero {A} (f : A -> R) l : (forall a, In a l -> f a = 0%R) -> sumR f l = 0%R.
Proof. induction l as [|a l IH]; intros H; simpl; [reflexivity|]. rewrite IH by (intros; apply H; right; assumption). rewrite H by (left; reflexivity). ring. Qed.
Lemma sumR_swap {A B} (f : A -> B -> R) l m : sumR (fun a => sumR (f a) m) l = sumR (fun b => sumR (fun a => f a b) l) m.
Proof.
  induction l as [|a l IH]; simpl; [symmetry; apply sumR_zero; reflexivity|]. rewrite IH, <- sumR_plus. reflexivity.
Qed.
Lemma sumR_filter {A} (f : A -> R) P l : sumR f (filter P l) = sumR (fun a => if P a then f a else 0%R) l.
Proof. induction l as [|a l IH]; simpl; [reflexivity|]. destruct (P a); simpl; rewrite IH; ring. Qed.
Lemma sumR_pick {A} (dec : forall a b : A, {a = b} + {a <> b}) (v : R) k l : NoDup l -> In k l ->
  sumR (fun a => if dec k a then v else 0%R) l = v.
Proof.
  intros Hn. induction Hn as [|a l Ha Hn IH]; intros Hk; [destruct Hk|]. simpl. destruct (dec k a) as [->|N].
  - rewrite sumR_zero; [ring|]. intros b Hb. destruct (dec a b) as [->|]; [contradiction|reflexivity].
  - destruct Hk as [->|Hk]; [congruence|]. rewrite IH by exact Hk. ring.
Qed.

Lemma filter_filter' {A} (P Q : A -> bool) l : filter P (filter Q l) = filter (fun a => Q a && P a) l.
Proof. induction l as [|a l IH]; simpl; [reflexivity|]. destruct (Q a); simpl; rewrite IH; reflexivity. Qed.

(** ** The whole step *)
Section H.
Context (c : R) (tab : adk) (level_start level_max Ntot batch_size : Z) (ion : Z -> ptc) (random_draw : Z -> R) (per : bool).
Let n_levels := if per then level_max - level_start else 1.
Notation ev := (event c tab level_max ion random_draw).
Notation evs := (events c tab level_max Ntot ion random_draw).
Context (Hbs : 0 < batch_size) (HN : 0 <= Ntot).
Let NB := Z.quot Ntot batch_size + 1.
Let s_after s := ionize_ions c tab level_start level_max n_levels Ntot batch_size ion random_draw NB s.
Definition sel (s : istate) (l : Z) : list Z :=
  filter (fun ip => ev s ip && (if per then ionization_level s ip =? level_start + l else true)) (range Ntot).

Lemma after_done s ip : 0 <= ip < Ntot -> done c tab level_start level_max ion random_draw s (s_after s) ip.
Proof.
  intros Hip. unfold s_after, ionize_ions.
  destruct (fold_batches c tab level_start level_max n_levels Ntot batch_size ion random_draw (range NB) s) as (A & _ & _).
  - unfold NB. rewrite batches_all by assumption. apply NoDup_range.
  - apply NoDup_range.
  - apply A. unfold NB. rewrite batches_all by assumption. apply in_range. exact Hip.
Qed.
Lemma batch_in b ip : In ip (batch_ips Ntot batch_size b) -> 0 <= b -> 0 <= ip < Ntot.
Proof. unfold batch_ips. rewrite in_range2. intros H Hb. nia. Qed.
Lemma after_create s l ip : levels_ok level_start level_max Ntot s -> 0 <= l < n_levels -> 0 <= ip < Ntot ->
  create_electron per l (ionized_from (s_after s) ip) = ev s ip && (if per then ionization_level s ip =? level_start + l else true) /\
  hit c tab level_start level_max n_levels ion random_draw s l ip = ev s ip && (if per then ionization_level s ip =? level_start + l else true).
Proof.
  intros Hlv Hl Hip. destruct (after_done s ip Hip) as (-> & _). specialize (Hlv ip Hip). unfold hit, create_electron, row.
  unfold n_levels in *. destruct (ev s ip) eqn:Ev; cbn [andb].
  - assert (ionization_level s ip < level_max) by (unfold event in Ev; lia).
    destruct per; cbn [negb andb orb].
    + split; [lia|]. destruct (Z.eqb_spec (level_max - level_start) 1); lia.
    + split; [lia|]. cbn. lia.
  - split; [|reflexivity]. destruct per; cbn [negb andb orb]; lia.
Qed.
Lemma after_copy s l old : levels_ok level_start level_max Ntot s -> 0 <= l < n_levels ->
  copy_electrons Ntot batch_size ion per l old (perform_cumsum_2d (n_ionized (s_after s))) (ionized_from (s_after s)) NB =
    number old (map ion (sel s l)) /\
  perform_cumsum_2d (n_ionized (s_after s)) l NB = zlen (sel s l).
Proof.
  intros Hlv Hl. assert (HNB : 0 <= NB) by (unfold NB; assert (0 <= Z.quot Ntot batch_size) by (apply Z.quot_pos; lia); lia).
  assert (Es : sel s l = filter (fun j => create_electron per l (ionized_from (s_after s) j)) (flat_map (batch_ips Ntot batch_size) (range NB))).
  { unfold NB. rewrite batches_all by assumption. apply filter_ext_in. intros ip Hip. apply in_range in Hip. symmetry.
    apply (after_create s l ip Hlv Hl Hip). }
  rewrite Es. apply copy_all; [exact random_draw|exact HNB|]. intros b Hb.
  destruct (fold_batches c tab level_start level_max n_levels Ntot batch_size ion random_draw (range NB) s) as (_ & _ & A).
  - unfold NB. rewrite batches_all by assumption. apply NoDup_range.
  - apply NoDup_range.
  - unfold s_after at 1, ionize_ions. rewrite A by exact Hl. destruct (in_dec Z.eq_dec b (range NB)) as [_|n]; [|exfalso; apply n; apply in_range; exact Hb].
    f_equal. apply filter_ext_in. intros ip Hip. apply batch_in in Hip; [|lia]. destruct (after_create s l ip Hlv Hl Hip) as [-> ->]. reflexivity.
Qed.

Lemma fold_targets s P : levels_ok level_start level_max Ntot s -> forall st, sizes_ok st -> (forall l o, In (l, o) P -> 0 <= l < n_levels) ->
  let st' := fold_left (fun st '(i_level, o) =>
        let old_Ntot := fst (st o) in
        let new_Ntot := old_Ntot + perform_cumsum_2d (n_ionized (s_after s)) i_level NB in
        let a := apply_writes (reallocate_and_copy_old old_Ntot (snd (st o)))
                   (copy_electrons Ntot batch_size ion per i_level old_Ntot (perform_cumsum_2d (n_ionized (s_after s))) (ionized_from (s_after s)) NB) in
        fun o' => if Nat.eqb o' o then (new_Ntot, a) else st o') P st in
  sizes_ok st' /\ forall o, content st' o = content st o ++ map Some (flat_map (fun '(l, o') => if Nat.eqb o' o then map ion (sel s l) else []) P).
Proof.
  intros Hlv. induction P as [|[l o1] P IH]; intros st Hs HP; cbv zeta; cbn [fold_left flat_map].
  - split; [exact Hs|]. intros o. cbn. rewrite app_nil_r. reflexivity.
  - assert (Hl : 0 <= l < n_levels) by (apply (HP l o1); left; reflexivity).
    destruct (after_copy s l (fst (st o1)) Hlv Hl) as [E1 E2].
    match goal with |- sizes_ok (fold_left ?F P ?st1) /\ _ => set (st1' := st1); set (F' := F) in * end.
    assert (Hs1 : sizes_ok st1').
    { intros o. unfold st1'. cbv beta. destruct (Nat.eqb o o1); [|apply Hs]. cbn [fst]. rewrite E2. specialize (Hs o1). unfold zlen. lia. }
    destruct (IH st1' Hs1) as [A B]; [intros l' o' H; apply (HP l' o'); right; exact H|]. split; [exact A|].
    intros o. rewrite B. rewrite map_app, app_assoc. f_equal.
    unfold content, st1'. cbv beta. rewrite (Nat.eqb_sym o1 o). destruct (Nat.eqb_spec o o1) as [->|].
    + cbn [fst snd]. rewrite E1, E2. replace (zlen (sel s l)) with (zlen (map ion (sel s l))) by (unfold zlen; rewrite map_length; reflexivity).
      unfold reallocate_and_copy_old. apply write_numbered. apply Hs.
    + cbn. rewrite app_nil_r. reflexivity.
Qed.

Lemma received_sel s targets o : length targets = Z.to_nat n_levels ->
  received c tab level_start level_max Ntot ion random_draw per targets s o =
  flat_map (fun '(l, o') => if Nat.eqb o' o then map ion (sel s l) else []) (combine (range n_levels) targets).
Proof.
  intros Hlen. unfold received, sel, n_levels in *. destruct per.
  - apply flat_map_ext. intros [l o']. destruct (Nat.eqb o' o); [|reflexivity]. unfold events. rewrite filter_filter'. reflexivity.
  - destruct targets as [|o1 [|? ?]]; try discriminate. change (combine (range 1) [o1]) with [(0, o1)]. cbn [flat_map].
    destruct (Nat.eqb o1 o); [|reflexivity]. unfold events. do 2 f_equal. apply filter_ext. intros a. rewrite andb_true_r. reflexivity.
Qed.

Lemma handled s st targets s' st' : levels_ok level_start level_max Ntot s -> sizes_ok st -> Z.of_nat (length targets) = n_levels ->
  handle_ionization c tab level_start level_max Ntot batch_size ion random_draw per targets s st = Ok (s', st') ->
  (forall ip, 0 <= ip < Ntot -> done c tab level_start level_max ion random_draw s s' ip \/ (Ntot = 0)) /\ sizes_ok st' /\
  (forall o, content st' o = content st o ++ map Some (received c tab level_start level_max Ntot ion random_draw per targets s o)).
Proof.
  intros Hlv Hs Hlen. unfold handle_ionization. fold n_levels. unfold handle_ionization_n. cbv zeta.
  destruct (Z.eqb_spec Ntot 0) as [E|E].
  - intros H. injection H as <- <-. split; [right; exact E|]. split; [exact Hs|]. intros o. rewrite received_sel by lia.
    assert (Z0 : forall P : list (Z * nat), flat_map (fun '(l, o') => if Nat.eqb o' o then map ion (sel s l) else []) P = []).
    { intros P. induction P as [|[l o'] P IH]; [reflexivity|]. cbn [flat_map]. rewrite IH, app_nil_r. unfold sel. rewrite E.
      change (range 0) with (@nil Z). destruct (Nat.eqb o' o); reflexivity. }
    rewrite Z0. cbn. rewrite app_nil_r. reflexivity.
  - fold NB. fold (s_after s). destruct (forallb _ _) eqn:Ef.
    + intros H. injection H as <- <-. split; [intros ip Hip; left; apply after_done; exact Hip|]. split; [exact Hs|].
      intros o. rewrite received_sel by lia.
      assert (Z0 : forall P : list (Z * nat), (forall l o', In (l, o') P -> 0 <= l < n_levels) ->
        flat_map (fun '(l, o') => if Nat.eqb o' o then map ion (sel s l) else []) P = []).
      { intros P. induction P as [|[l o'] P IH]; intros HP; [reflexivity|]. cbn [flat_map].
        rewrite IH by (intros l' o2 H; apply (HP l' o2); right; exact H). rewrite app_nil_r.
        assert (Hl : 0 <= l < n_levels) by (apply (HP l o'); left; reflexivity).
        rewrite forallb_forall in Ef. assert (Hl' := proj2 (in_range n_levels l) Hl). specialize (Ef l Hl').
        destruct (after_copy s l 0 Hlv Hl) as [_ E2]. rewrite E2 in Ef.
        assert (sel s l = []) as -> by (apply length_zero_iff_nil; unfold zlen in Ef; lia).
        destruct (Nat.eqb o' o); reflexivity. }
      rewrite Z0; [cbn; rewrite app_nil_r; reflexivity|]. intros l o' H. apply in_combine_l in H. apply in_range in H. exact H.
    + destruct (negb _) eqn:En; [discriminate|]. intros H. injection H as <- <-.
      split; [intros ip Hip; left; apply after_done; exact Hip|].
      destruct (fold_targets s (combine (range n_levels) targets) Hlv st Hs) as [A B].
      { intros l o' H. apply in_combine_l in H. apply in_range in H. exact H. }
      split; [exact A|]. intros o. rewrite received_sel by lia. apply B.
Qed.
Lemma handled_ok s st targets : Z.of_nat (length targets) = n_levels ->
  exists s' st', handle_ionization c tab level_start level_max Ntot batch_size ion random_draw per targets s st = Ok (s', st').
Proof.
  intros Hl. unfold handle_ionization. fold n_levels. unfold handle_ionization_n. cbv zeta.
  destruct (Ntot =? 0); [eexists _, _; reflexivity|]. destruct (forallb _ _); [eexists _, _; reflexivity|].
  replace (Z.of_nat (length targets) =? n_levels) with true by lia. cbn [negb]. eexists _, _. reflexivity.
Qed.

Lemma total_received s targets objs (f : ptc -> R) : levels_ok level_start level_max Ntot s -> Z.of_nat (length targets) = n_levels ->
  NoDup objs -> (forall o, In o targets -> In o objs) ->
  sumR (fun o => sumR f (received c tab level_start level_max Ntot ion random_draw per targets s o)) objs = sumR (fun ip => f (ion ip)) (evs s).
Proof.
  intros Hlv Hlen Hnd Hin.
  rewrite (sumR_ext _ (fun o => sumR (fun lo => if Nat.eq_dec (snd lo) o then sumR (fun ip => f (ion ip)) (sel s (fst lo)) else 0%R) (combine (range n_levels) targets))).
  2: { intros o _. rewrite received_sel by lia. rewrite sumR_flat_map. apply sumR_ext. intros [l o'] _. cbn [fst snd].
       destruct (Nat.eqb_spec o' o), (Nat.eq_dec o' o); try congruence; [apply sumR_map|reflexivity]. }
  rewrite sumR_swap. rewrite (sumR_ext _ (fun lo => sumR (fun ip => f (ion ip)) (sel s (fst lo)))).
  2: { intros [l o'] H. cbn [fst snd]. apply sumR_pick; [exact Hnd|]. apply Hin. apply in_combine_r in H. exact H. }
  rewrite <- (sumR_map (fun l => sumR (fun ip => f (ion ip)) (sel s l)) fst).
  assert (Ec : map fst (combine (range n_levels) targets) = range n_levels).
  { assert (El : length targets = length (range n_levels)) by (rewrite length_range; lia). revert El. generalize (range n_levels) as L.
    clear. induction targets as [|o t IH]; intros [|l L] El; try discriminate; [reflexivity|]. cbn. f_equal. apply IH. cbn in El. lia. }
  rewrite Ec. unfold sel. rewrite (sumR_ext _ (fun l => sumR (fun ip => if (ev s ip && (if per then ionization_level s ip =? level_start + l else true)) then f (ion ip) else 0%R) (range Ntot)))
    by (intros l _; apply sumR_filter).
  rewrite sumR_swap. unfold events. rewrite sumR_filter. apply sumR_ext. intros ip Hip. apply in_range in Hip. specialize (Hlv ip Hip).
  destruct (ev s ip) eqn:Ev; cbn [andb]; [|apply sumR_zero; reflexivity].
  assert (ionization_level s ip < level_max) by (unfold event in Ev; lia). unfold n_levels in *. destruct per.
  - rewrite (sumR_ext _ (fun l => if Z.eq_dec (ionization_level s ip - level_start) l then f (ion ip) else 0%R)).
    + apply sumR_pick; [apply NoDup_range|]. apply in_range. lia.
    + intros l _. destruct (Z.eqb_spec (ionization_level s ip) (level_start + l)), (Z.eq_dec (ionization_level s ip - level_start) l); try reflexivity; lia.
  - change (range 1) with [0]. cbn. ring.
Qed.

Lemma charge_kept s st targets s' st' objs : levels_ok level_start level_max Ntot s -> weights_ok Ntot ion s -> sizes_ok st ->
  Z.of_nat (length targets) = n_levels -> NoDup objs -> (forall o, In o targets -> In o objs) ->
  handle_ionization c tab level_start level_max Ntot batch_size ion random_draw per targets s st = Ok (s', st') ->
  charge Ntot objs s' st' = charge Ntot objs s st.
Proof.
  intros Hlv Hw Hs Hlen Hnd Hin H. destruct (handled s st targets s' st' Hlv Hs Hlen H) as (A & _ & B). unfold charge.
  rewrite (sumR_ext (w_times_level s') (fun ip => w_times_level s ip + (if ev s ip then w (ion ip) else 0))%R).
  2: { intros ip Hip. apply in_range in Hip. destruct (A ip Hip) as [(_ & _ & ->)|E]; [|lia]. rewrite (Hw ip Hip).
       destruct (ev s ip); [|ring]. rewrite plus_IZR. ring. }
  rewrite sumR_plus, <- sumR_filter. fold (evs s).
  rewrite (sumR_ext (fun o => sumR weight (content st' o)) (fun o => sumR weight (content st o) + sumR w (received c tab level_start level_max Ntot ion random_draw per targets s o))%R).
  2: { intros o _. rewrite B, sumR_app, sumR_map. reflexivity. }
  rewrite sumR_plus. rewrite (total_received s targets objs w Hlv Hlen Hnd Hin). ring.
Qed.
Lemma sumR_len {A} (l : list A) : sumR (fun _ => 1%R) l = INR (length l).
Proof. induction l as [|a l IH]; [reflexivity|]. cbn [length sumR fold_right]. rewrite S_INR. unfold sumR in IH. rewrite IH. ring. Qed.
Lemma count_kept s st targets s' st' objs : levels_ok level_start level_max Ntot s -> sizes_ok st ->
  Z.of_nat (length targets) = n_levels -> NoDup objs -> (forall o, In o targets -> In o objs) ->
  handle_ionization c tab level_start level_max Ntot batch_size ion random_draw per targets s st = Ok (s', st') ->
  sumR (fun o => IZR (fst (st' o))) objs = (sumR (fun o => IZR (fst (st o))) objs + INR (length (evs s)))%R.
Proof.
  intros Hlv Hs Hlen Hnd Hin H. destruct (handled s st targets s' st' Hlv Hs Hlen H) as (_ & Hs' & B).
  rewrite <- sumR_len. rewrite <- (total_received s targets objs (fun _ => 1%R) Hlv Hlen Hnd Hin), <- sumR_plus.
  apply sumR_ext. intros o _. rewrite sumR_len. specialize (B o). apply (f_equal (@length _)) in B.
  rewrite app_length in B. unfold content in B. rewrite !map_length, !length_range in B.
  specialize (Hs o). specialize (Hs' o). rewrite INR_IZR_INZ, <- plus_IZR. f_equal. lia.
Qed.
Lemma levels_kept s st targets s' st' : levels_ok level_start level_max Ntot s -> weights_ok Ntot ion s -> sizes_ok st ->
  Z.of_nat (length targets) = n_levels ->
  handle_ionization c tab level_start level_max Ntot batch_size ion random_draw per targets s st = Ok (s', st') ->
  levels_ok level_start level_max Ntot s' /\ weights_ok Ntot ion s' /\ sizes_ok st'.
Proof.
  intros Hlv Hw Hs Hlen H. destruct (handled s st targets s' st' Hlv Hs Hlen H) as (A & B & _).
  split; [|split; [|exact B]]; intros ip Hip; (destruct (A ip Hip) as [(_ & E1 & E2)|E]; [|lia]); specialize (Hlv ip Hip); specialize (Hw ip Hip).
  - rewrite E1. destruct (ev s ip) eqn:Ev; [|exact Hlv]. unfold event in Ev. lia.
  - rewrite E1, E2. destruct (ev s ip); [reflexivity|exact Hw].
Qed.
Lemma level_each s st targets s' st' : levels_ok level_start level_max Ntot s -> sizes_ok st ->
  Z.of_nat (length targets) = n_levels ->
  handle_ionization c tab level_start level_max Ntot batch_size ion random_draw per targets s st = Ok (s', st') ->
  forall ip, 0 <= ip < Ntot -> ionization_level s' ip = (if ev s ip then ionization_level s ip + 1 else ionization_level s ip).
Proof.
  intros Hlv Hs Hlen H ip Hip. destruct (handled s st targets s' st' Hlv Hs Hlen H) as (A & _). destruct (A ip Hip) as [(_ & E & _)|E]; [exact E|lia].
Qed.
End H.

(** ** C28 *)
Open Scope R_scope.
Lemma E2_rest ux uy uz Ex Ey Ez bx by' bz :
  E2_on_particle ux uy uz Ex Ey Ez bx by' bz = rest_frame_E2 ux uy uz Ex Ey Ez bx by' bz.
Proof.
  unfold E2_on_particle, rest_frame_E2. cbv zeta. assert (H0 : 0 <= 1 + ux ^ 2 + uy ^ 2 + uz ^ 2) by (pose proof (pow2_ge_0 ux); pose proof (pow2_ge_0 uy); pose proof (pow2_ge_0 uz); lra).
  set (g := sqrt (1 + ux ^ 2 + uy ^ 2 + uz ^ 2)). assert (Hg : g * g = 1 + ux ^ 2 + uy ^ 2 + uz ^ 2) by (apply sqrt_sqrt; exact H0).
  assert (Hp : 0 <= g) by apply sqrt_pos. set (d := ux * Ex + uy * Ey + uz * Ez).
  assert (Hk : (1 + g) * (d / (1 + g)) = d) by (field; lra). set (k := d / (1 + g)) in *.
  transitivity ((g * Ex + (uy * bz - uz * by')) ^ 2 + (g * Ey + (uz * bx - ux * bz)) ^ 2 + (g * Ez + (ux * by' - uy * bx)) ^ 2
     - 2 * k * g * d + k ^ 2 * (g * g - 1)).
  - rewrite <- Hk. unfold d in *. ring.
  - rewrite Hg. unfold d. ring.
Qed.
Lemma E2_nonneg ux uy uz Ex Ey Ez bx by' bz : 0 <= E2_on_particle ux uy uz Ex Ey Ez bx by' bz.
Proof. rewrite E2_rest. unfold rest_frame_E2. cbv zeta. repeat apply Rplus_le_le_0_compat; apply pow2_ge_0. Qed.
Lemma prob_range E gamma pre pow epre : 0 < gamma -> 0 <= pre -> 0 <= get_ionization_probability E gamma pre pow epre < 1.
Proof.
  intros Hg Hp. unfold get_ionization_probability. destruct (Req_EM_T E 0); [lra|]. cbv zeta.
  set (wd := 1 / gamma * pre * Rpower E pow * exp (epre / E)).
  assert (0 <= wd).
  { unfold wd. repeat apply Rmult_le_pos; try exact Hp.
    - lra.
    - left. apply Rinv_0_lt_compat. exact Hg.
    - left. apply exp_pos.
    - left. apply exp_pos. }
  pose proof (exp_pos (- wd)). assert (exp (- wd) <= 1) by (rewrite <- exp_0; destruct H as [H|<-]; [left; apply exp_increasing; lra|right; f_equal; ring]).
  lra.
Qed.
Lemma prob_positive E gamma pre pow epre : 0 < gamma -> 0 < pre -> E <> 0 -> 0 < get_ionization_probability E gamma pre pow epre.
Proof.
  intros Hg Hp HE. unfold get_ionization_probability. destruct (Req_EM_T E 0); [contradiction|]. cbv zeta.
  set (wd := 1 / gamma * pre * Rpower E pow * exp (epre / E)).
  assert (0 < wd).
  { unfold wd. repeat apply Rmult_lt_0_compat; try apply exp_pos; try exact Hp; try lra. apply Rinv_0_lt_compat. exact Hg. }
  assert (exp (- wd) < 1) by (rewrite <- exp_0; apply exp_increasing; lra). lra.
Qed.
