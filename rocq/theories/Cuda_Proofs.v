(** Race-free launches: every interleaving gives the result of running each thread alone. *)
From Verif Require Import Base Cuda_Model.
From Coq Require Import Reals ZArith Lia Psatz.
From Flocq Require Import Core.
Open Scope Z_scope.

Section Threads.
  Context {L V T : Type} (leq : forall a b : L, {a = b} + {a <> b}) (teq : forall a b : T, {a = b} + {a <> b}).
  Notation mem := (@mem L V). Notation prog := (prog L V).

  (** A thread alone, from beginning to end. *)
  Fixpoint run (p : prog) (m : mem) : mem :=
    match p with
    | Done => m
    | Load l k => run (k (m l)) m
    | Store l v p => run p (upd leq m l v)
    end.
  (** The thread writes only in [mine] and reads only in [mine] and [shared]. *)
  Inductive confined (mine shared : L -> Prop) : prog -> Prop :=
  | conf_done : confined mine shared Done
  | conf_load : forall l k, mine l \/ shared l -> (forall v, confined mine shared (k v)) -> confined mine shared (Load l k)
  | conf_store : forall l v p, mine l -> confined mine shared p -> confined mine shared (Store l v p).

  Lemma run_agree : forall mine shared p, confined mine shared p -> forall m m',
    (forall l, mine l \/ shared l -> m l = m' l) -> forall l, mine l \/ shared l -> run p m l = run p m' l.
  Proof.
    induction p as [|l k IH|l v p IH]; intros Hc m m' Ha l' Hl'; inversion Hc; subst; cbn.
    - apply Ha; exact Hl'.
    - rewrite (Ha l H1). apply IH; auto.
    - apply IH; auto. intros l1 Hl1. unfold upd. destruct (leq l l1); auto.
  Qed.
  Lemma run_outside : forall mine shared p, confined mine shared p -> forall m l, ~ mine l -> run p m l = m l.
  Proof.
    induction p as [|l k IH|l v p IH]; intros Hc m l' Hl'; inversion Hc; subst; cbn; auto.
    rewrite IH; auto. unfold upd. destruct (leq l l'); auto. subst. contradiction.
  Qed.

  Context (own : L -> option T).
  Definition mine (t : T) (l : L) : Prop := own l = Some t.
  Definition shared (l : L) : Prop := own l = None.
  Definition good (ids : list T) (ps : list prog) : Prop :=
    NoDup ids /\ Forall2 (fun t p => confined (mine t) shared p) ids ps.
  Fixpoint find_thread (t : T) (ids : list T) (ps : list prog) : option prog :=
    match ids, ps with
    | i :: ids, p :: ps => if teq i t then Some p else find_thread t ids ps
    | _, _ => None
    end.
  Definition final (ids : list T) (ps : list prog) (m : mem) (l : L) : V :=
    match own l with
    | None => m l
    | Some t => match find_thread t ids ps with Some p => run p m l | None => m l end
    end.

  Lemma find_app : forall t ids1 ps1 ids2 ps2, List.length ids1 = List.length ps1 ->
    find_thread t (ids1 ++ ids2) (ps1 ++ ps2) = match find_thread t ids1 ps1 with Some p => Some p | None => find_thread t ids2 ps2 end.
  Proof.
    induction ids1; destruct ps1; cbn; intros; try discriminate; auto. destruct (teq a t); auto.
  Qed.
  Lemma find_conf : forall ids ps, Forall2 (fun t p => confined (mine t) shared p) ids ps ->
    forall t p, find_thread t ids ps = Some p -> confined (mine t) shared p.
  Proof.
    induction 1; cbn; intros; try discriminate. destruct (teq x t); [injection H1 as <-; subst; auto|auto].
  Qed.
  Lemma find_none : forall t ids ps, ~ In t ids -> find_thread t ids ps = None.
  Proof. induction ids; destruct ps; cbn; intros; auto. destruct (teq a t); [tauto|auto]. Qed.

  Lemma tick_good : forall ids ps m ps' m', good ids ps -> tick leq (ps, m) (ps', m') ->
    good ids ps' /\ forall l, final ids ps' m' l = final ids ps m l.
  Proof.
    intros ids ps m ps' m' [Hn Hf] Ht. inversion Ht as [pre p post m0 p' m0' Ha E1 E2]; subst. clear Ht.
    apply Forall2_app_inv_r in Hf. destruct Hf as (ids1 & ids2 & Hf1 & Hf2 & ->).
    inversion Hf2 as [|t p0 ids2' post0 Hc Hf2' Ei Ep]; subst. clear Hf2.
    assert (Hlen : List.length ids1 = List.length pre) by (clear -Hf1; induction Hf1; cbn; auto).
    assert (Hnt : ~ In t ids1 /\ ~ In t ids2').
    { apply NoDup_remove_2 in Hn. rewrite in_app_iff in Hn. tauto. }
    assert (Hc' : confined (mine t) shared p') by (inversion Ha; subst; inversion Hc; subst; auto).
    assert (Hother : forall l, own l <> Some t -> m' l = m l).
    { intros l Hl. inversion Ha; subst; auto. unfold upd. inversion Hc; subst.
      destruct (leq l0 l); auto. subst. contradiction. }
    assert (Hrun : forall l, own l = Some t -> run p' m' l = run p m l).
    { intros l Hl. inversion Ha; subst; reflexivity. }
    split.
    - split; auto. apply Forall2_app; auto.
    - intros l. unfold final. destruct (own l) as [u|] eqn:Eo.
      2:{ apply Hother. rewrite Eo. discriminate. }
      rewrite !find_app by exact Hlen. destruct (teq t u) as [<-|Htu].
      + rewrite (find_none _ _ pre (proj1 Hnt)). cbn [find_thread]. destruct (teq t t) as [_|n]; [|contradiction].
        apply Hrun; exact Eo.
      + assert (Hag : forall q, confined (mine u) shared q -> run q m' l = run q m l).
        { intros q Hq. apply (run_agree (mine u) shared); auto.
          intros l1 [H1|H1]; apply Hother; unfold mine, shared in H1; rewrite H1; congruence. }
        assert (Hml : m' l = m l) by (apply Hother; rewrite Eo; congruence).
        cbn [find_thread]. destruct (teq t u) as [|_]; [contradiction|].
        destruct (find_thread u ids1 pre) as [q|] eqn:Eq1.
        { apply Hag. exact (find_conf _ _ Hf1 _ _ Eq1). }
        destruct (find_thread u ids2' post) as [q|] eqn:Eq2; [|exact Hml].
        apply Hag. exact (find_conf _ _ Hf2' _ _ Eq2).
  Qed.
  Lemma ticks_good : forall s t, ticks leq s t -> forall ids, good ids (fst s) ->
    good ids (fst t) /\ forall l, final ids (fst t) (snd t) l = final ids (fst s) (snd s) l.
  Proof.
    induction 1; intros ids Hg; [auto|].
    destruct s as [ps m], t as [ps' m']. destruct (tick_good _ _ _ _ _ Hg H) as [Hg' He].
    destruct (IHticks ids Hg') as [Hg2 He2]. split; auto. intros l. rewrite He2. apply He.
  Qed.
  Theorem executes_final : forall ids ts m m', good ids ts -> executes leq ts m m' -> forall l, m' l = final ids ts m l.
  Proof.
    intros ids ts m m' Hg (ps & Hr & Hd) l. destruct (ticks_good _ _ Hr ids Hg) as [_ He]. cbn in He. rewrite <- He.
    unfold final. destruct (own l); auto. destruct (find_thread t ids ps) eqn:E; auto.
    assert (p = Done). { clear He Hr Hg m m'. revert ids E. induction Hd as [|q qs Hq Hqs IH]; intros [|i ids] E; cbn in E; try discriminate.
      destruct (teq i t); [congruence|eauto]. }
    subst. reflexivity.
  Qed.
End Threads.

(** Some execution exists: one thread after the other. *)
Section Exists.
  Context {L V : Type} (leq : forall a b : L, {a = b} + {a <> b}).
  Lemma ticks_trans : forall (s t u : list (prog L V) * mem), ticks leq s t -> ticks leq t u -> ticks leq s u.
  Proof. induction 1; auto. intros. econstructor; eauto. Qed.
  Lemma ticks_one : forall (p : prog L V) pre post m,
    exists m', ticks leq (pre ++ p :: post, m) (pre ++ Done :: post, m').
  Proof.
    induction p; intros.
    - exists m. constructor.
    - destruct (H (m l) pre post m) as [m' Hm]. exists m'. econstructor; [|exact Hm]. constructor. constructor.
    - destruct (IHp pre post (upd leq m l v)) as [m' Hm]. exists m'. econstructor; [|exact Hm]. constructor. constructor.
  Qed.
  Lemma ticks_all : forall (ps pre : list (prog L V)) m, Forall (fun p => p = Done) pre ->
    exists ps' m', ticks leq (pre ++ ps, m) (ps', m') /\ Forall (fun p => p = Done) ps'.
  Proof.
    induction ps as [|p ps IH]; intros pre m Hp.
    - exists (pre ++ []), m. split; [constructor|]. rewrite app_nil_r. exact Hp.
    - destruct (ticks_one p pre ps m) as [m1 H1].
      assert (Hd : Forall (fun p : prog L V => p = Done) (pre ++ [Done])) by (apply Forall_app; auto).
      destruct (IH (pre ++ [Done]) m1 Hd) as (ps' & m' & H2 & H3).
      exists ps', m'. split; auto. eapply ticks_trans; [exact H1|]. rewrite <- app_assoc in H2. exact H2.
  Qed.
  Theorem finishes : forall (ts : list (prog L V)) m ps m1, ticks leq (ts, m) (ps, m1) ->
    exists ps' m', ticks leq (ps, m1) (ps', m') /\ Forall (fun p => p = Done) ps'.
  Proof. intros ts m ps m1 _. exact (ticks_all ps [] m1 (Forall_nil _)). Qed.
  Theorem executes_exists : forall (ts : list (prog L V)) m, exists m', executes leq ts m m'.
  Proof. intros. destruct (ticks_all ts [] m (Forall_nil _)) as (ps & m' & H1 & H2). exists m', ps. auto. Qed.
End Exists.

(** ** Geometry *)
Lemma fl64_int_pow : forall x k, 0 <= k <= 1000 -> Z.abs x <= 2 ^ 53 -> fl64 (IZR x / IZR (2 ^ k)) = (IZR x / IZR (2 ^ k))%R.
Proof.
  intros x k Hk Hx. unfold fl64. apply round_generic; [apply valid_rnd_N|].
  apply generic_format_FLT. 
  destruct (Z.eq_dec (Z.abs x) (2 ^ 53)) as [E|E].
  - exists (Float radix2 (x / 2 ^ 53) (53 - k)); cbn [Fnum Fexp]; [|destruct (Z.abs_spec x) as [[_ Ea]|[_ Ea]]; rewrite Ea in E|lia].
    + unfold F2R. cbn [Fnum Fexp].
      assert (Hdiv : x = (x / 2 ^ 53) * 2 ^ 53).
      { destruct (Z.abs_spec x) as [[_ Ea]|[_ Ea]]; rewrite Ea in E; [rewrite E; rewrite Z.div_same by lia; lia|].
        replace x with (- (2 ^ 53)) by lia. vm_compute. reflexivity. }
      rewrite Hdiv at 1. rewrite mult_IZR. 
      replace (bpow radix2 (53 - k)) with (bpow radix2 53 * / bpow radix2 k)%R by (rewrite <- bpow_opp, <- bpow_plus; f_equal; lia).
      replace (IZR (2 ^ 53)) with (bpow radix2 53) by (rewrite <- (IZR_Zpower radix2 53) by lia; reflexivity).
      replace (IZR (2 ^ k)) with (bpow radix2 k) by (rewrite <- (IZR_Zpower radix2 k) by lia; reflexivity). unfold Rdiv. ring.
    + rewrite E. vm_compute. reflexivity.
    + replace x with (- (2 ^ 53)) by lia. vm_compute. reflexivity.
  - exists (Float radix2 x (- k)); cbn [Fnum Fexp]; [|change (radix2 ^ 53) with (2 ^ 53); lia|lia].
    unfold F2R. cbn [Fnum Fexp]. rewrite bpow_opp.
    replace (IZR (2 ^ k)) with (bpow radix2 k) by (rewrite <- (IZR_Zpower radix2 k) by lia; reflexivity). reflexivity.
Qed.
Lemma bpg_exact : forall x k, 0 <= x -> 0 <= k <= 1000 -> x + 2 ^ k <= 2 ^ 53 -> bpg x (2 ^ k) = x / 2 ^ k + 1.
Proof.
  intros x k Hx Hk Hb. assert (Hp : 0 < 2 ^ k) by (apply Z.pow_pos_nonneg; lia).
  unfold bpg. rewrite fl64_int_pow by lia.
  assert (HpR : (0 < IZR (2 ^ k))%R) by (apply IZR_lt; exact Hp).
  replace (IZR x / IZR (2 ^ k) + 1)%R with (IZR (x + 2 ^ k) / IZR (2 ^ k))%R by (rewrite plus_IZR; field; lra).
  rewrite fl64_int_pow by lia. rewrite Ztrunc_floor.
  2:{ apply Rmult_le_pos; [apply IZR_le; lia|]. apply Rlt_le, Rinv_0_lt_compat; exact HpR. }
  rewrite Zfloor_div by lia. rewrite <- (Z.div_add x 1 (2 ^ k)) by lia. f_equal. lia.
Qed.

Lemma NoDup_flat_map : forall {A B} (f : A -> list B) l, NoDup l -> (forall a, In a l -> NoDup (f a)) ->
  (forall a b x, In a l -> In b l -> In x (f a) -> In x (f b) -> a = b) -> NoDup (flat_map f l).
Proof.
  intros A B f. induction l as [|a l IH]; intros Hn Hf Hd; cbn; [constructor|].
  inversion Hn; subst.
  assert (H : forall l1 l2 : list B, NoDup l1 -> NoDup l2 -> (forall x, In x l1 -> ~ In x l2) -> NoDup (l1 ++ l2)).
  { induction l1; cbn; intros l2' Ha Hb Hab; auto. inversion Ha; subst. constructor.
    - rewrite in_app_iff. intros [H5|H5]; [auto|]. exact (Hab a0 (or_introl eq_refl) H5).
    - apply IHl1; [assumption|assumption|]. intros x Hx. apply Hab. right; exact Hx. }
  apply H.
  - apply Hf. left; auto.
  - apply IH; [assumption|intros; apply Hf; right; auto|intros a0 b x Ha0 Hb0; apply (Hd a0 b x); right; assumption].
  - intros x Hx Hx2. apply in_flat_map in Hx2. destruct Hx2 as (b & Hb & Hx2).
    assert (a = b) by (apply (Hd a b x); auto; [left|right]; auto). subst. contradiction.
Qed.

Lemma div_unique_pair : forall t a b i j, 0 <= i < t -> 0 <= j < t -> a * t + i = b * t + j -> a = b /\ i = j.
Proof.
  intros t a b i j Hi Hj E. assert (a = b) by nia.
  subst. lia.
Qed.

Lemma grid_2d_In : forall gx gy tx ty i j, 0 <= gx -> 0 <= gy -> 0 < tx -> 0 < ty ->
  In (i, j) (grid_2d ((gx, gy), (tx, ty))) <-> 0 <= i < gx * tx /\ 0 <= j < gy * ty.
Proof.
  intros gx gy tx ty i j Hgx Hgy Htx Hty. unfold grid_2d. split.
  - intros H. apply in_flat_map in H. destruct H as (bx & Hbx & H). apply in_flat_map in H. destruct H as (by_ & Hby & H).
    apply in_flat_map in H. destruct H as (a & Ha & H). apply in_map_iff in H. destruct H as (b & E & Hb).
    injection E as <- <-. rewrite in_range in *. nia.
  - intros [Hi Hj]. apply in_flat_map. exists (i / tx). split.
    { apply in_range. split; [apply Z.div_pos; lia|]. apply Z.div_lt_upper_bound; lia. }
    apply in_flat_map. exists (j / ty). split.
    { apply in_range. split; [apply Z.div_pos; lia|]. apply Z.div_lt_upper_bound; lia. }
    apply in_flat_map. exists (i mod tx). split; [apply in_range; apply Z.mod_pos_bound; lia|].
    apply in_map_iff. exists (j mod ty). split; [|apply in_range; apply Z.mod_pos_bound; lia].
    f_equal; rewrite Z.mul_comm; symmetry; apply Z.div_mod; lia.
Qed.
Lemma grid_2d_NoDup : forall gx gy tx ty, NoDup (grid_2d ((gx, gy), (tx, ty))).
Proof.
  intros. unfold grid_2d.
  assert (Hx : forall bx by_ x, In x (flat_map (fun i => map (fun j => (bx * tx + i, by_ * ty + j)) (range ty)) (range tx)) ->
     exists i j, x = (bx * tx + i, by_ * ty + j) /\ 0 <= i < tx /\ 0 <= j < ty).
  { intros bx by_ x H. apply in_flat_map in H. destruct H as (a & Ha & H). apply in_map_iff in H. destruct H as (b & E & Hb).
    rewrite in_range in *. exists a, b. auto. }
  apply NoDup_flat_map; [apply NoDup_range| |].
  - intros bx Hbx. apply NoDup_flat_map; [apply NoDup_range| |].
    + intros by_ Hby. apply NoDup_flat_map; [apply NoDup_range| |].
      * intros a Ha. apply FinFun.Injective_map_NoDup; [|apply NoDup_range]. intros u v E. injection E. lia.
      * intros a b x Ha Hb H1 H2. apply in_map_iff in H1, H2. destruct H1 as (u & E1 & _), H2 as (v & E2 & _).
        subst x. injection E2. lia.
    + intros a b x Ha Hb H1 H2. apply Hx in H1, H2. destruct H1 as (u & v & -> & Hu & Hv), H2 as (u' & v' & E & Hu' & Hv').
      injection E as E1 E2. destruct (div_unique_pair ty a b v v' Hv Hv' E2). auto.
  - intros a b x Ha Hb H1 H2. apply in_flat_map in H1, H2. destruct H1 as (c & Hc & H1), H2 as (d & Hd & H2).
    apply Hx in H1, H2. destruct H1 as (u & v & -> & Hu & Hv), H2 as (u' & v' & E & Hu' & Hv').
    injection E as E1 E2. destruct (div_unique_pair tx a b u u' Hu Hu' E1). auto.
Qed.
(** The default geometry covers every cell of an x * y array, and no thread number appears twice. *)
Lemma covers : forall x y kx ky i j, 0 <= x -> 0 <= y -> 0 <= kx <= 20 -> 0 <= ky <= 20 -> x <= 2 ^ 52 -> y <= 2 ^ 52 ->
  0 <= i < x -> 0 <= j < y -> In (i, j) (grid_2d (cuda_tpb_bpg_2d x y (2 ^ kx) (2 ^ ky))).
Proof.
  intros x y kx ky i j Hx Hy Hkx Hky Bx By Hi Hj. unfold cuda_tpb_bpg_2d.
  assert (Hp : forall k, 0 <= k <= 20 -> 0 < 2 ^ k <= 2 ^ 20).
  { intros k Hk. split; [apply Z.pow_pos_nonneg; lia|apply Z.pow_le_mono_r; lia]. }
  pose proof (Hp kx Hkx). pose proof (Hp ky Hky).
  rewrite !bpg_exact by lia.
  assert (0 <= x / 2 ^ kx) by (apply Z.div_pos; lia). assert (0 <= y / 2 ^ ky) by (apply Z.div_pos; lia).
  pose proof (Z.mul_succ_div_gt x (2 ^ kx) ltac:(lia)). pose proof (Z.mul_succ_div_gt y (2 ^ ky) ltac:(lia)).
  apply grid_2d_In; lia.
Qed.
Lemma grid_nonneg : forall x y kx ky i j, 0 <= x -> 0 <= y -> 0 <= kx <= 20 -> 0 <= ky <= 20 -> x <= 2 ^ 52 -> y <= 2 ^ 52 ->
  In (i, j) (grid_2d (cuda_tpb_bpg_2d x y (2 ^ kx) (2 ^ ky))) -> 0 <= i /\ 0 <= j.
Proof.
  intros x y kx ky i j Hx Hy Hkx Hky Bx By. unfold cuda_tpb_bpg_2d.
  assert (Hp : forall k, 0 <= k <= 20 -> 0 < 2 ^ k <= 2 ^ 20).
  { intros k Hk. split; [apply Z.pow_pos_nonneg; lia|apply Z.pow_le_mono_r; lia]. }
  pose proof (Hp kx Hkx). pose proof (Hp ky Hky).
  rewrite !bpg_exact by lia.
  assert (0 <= x / 2 ^ kx) by (apply Z.div_pos; lia). assert (0 <= y / 2 ^ ky) by (apply Z.div_pos; lia).
  rewrite grid_2d_In by lia. lia.
Qed.
Lemma cover_two : forall x y t, t = 1 \/ t = 8 \/ t = 16 \/ t = 32 \/ t = 128 \/ t = 256 -> 0 <= x <= 2 ^ 52 -> 0 <= y <= 2 ^ 52 ->
  (forall i j, 0 <= i < x -> 0 <= j < y -> In (i, j) (grid_2d (cuda_tpb_bpg_2d x y 1 t)))
  /\ (forall i j, In (i, j) (grid_2d (cuda_tpb_bpg_2d x y 1 t)) -> 0 <= i /\ 0 <= j).
Proof.
  intros x y t Ht Hx Hy.
  assert (exists k, 0 <= k <= 20 /\ t = 2 ^ k) as (k & Hk & ->).
  { destruct Ht as [->|[->|[->|[->|[->| ->]]]]]; [exists 0|exists 3|exists 4|exists 5|exists 7|exists 8]; split; try lia; reflexivity. }
  change 1 with (2 ^ 0). split; intros.
  - apply covers; lia.
  - apply (grid_nonneg x y 0 k); lia || auto.
Qed.

(** ** Kernels over a 2d index *)
Definition zz_dec (a b : Z * Z) : {a = b} + {a <> b}.
Proof. decide equality; apply Z.eq_dec. Defined.
Section Launch.
  Context {L V : Type} (leq : forall a b : L, {a = b} + {a <> b}).
  Lemma find_launch : forall (thr : Z -> Z -> prog L V) ids t,
    find_thread zz_dec t ids (map (fun ij => thr (fst ij) (snd ij)) ids) = if in_dec zz_dec t ids then Some (thr (fst t) (snd t)) else None.
  Proof.
    intros. induction ids as [|i ids IH]; cbn [map find_thread]; [reflexivity|].
    destruct (zz_dec i t) as [->|E].
    - destruct (in_dec zz_dec t (t :: ids)) as [_|n]; [reflexivity|exfalso; apply n; left; reflexivity].
    - rewrite IH. destruct (in_dec zz_dec t ids) as [Hi|Hi]; destruct (in_dec zz_dec t (i :: ids)) as [Hj|Hj]; auto.
      + exfalso; apply Hj; right; exact Hi.
      + destruct Hj; [contradiction|contradiction].
  Qed.
  Theorem launch_final : forall (own : L -> option (Z * Z)) gx gy tx ty (thr : Z -> Z -> prog L V) m m',
    (forall i j, In (i, j) (grid_2d ((gx, gy), (tx, ty))) -> confined (mine own (i, j)) (shared own) (thr i j)) ->
    executes leq (launch_2d ((gx, gy), (tx, ty)) thr) m m' ->
    forall l, m' l = match own l with
                     | None => m l
                     | Some t => if in_dec zz_dec t (grid_2d ((gx, gy), (tx, ty))) then run leq (thr (fst t) (snd t)) m l else m l
                     end.
  Proof.
    intros own gx gy tx ty thr m m' Hc He l.
    assert (Hg : good own (grid_2d ((gx, gy), (tx, ty))) (launch_2d ((gx, gy), (tx, ty)) thr)).
    { split; [apply grid_2d_NoDup|]. unfold launch_2d. set (g := grid_2d _) in *. clearbody g. clear He.
      induction g as [|[i j] g IH]; cbn [map]; constructor.
      - apply Hc. left; reflexivity.
      - apply IH. intros; apply Hc; right; assumption. }
    rewrite (executes_final leq zz_dec own _ _ _ _ Hg He). unfold final. destruct (own l) as [t|]; [|reflexivity].
    unfold launch_2d. rewrite find_launch. destruct (in_dec zz_dec t (grid_2d (gx, gy, (tx, ty)))); reflexivity.
  Qed.
End Launch.

(** ** Kernels in which each thread works on one cell of a set of 2d arrays *)
Section Cells.
  Context {A V : Type} (adec : forall a b : A, {a = b} + {a <> b}).
  Definition cell (l : A * Z * Z) : Z * Z := (snd (fst l), snd l).
  Lemma upd_cell : forall (M : @mem (A * Z * Z) V) a b x y v,
    upd (cloc_dec adec) M (a, x, y) v (b, x, y) = if adec a b then v else M (b, x, y).
  Proof.
    intros. unfold upd. destruct ((cloc_dec adec) (a, x, y) (b, x, y)) as [E|E]; destruct (adec a b) as [E'|E']; try reflexivity.
    - exfalso. apply E'. congruence.
    - exfalso. apply E. congruence.
  Qed.
  Definition in_rect (n1 n2 : Z) (t : Z * Z) : bool := (0 <=? fst t) && (fst t <? n1) && (0 <=? snd t) && (snd t <? n2).
  Lemma cell_launch : forall (p q : Z * Z -> Z * Z) n1 n2 t (thr : Z -> Z -> prog (A * Z * Z) V) M M',
    t = 1 \/ t = 8 \/ t = 16 \/ t = 32 \/ t = 128 \/ t = 256 -> 0 <= n1 <= 2 ^ 52 -> 0 <= n2 <= 2 ^ 52 ->
    (forall i j, 0 <= i < n1 -> 0 <= j < n2 -> q (p (i, j)) = (i, j)) ->
    (forall i j, 0 <= i -> 0 <= j -> ~ (i < n1 /\ j < n2) -> thr i j = Done) ->
    (forall i j, 0 <= i < n1 -> 0 <= j < n2 -> confined (fun l => cell l = p (i, j)) (fun _ => False) (thr i j)) ->
    executes (cloc_dec adec) (launch_2d (cuda_tpb_bpg_2d n1 n2 1 t) thr) M M' ->
    forall a x y, M' (a, x, y) =
      if in_rect n1 n2 (q (x, y)) then if zz_dec (p (q (x, y))) (x, y) then run (cloc_dec adec) (thr (fst (q (x, y))) (snd (q (x, y)))) M (a, x, y)
                                       else M (a, x, y) else M (a, x, y).
  Proof.
    intros p q n1 n2 t thr M M' Ht H1 H2 Hq Hd Hc He.
    set (own := fun l : A * Z * Z => if in_rect n1 n2 (q (cell l)) then if zz_dec (p (q (cell l))) (cell l) then Some (q (cell l)) else None else None).
    destruct (cover_two n1 n2 t Ht H1 H2) as [Hcov Hpos].
    assert (Hr : forall i j, in_rect n1 n2 (i, j) = true <-> 0 <= i < n1 /\ 0 <= j < n2).
    { intros. unfold in_rect. cbn [fst snd]. rewrite !Bool.andb_true_iff, !Z.leb_le, !Z.ltb_lt. lia. }
    assert (Hmono : forall (P Q R S : A * Z * Z -> Prop) pr, (forall l, P l -> R l) -> (forall l, Q l -> S l) ->
       confined P Q pr -> confined (V := V) R S pr).
    { intros P Q R S pr HP HQ Hp. induction Hp; constructor; auto. destruct H; auto. }
    unfold cuda_tpb_bpg_2d in He.
    intros a x y.
    rewrite (launch_final (cloc_dec adec) own _ _ _ _ thr M M') with (2 := He).
    2:{ intros i j Hij. change ((bpg n1 1, bpg n2 t), (1, t)) with (cuda_tpb_bpg_2d n1 n2 1 t) in Hij. apply Hpos in Hij.
        destruct (Z_lt_le_dec i n1) as [Hi|Hi]; [destruct (Z_lt_le_dec j n2) as [Hj|Hj]|].
        - apply (Hmono _ _ _ _ _) with (3 := Hc i j ltac:(lia) ltac:(lia)); [|intros l []].
          intros l Hl. unfold mine, own. rewrite Hl, Hq by lia. rewrite (proj2 (Hr i j)) by lia.
          destruct (zz_dec (p (i, j)) (p (i, j))); [reflexivity|contradiction].
        - rewrite Hd by lia. constructor.
        - rewrite Hd by lia. constructor. }
    change ((bpg n1 1, bpg n2 t), (1, t)) with (cuda_tpb_bpg_2d n1 n2 1 t).
    unfold own. change (cell (a, x, y)) with (x, y). destruct (in_rect n1 n2 (q (x, y))) eqn:Ei; [|reflexivity].
    destruct (zz_dec (p (q (x, y))) (x, y)) as [E|E]; [|reflexivity].
    destruct (q (x, y)) as [i j]. apply Hr in Ei.
    destruct (in_dec zz_dec (i, j) (grid_2d (cuda_tpb_bpg_2d n1 n2 1 t))) as [_|n]; [reflexivity|].
    exfalso. apply n. apply Hcov; lia.
  Qed.
  (** The most frequent case: the thread (i, j) works on the cell (i, j). *)
  Lemma cell_launch_id : forall n1 n2 t (thr : Z -> Z -> prog (A * Z * Z) V) M M',
    t = 1 \/ t = 8 \/ t = 16 \/ t = 32 \/ t = 128 \/ t = 256 -> 0 <= n1 <= 2 ^ 52 -> 0 <= n2 <= 2 ^ 52 ->
    (forall i j, 0 <= i -> 0 <= j -> ~ (i < n1 /\ j < n2) -> thr i j = Done) ->
    (forall i j, 0 <= i < n1 -> 0 <= j < n2 -> confined (fun l => cell l = (i, j)) (fun _ => False) (thr i j)) ->
    executes (cloc_dec adec) (launch_2d (cuda_tpb_bpg_2d n1 n2 1 t) thr) M M' ->
    (forall a x y, 0 <= x < n1 -> 0 <= y < n2 -> M' (a, x, y) = run (cloc_dec adec) (thr x y) M (a, x, y)) /\
    (forall a x y, ~ (0 <= x < n1 /\ 0 <= y < n2) -> M' (a, x, y) = M (a, x, y)).
  Proof.
    intros n1 n2 t thr M M' Ht H1 H2 Hd Hc He.
    assert (H := cell_launch (fun c => c) (fun c => c) n1 n2 t thr M M' Ht H1 H2 (fun _ _ _ _ => eq_refl) Hd Hc He).
    split; intros a x y Hxy; [intros Hy|]; rewrite H; unfold in_rect; cbn [fst snd].
    - rewrite !(proj2 (Z.leb_le _ _)), !(proj2 (Z.ltb_lt _ _)) by lia. cbn [andb]. destruct (zz_dec (x, y) (x, y)); [reflexivity|contradiction].
    - destruct ((0 <=? x) && (x <? n1) && (0 <=? y) && (y <? n2)) eqn:E; [|reflexivity].
      exfalso. apply Hxy. rewrite !Bool.andb_true_iff, !Z.leb_le, !Z.ltb_lt in E. lia.
  Qed.
End Cells.
