(** Proofs of C57. *)
From Coq Require Import Reals Lra.
From Flocq Require Import Core.Core.
From Coquelicot Require Import Complex.
From Verif Require Import Base Inject_Proofs Decomp_Proofs Chunk_Model Chunk_Proofs Shape_Model Sort_Model Sort_Spec Sort_Proofs
  Deposit_Model Deposit_Spec Deposit_Proofs GDeposit_Model GDeposit_Spec.
Open Scope Z_scope.

(** ** Sums over ranges cut by a prefix sum *)
Lemma lsum_rev (F : Z -> C) q f : 0 <= f ->
  lsum (fun j => F (q + f - 1 - j)) (range f) = lsum (fun j => F (q + j)) (range f).
Proof.
  intros Hf. rewrite <- (lsum_map F (fun j => q + f - 1 - j)), <- (lsum_map F (fun j => q + j)).
  apply lsum_perm. apply NoDup_Permutation.
  - apply FinFun.Injective_map_NoDup; [intros x y; lia|apply NoDup_range].
  - apply FinFun.Injective_map_NoDup; [intros x y; lia|apply NoDup_range].
  - intros x. rewrite !in_map_iff. split; intros [y [<- Hy]]; apply in_range in Hy.
    + exists (f - 1 - y). split; [lia|apply in_range; lia].
    + exists (f - 1 - y). split; [lia|apply in_range; lia].
Qed.

Definition prev (p : Z -> Z) (c : Z) : Z := if c =? 0 then 0 else p (c - 1).
Lemma lsum_prefix (F : Z -> C) (p : Z -> Z) n : 0 <= n ->
  (forall c, 0 <= c < n -> prev p c <= p c) ->
  lsum (fun c => lsum (fun j => F (p c - 1 - j)) (range (p c - prev p c))) (range n) =
  lsum F (range (prev p n)).
Proof.
  intros Hn. pattern n. apply natlike_ind; [| |exact Hn].
  - intros _. reflexivity.
  - intros x Hx IH Hp. unfold Z.succ. rewrite range_succ, lsum_app, lsum_cons, lsum_nil by exact Hx.
    rewrite IH by (intros c Hc; apply Hp; lia).
    pose proof (Hp x ltac:(lia)) as Hpx.
    assert (E0 : prev p (x + 1) = p x). { unfold prev. destruct (Z.eqb_spec (x + 1) 0); [lia|]. f_equal. lia. }
    rewrite E0.
    assert (Hq : 0 <= prev p x).
    { clear E0 IH Hpx. unfold prev. destruct (Z.eqb_spec x 0); [lia|].
      assert (forall y, 0 <= y -> y < x -> 0 <= p y); [|apply H; lia].
      intros y Hy. pattern y. apply natlike_ind; [| |exact Hy].
      - intros _. specialize (Hp 0 ltac:(lia)). unfold prev in Hp. cbn in Hp. exact Hp.
      - intros z Hz IHz Hzx. specialize (Hp (Z.succ z) ltac:(lia)). unfold prev in Hp.
        destruct (Z.eqb_spec (Z.succ z) 0); [lia|]. replace (Z.succ z - 1) with z in Hp by lia. specialize (IHz ltac:(lia)). lia. }
    assert (Er : range (p x) = range (prev p x) ++ map (Z.add (prev p x)) (range (p x - prev p x)))
      by (rewrite <- range_add by lia; f_equal; lia).
    rewrite Er, lsum_app, lsum_map.
    rewrite (lsum_ext (fun j => F (p x - 1 - j)) (fun j => F (prev p x + (p x - prev p x) - 1 - j)))
      by (intros j _; f_equal; lia).
    rewrite lsum_rev by lia. ring.
Qed.

(** ** Indices *)
Lemma int32_id x : - 2 ^ 31 <= x < 2 ^ 31 -> int32 x = x.
Proof. intros H. unfold int32. rewrite Z.mod_small by lia. lia. Qed.
Lemma iz_upper_div g i : 0 <= i < ncells (sgrid_of g) -> 0 <= g_Nr g -> 1 <= g_Nz g -> ncells (sgrid_of g) < 2 ^ 31 ->
  Ztrunc (rnd64 (IZR i / IZR (g_Nr g + 1))) = i / (g_Nr g + 1).
Proof.
  intros Hi HNr HNz Hn. unfold ncells in *. cbn in *. apply (div64_exact i (g_Nr g + 1)); try lia.
  change (2 ^ 53) with (2 ^ 31 * 2 ^ 22). nia.
Qed.

(** ** One particle *)
Section P.
Context (c : R) (g : grid) (Nm : nat) (k : Deposit_Model.comp) (m : nat) (Hg : Deposit_Spec.grid_ok g) (Hb : beta_ok g) (Hm : (m < Nm)%nat).

Lemma exptheta_scal wj p n : Cmult (RtoC (scal0 c k wj p)) (exptheta p n) = scal c k wj p n.
Proof.
  induction n as [|n IH]; cbn [exptheta scal]; [ring|]. rewrite <- IH. ring.
Qed.
Lemma gpu_scal_eq wj p : gpu_scal c Nm k wj p m = scal c k wj p m.
Proof.
  unfold gpu_scal. destruct Nm as [|[|[|n]]]; try apply exptheta_scal.
  destruct m as [|[|x]]; [|cbn [scal]; ring|lia]. cbn [scal]. f_equal. lra.
Qed.
Lemma gpu_flip_eq : gpu_flip Nm k m = flip k m.
Proof.
  unfold gpu_flip, flip. destruct Nm as [|[|[|n]]]; try (destruct k; reflexivity).
  destruct m as [|[|x]]; [| |lia]; destruct k; cbn; lra.
Qed.
Lemma bn_eq sh p : g_beta g sh m (Z.min (Zceil (r_cell g p)) (g_Nr g)) = bn g sh m p.
Proof. unfold bn. destruct m as [|x]; [reflexivity|]. apply Hb. lia. Qed.

(** The four or sixteen values of the kernel for one particle. *)
Definition pvalue (sh : shape) (q : R) (ion : bool) (p : ptcl) (a b : Z) : C :=
  Cmult (RtoC (Sr sh (r_cell g p) a (gpu_flip Nm k m) (g_beta g sh m (Z.min (Zceil (r_cell g p)) (g_Nr g))) * Sz sh (z_cell g p) b)%R)
        (gpu_scal c Nm k (q * eff_weight ion p)%R p m).
Lemma pvalue_eq sh q ion p a b : pvalue sh q ion p a b =
  Cmult (RtoC (Sz sh (z_cell g p) b * Sr sh (r_cell g p) a (flip k m) (bn g sh m p))%R) (scal c k (q * eff_weight ion p)%R p m).
Proof. unfold pvalue. rewrite gpu_scal_eq, gpu_flip_eq, bn_eq. f_equal. f_equal. ring. Qed.

Lemma scal_real wj p : m = O -> snd (scal c k wj p m) = 0%R.
Proof. intros ->. reflexivity. Qed.
End P.

Section Q.
Context (g : grid) (Hg : Deposit_Spec.grid_ok g).
Lemma zu_bounds p : in_grid g p -> 0 <= Zceil (z_cell g p) <= g_Nz g.
Proof. apply (zcell_range g Hg). Qed.
Definition zup (p : ptcl) : Z := if Zceil (z_cell g p) >? g_Nz g - 1 then Zceil (z_cell g p) - g_Nz g else Zceil (z_cell g p).
Definition rup (p : ptcl) : Z := Z.min (Zceil (r_cell g p)) (g_Nr g).

Lemma gpu_iz_fold sh p b : in_grid g p -> 0 <= b < npts sh ->
  gpu_iz sh (g_Nz g) (zup p) b = fz (g_Nz g) (iz_cell g sh p + b).
Proof.
  intros Hp Hbb. pose proof (zu_bounds p Hp) as Hz. destruct Hg as (_ & _ & HN & _).
  unfold gpu_iz, zup, fz. rewrite !Z.gtb_ltb. destruct sh; cbn [npts iz_cell] in *.
  - assert (b = 0 \/ b = 1) as [E|E] by lia; subst b; cbn [Z.eqb];
    repeat match goal with |- context [?x <? ?y] => destruct (Z.ltb_spec x y) end; lia.
  - assert (b = 0 \/ b = 1 \/ b = 2 \/ b = 3) as [E|[E|[E|E]]] by lia; subst b; cbn [Z.eqb Pos.eqb];
    repeat match goal with |- context [?x <? ?y] => destruct (Z.ltb_spec x y) end; lia.
Qed.
Lemma gpu_ir_fold sh p a : 0 <= a < npts sh ->
  gpu_ir sh (g_Nr g) (rup p) a = fr (g_Nr g) (ir_cell g sh p + a).
Proof.
  intros Ha. pose proof (rcell_nonneg g Hg p) as Hr. destruct Hg as (_ & _ & _ & HN & _).
  unfold gpu_ir, rup, fr. destruct sh; cbn [npts ir_cell] in *.
  - assert (a = 0 \/ a = 1) as [E|E] by lia; subst a; cbn [Z.eqb];
    repeat match goal with |- context [?x <? ?y] => destruct (Z.ltb_spec x y) | |- context [?x =? ?y] => destruct (Z.eqb_spec x y) end; lia.
  - assert (a = 0 \/ a = 1 \/ a = 2 \/ a = 3) as [E|[E|[E|E]]] by lia; subst a; cbn [Z.eqb Pos.eqb]; cbv zeta;
    repeat match goal with |- context [?x <? ?y] => destruct (Z.ltb_spec x y) | |- context [?x =? ?y] => destruct (Z.eqb_spec x y) end; lia.
Qed.

(** The cell of a particle gives its upper points. *)
Lemma cell_points p : in_grid g p ->
  let i := cell_of (sgrid_of g) (p_x p) (p_y p) (p_z p) in
  i / (g_Nr g + 1) = zup p /\ i - zup p * (g_Nr g + 1) = rup p.
Proof.
  intros Hp. pose proof (zu_bounds p Hp) as Hz. pose proof (rcell_nonneg g Hg p) as Hr.
  unfold cell_of. cbn [sgrid_of Sort_Model.g_zmin Sort_Model.g_dz Sort_Model.g_Nz Sort_Model.g_dr Sort_Model.g_Nr].
  replace (/ g_dr g * (sqrt (p_x p ^ 2 + p_y p ^ 2) - 0) - / 2)%R with (r_cell g p)
    by (unfold r_cell, rj, Rdiv; lra).
  replace (/ g_dz g * (p_z p - g_zmin g) - / 2)%R with (z_cell g p) by (unfold z_cell, Rdiv; lra).
  destruct Hg as (_ & _ & HN & HNr & _). cbv zeta.
  assert (E1 : (if Zceil (r_cell g p) >? g_Nr g then g_Nr g else Zceil (r_cell g p)) = rup p).
  { unfold rup. rewrite Z.gtb_ltb. destruct (Z.ltb_spec (g_Nr g) (Zceil (r_cell g p))); lia. }
  assert (E2 : (if Zceil (z_cell g p) <? 0 then Zceil (z_cell g p) + g_Nz g
    else if Zceil (z_cell g p) >? g_Nz g - 1 then Zceil (z_cell g p) - g_Nz g else Zceil (z_cell g p)) = zup p).
  { unfold zup. destruct (Z.ltb_spec (Zceil (z_cell g p)) 0); [lia|reflexivity]. }
  rewrite E1, E2. assert (Hr2 : 0 <= rup p < g_Nr g + 1) by (unfold rup; lia).
  assert (D : (rup p + zup p * (g_Nr g + 1)) / (g_Nr g + 1) = zup p).
  { rewrite Z.div_add by lia. rewrite Z.div_small by exact Hr2. lia. }
  split; [exact D|lia].
Qed.
End Q.

(** ** One launch *)
Section K.
Context (c : R) (g : grid) (Nm : nat) (k : Deposit_Model.comp) (m : nat) (Hg : Deposit_Spec.grid_ok g) (Hb : beta_ok g) (Hm : (m < Nm)%nat).
Context (sp : gsp) (s : gspecies).
Let sh := gs_shape sp.
Let ion := gs_ionizable sp.
Let q := gs_q sp.
Let P (i : Z) := gptcl_at ion s i.
Context (HN : 0 <= s_N s < 2 ^ 31) (Hn : ncells (sgrid_of g) < 2 ^ 31) (Hin : forall i, 0 <= i < s_N s -> in_grid g (P i)).
Let p := s_prefix s.
Context (Hmono : forall x, 0 <= x < ncells (sgrid_of g) -> 0 <= prev p x <= p x /\ p x <= s_N s)
        (Hlast : prev p (ncells (sgrid_of g)) = s_N s)
        (Hown : forall x i, 0 <= x < ncells (sgrid_of g) -> prev p x <= i < p x -> cell (sgrid_of g) s i = x).

Lemma register_sum io fr a b : register c g Nm sh k m q ion s io fr a b =
  lsum (fun j => pvalue c g Nm k m sh q ion (P (io - 1 - j)) a b) (range fr).
Proof.
  unfold register. set (f := fun j => pvalue c g Nm k m sh q ion (P (io - 1 - j)) a b).
  assert (E : forall l acc, fold_left (fun acc j => Cplus acc (f j)) l acc = Cplus acc (lsum f l)).
  { induction l as [|x l IH]; intros acc; cbn [fold_left]; [rewrite lsum_nil; ring|].
    rewrite IH, lsum_cons. ring. }
  transitivity (fold_left (fun acc j => Cplus acc (f j)) (range fr) (RtoC 0)); [reflexivity|].
  rewrite E. ring.
Qed.

Lemma snd_lsum {A} (f : A -> C) l : (forall a, snd (f a) = 0%R) -> snd (lsum f l) = 0%R.
Proof. intros H. induction l as [|a l IH]; [reflexivity|]. rewrite lsum_cons. cbn. rewrite H, IH. lra. Qed.
Lemma register_real io fr a b : m = O -> snd (register c g Nm sh k m q ion s io fr a b) = 0%R.
Proof.
  intros Em. rewrite register_sum. apply snd_lsum. intros j. rewrite pvalue_eq by assumption.
  unfold Cmult. cbn [fst snd RtoC]. rewrite (scal_real c Nm k m Hm _ _ Em). lra.
Qed.

(** Pairing of the additions of a thread with a test function. *)
Lemma thread_pair phi i : 0 <= i < ncells (sgrid_of g) ->
  pair_with phi (deposit_thread c g Nm sh k m q ion s i) =
  lsum (fun j => pair_with (fun gz gr => phi (fz (g_Nz g) gz) (fr (g_Nr g) gr)) 
     (contributions c g sh k m q ion (P (p i - 1 - j)))) (range (p i - prev p i)).
Proof.
  intros Hi. destruct (Hmono i Hi) as [[Hp0 Hp1] Hp2].
  assert (HNr : 0 <= g_Nr g /\ 1 <= g_Nz g) by (destruct Hg as (_ & _ & ? & ? & _); lia).
  unfold deposit_thread. destruct (Z.ltb_spec i (g_Nz g * (g_Nr g + 1))) as [_|Hx];
    [|unfold ncells in Hi; cbn in Hi; lia].
  rewrite iz_upper_div by (assumption || tauto). cbv zeta.
  assert (Epi : int32 (s_prefix s i) = p i) by (apply int32_id; fold p; lia). rewrite Epi.
  assert (Efr : (if i =? 0 then int32 (p i) else int32 (p i - s_prefix s (i - 1))) = p i - prev p i).
  { unfold prev in *. fold p. destruct (Z.eqb_spec i 0); rewrite int32_id by lia; lia. }
  rewrite Efr. rewrite Z.gtb_ltb. destruct (Z.ltb_spec 0 (p i - prev p i)) as [Hpos|Hz].
  2:{ rewrite (range_0 (p i - prev p i)) by lia. reflexivity. }
  set (at_ := fun b a => (gpu_iz sh (g_Nz g) (i / (g_Nr g + 1)) b, gpu_ir sh (g_Nr g) (i - i / (g_Nr g + 1) * (g_Nr g + 1)) a)).
  unfold pair_with. rewrite lsum_flat_map.
  rewrite (lsum_ext _ (fun b => lsum (fun a => Cmult (phi (fst (at_ b a)) (snd (at_ b a)))
      (register c g Nm sh k m q ion s (p i) (p i - prev p i) a b)) (range (npts sh)))).
  2:{ intros b _. rewrite lsum_flat_map. apply lsum_ext. intros a _. fold (at_ b a).
      pose proof (register_real (p i) (p i - prev p i) a b) as Hreal.
      set (v := register c g Nm sh k m q ion s (p i) (p i - prev p i) a b) in *.
      destruct m as [|m'].
      - rewrite lsum_cons, lsum_nil. cbn [fst snd].
        assert (v = RtoC (fst v)) as -> by (rewrite (surjective_pairing v) at 1; rewrite Hreal by reflexivity; reflexivity).
        cbn [fst RtoC]. ring.
      - rewrite !lsum_cons, lsum_nil. cbn [fst snd].
        rewrite (surjective_pairing v) at 3. set (w := phi _ _). 
        apply injective_projections; cbn; ring. }
  rewrite (lsum_ext _ (fun b => lsum (fun j => lsum (fun a => Cmult (phi (fst (at_ b a)) (snd (at_ b a)))
      (pvalue c g Nm k m sh q ion (P (p i - 1 - j)) a b)) (range (npts sh))) (range (p i - prev p i)))).
  2:{ intros b _. rewrite lsum_swap. apply lsum_ext. intros a _. rewrite register_sum, lsum_scal. reflexivity. }
  rewrite lsum_swap. apply lsum_ext. intros j Hj. apply in_range in Hj.
  set (pt := P (p i - 1 - j)).
  assert (Hpt : in_grid g pt) by (apply Hin; lia).
  destruct (cell_points g Hg pt Hpt) as [C1 C2].
  assert (Ec : cell_of (sgrid_of g) (p_x pt) (p_y pt) (p_z pt) = i) by (apply (Hown i (p i - 1 - j) Hi); lia).
  rewrite Ec in C1, C2.
  unfold contributions. rewrite lsum_flat_map. apply lsum_ext. intros b Hbb. apply in_range in Hbb.
  rewrite lsum_map. apply lsum_ext. intros a Ha. apply in_range in Ha. cbn [fst snd].
  unfold at_. cbn [fst snd]. rewrite C1, C2.
  rewrite (gpu_iz_fold g Hg sh pt b Hpt Hbb), (gpu_ir_fold g Hg sh pt a Ha).
  rewrite pvalue_eq by assumption. reflexivity.
Qed.

Lemma atomic_cell tpb A A' iz ir : 1 <= tpb ->
  atomic_launch (g_Nz g * (g_Nr g + 1)) tpb (deposit_thread c g Nm sh k m q ion s) A A' ->
  A' iz ir = Cplus (A iz ir) (lsum (fun i => pair_with (fun gz gr => delta iz ir (fz (g_Nz g) gz) (fr (g_Nr g) gr))
       (contributions c g sh k m q ion (P i))) (range (s_N s))).
Proof.
  intros Htpb [ws [Hws ->]]. rewrite add_value. f_equal.
  rewrite (lsum_ext _ (fun w => Cmult (delta iz ir (fst (fst w)) (snd (fst w))) (snd w))).
  2:{ intros w _. unfold delta. rewrite (Z.eqb_sym iz), (Z.eqb_sym ir).
      destruct ((fst (fst w) =? iz) && (snd (fst w) =? ir)); ring. }
  rewrite (lsum_perm _ _ _ Hws), lsum_flat_map.
  fold (ncells (sgrid_of g)).
  change (g_Nz g * (g_Nr g + 1)) with (ncells (sgrid_of g)).
  assert (Hn0 : 0 <= ncells (sgrid_of g)) by (destruct Hg as (_ & _ & ? & ? & _); unfold ncells; cbn; nia).
  assert (HnB : ncells (sgrid_of g) < 2 ^ 52) by (change (2 ^ 52) with (2 ^ 31 * 2 ^ 21); lia).
  destruct (bpg_covers (ncells (sgrid_of g)) tpb Hn0 Htpb HnB) as [B1 B2].
  destruct (cuda_tpb_bpg_1d (ncells (sgrid_of g)) tpb) as [b t] eqn:E.
  assert (t = tpb) as -> by (unfold cuda_tpb_bpg_1d in E; congruence). cbn [fst] in *.
  rewrite threads_range by lia.
  replace (b * tpb) with (ncells (sgrid_of g) + (b * tpb - ncells (sgrid_of g))) by lia.
  rewrite range_add, lsum_app by lia. rewrite lsum_map.
  rewrite (lsum_zero (fun a => lsum _ (deposit_thread c g Nm sh k m q ion s (ncells (sgrid_of g) + a)))).
  2:{ intros a Ha. apply in_range in Ha. unfold deposit_thread.
      destruct (Z.ltb_spec (ncells (sgrid_of g) + a) (g_Nz g * (g_Nr g + 1))) as [Hx|_]; [|reflexivity].
      unfold ncells in Hx. cbn in Hx. lia. }
  transitivity (lsum (fun i => lsum (fun j => pair_with (fun gz gr => delta iz ir (fz (g_Nz g) gz) (fr (g_Nr g) gr))
     (contributions c g sh k m q ion (P (p i - 1 - j)))) (range (p i - prev p i))) (range (ncells (sgrid_of g)))).
  - rewrite (lsum_ext _ (fun i => lsum (fun j => pair_with (fun gz gr => delta iz ir (fz (g_Nz g) gz) (fr (g_Nr g) gr))
     (contributions c g sh k m q ion (P (p i - 1 - j)))) (range (p i - prev p i)))); [ring|].
    intros i Hi. apply in_range in Hi. apply (thread_pair (delta iz ir) i Hi).
  - rewrite <- Hlast.
    apply (lsum_prefix (fun i => pair_with (fun gz gr => delta iz ir (fz (g_Nz g) gz) (fr (g_Nr g) gr))
     (contributions c g sh k m q ion (P i))) p (ncells (sgrid_of g)) Hn0).
    intros x Hx. apply Hmono. exact Hx.
Qed.
End K.

(** ** The sort *)
Lemma sgrid_ok g : Deposit_Spec.grid_ok g -> Sort_Spec.grid_ok (sgrid_of g).
Proof. intros (H1 & H2 & H3 & H4 & _). repeat split; cbn; try assumption; lia. Qed.
Lemma count_upto_mono g s x y : x <= y -> count_upto g s x <= count_upto g s y.
Proof.
  intros H. unfold count_upto. apply Nat2Z.inj_le. induction (range (s_N s)) as [|j l IH]; [reflexivity|]. cbn [filter].
  destruct (Z.leb_spec (cell g s j) x), (Z.leb_spec (cell g s j) y); cbn [length]; lia.
Qed.
Lemma count_upto_le g s x : 0 <= s_N s -> 0 <= count_upto g s x <= s_N s.
Proof.
  intros H. unfold count_upto. pose proof (filter_length_le (fun j => cell g s j <=? x) (range (s_N s))) as L.
  rewrite length_range in L. lia.
Qed.

Lemma prefix_facts g s0 s : Deposit_Spec.grid_ok g -> sizes_ok (sgrid_of g) s0 -> near_box (sgrid_of g) s0 ->
  sort_particles (sgrid_of g) s0 s ->
  s_N s = s_N s0 /\
  (forall x, 0 <= x < ncells (sgrid_of g) -> 0 <= prev (s_prefix s) x <= s_prefix s x /\ s_prefix s x <= s_N s) /\
  prev (s_prefix s) (ncells (sgrid_of g)) = s_N s /\
  (forall x i, 0 <= x < ncells (sgrid_of g) -> prev (s_prefix s) x <= i < s_prefix s x -> cell (sgrid_of g) s i = x).
Proof.
  intros Hg Hs Hnear H. apply sgrid_ok in Hg.
  destruct (sorted_main _ _ _ Hg Hs Hnear H) as (HP & Hc & _ & Hbd & Hpre & _).
  destruct (sorted_ranges _ _ _ Hg Hs Hnear H) as (_ & Hcnt & Hr & _).
  assert (HN : s_N s = s_N s0) by apply HP.
  assert (HN0 : 0 <= s_N s0) by (destruct Hs; lia).
  assert (A : forall x, 0 <= x < ncells (sgrid_of g) -> 0 <= prev (s_prefix s) x <= s_prefix s x /\ s_prefix s x <= s_N s).
  { intros x Hx. rewrite (Hcnt x Hx). pose proof (count_upto_le (sgrid_of g) s0 x HN0). unfold prev.
    destruct (Z.eqb_spec x 0); [lia|]. rewrite (Hcnt (x - 1)) by lia.
    pose proof (count_upto_mono (sgrid_of g) s0 (x - 1) x ltac:(lia)).
    pose proof (count_upto_le (sgrid_of g) s0 (x - 1) HN0). lia. }
  split; [exact HN|]. split; [exact A|]. split.
  - assert (Hn0 : 1 <= ncells (sgrid_of g)) by (destruct Hg as (_ & _ & ? & ?); unfold ncells; nia).
    unfold prev. destruct (Z.eqb_spec (ncells (sgrid_of g)) 0); [lia|].
    destruct (A (ncells (sgrid_of g) - 1) ltac:(lia)) as [_ L].
    destruct (Z.eq_dec (s_prefix s (ncells (sgrid_of g) - 1)) (s_N s)) as [E|E]; [exact E|exfalso].
    destruct (Hpre (ncells (sgrid_of g) - 1) ltac:(lia)) as [_ Q].
    assert (HA : 0 <= s_prefix s (ncells (sgrid_of g) - 1)) by (destruct (A (ncells (sgrid_of g) - 1) ltac:(lia)); lia).
    specialize (Q (s_prefix s (ncells (sgrid_of g) - 1)) ltac:(lia)).
    specialize (Hbd (s_prefix s (ncells (sgrid_of g) - 1)) ltac:(lia)). rewrite Hc in Hbd by lia. lia.
  - intros x i Hx Hi. apply (Hr x i Hx); [destruct (A x Hx); lia|exact Hi].
Qed.

(** The particles after the sort. *)
Lemma nth_forall2 {V} (same : (Z -> V) -> (Z -> V) -> Prop) l l' d j : Forall2 same l l' -> (j < length l)%nat ->
  same (nth j l d) (nth j l' d).
Proof.
  intros H. revert j. induction H as [|a a' l l' Ha Hl IH]; intros j Hj; cbn [length] in Hj; [lia|].
  destruct j; [exact Ha|]. cbn [nth]. apply IH. lia.
Qed.
Lemma last_nth {A} (l : list A) d : last l d = nth (length l - 1) l d.
Proof.
  induction l as [|a l IH]; [reflexivity|]. destruct l as [|b l]; [reflexivity|].
  change (last (b :: l) d = nth (S (length l) - 0) (a :: b :: l) d). rewrite IH. cbn [length Nat.sub].
  replace (length l - 0)%nat with (length l) by lia. reflexivity.
Qed.
Lemma permuted_ptcl pi s s' ion i : permuted_by pi s s' -> (if ion : bool then 6 else 5) <= Z.of_nat (length (s_fl s)) ->
  0 <= i < s_N s -> gptcl_at ion s' i = gptcl_at ion s (pi i).
Proof.
  intros (_ & _ & Hx & Hy & Hz & Hfl & _) Hlen Hi. cbv beta in *.
  assert (L : (5 <= length (s_fl s))%nat) by (destruct ion; lia).
  assert (Hlen' : length (s_fl s') = length (s_fl s)) by (clear -Hfl; induction Hfl; cbn [length]; congruence).
  assert (A : forall j, (j < length (s_fl s))%nat -> nth j (s_fl s') (fun _ => 0%R) i = nth j (s_fl s) (fun _ => 0%R) (pi i)).
  { intros j Hj. apply (nth_forall2 _ _ _ (fun _ => 0%R) j Hfl Hj i Hi). }
  unfold gptcl_at, attr. rewrite Hx, Hy, Hz by exact Hi. rewrite !A by lia.
  destruct ion; [|reflexivity]. rewrite !last_nth, Hlen', A by lia. reflexivity.
Qed.

Lemma in_grid_near g ion s : Deposit_Spec.grid_ok g -> (forall i, 0 <= i < s_N s -> in_grid g (gptcl_at ion s i)) -> near_box (sgrid_of g) s.
Proof.
  intros (Hd & _ & HN & _) H j Hj. specialize (H j Hj). unfold in_grid in H. cbn in *.
  assert (2 <= IZR (g_Nz g))%R by (apply (IZR_le 2); lia). nra.
Qed.

(** ** One species *)
Definition species_sum (c : R) (g : grid) (k : Deposit_Model.comp) (m : nat) (iz ir : Z) (sp : species) : C :=
  lsum (fun p => pair_with (fun gz gr => delta iz ir (fz (g_Nz g) gz) (fr (g_Nr g) gr)) (contrib c g k m sp p)) (sp_ptcl sp).

Lemma gpu_species_cell v100 c g Nm ft sp sp' A A' k m iz ir : Deposit_Spec.grid_ok g -> beta_ok g ->
  gsp_ok g sp -> flag_ok g sp -> gpu_species_deposit c v100 g Nm ft sp sp' A A' -> deposited ft k = true -> (m < Nm)%nat ->
  A' k m iz ir = Cplus (A k m iz ir) (if Req_EM_T (gs_q sp) 0 then RtoC 0 else species_sum c g k m iz ir (cpu_of sp)).
Proof.
  intros Hg Hb (Hlen & HN & Hn & Hin) Hflag H Hk Hm. unfold gpu_species_deposit in H.
  destruct (Req_EM_T (gs_q sp) 0) as [E|E]; [destruct H as [_ ->]; ring|].
  destruct H as (_ & _ & _ & _ & _ & Hsort & Hl). specialize (Hl k m Hm). rewrite Hk in Hl.
  assert (Hin2 : forall i, 0 <= i < s_N (gs_arr sp) -> in_grid g (gptcl_at (gs_ionizable sp) (gs_arr sp) i)).
  { intros i Hi. rewrite Forall_forall in Hin. apply Hin. cbn [cpu_of sp_ptcl]. apply in_map, in_range. exact Hi. }
  assert (Htpb : 1 <= deposit_tpb v100 (gs_shape sp)) by (destruct (gs_shape sp), v100; cbn; lia).
  assert (X : exists pi, 
     (forall i, 0 <= i < s_N (gs_arr sp) -> gptcl_at (gs_ionizable sp) (gs_arr sp') i = gptcl_at (gs_ionizable sp) (gs_arr sp) (pi i)) /\
     Permutation (map pi (range (s_N (gs_arr sp)))) (range (s_N (gs_arr sp))) /\
     s_N (gs_arr sp') = s_N (gs_arr sp) /\
     (forall x, 0 <= x < ncells (sgrid_of g) -> 0 <= prev (s_prefix (gs_arr sp')) x <= s_prefix (gs_arr sp') x /\ s_prefix (gs_arr sp') x <= s_N (gs_arr sp')) /\
     prev (s_prefix (gs_arr sp')) (ncells (sgrid_of g)) = s_N (gs_arr sp') /\
     (forall x i, 0 <= x < ncells (sgrid_of g) -> prev (s_prefix (gs_arr sp')) x <= i < s_prefix (gs_arr sp') x -> cell (sgrid_of g) (gs_arr sp') i = x)).
  { destruct (gs_sorted sp) eqn:Es.
    - rewrite Hsort. destruct (Hflag Es) as (s0 & H1 & H2 & H3).
      destruct (prefix_facts g s0 _ Hg H1 H2 H3) as (_ & F1 & F2 & F3).
      exists (fun i => i). split; [reflexivity|]. rewrite map_id. repeat split; try reflexivity; try assumption; apply F1; assumption.
    - assert (Hsz : sizes_ok (sgrid_of g) (gs_arr sp)).
      { split; [split; [lia|]|]; change (2 ^ 52) with (2 ^ 31 * 2 ^ 21); lia. }
      pose proof (in_grid_near g _ _ Hg Hin2) as Hnear.
      destruct (prefix_facts g _ _ Hg Hsz Hnear Hsort) as (F0 & F1 & F2 & F3).
      destruct (sorted_ranges _ _ _ (sgrid_ok g Hg) Hsz Hnear Hsort) as ([pi Hpi] & _).
      exists pi. split; [|split; [apply Hpi|repeat split; try assumption; apply F1; assumption]].
      intros i Hi. apply permuted_ptcl; assumption. }
  destruct X as (pi & X1 & X2 & X3 & X4 & X5 & X6).
  rewrite (atomic_cell c g Nm k m Hg Hb Hm sp (gs_arr sp') ltac:(lia) Hn) with (tpb := deposit_tpb v100 (gs_shape sp)) (A := A k m); try assumption.
  2:{ intros i Hi. rewrite X3 in Hi. rewrite X1 by exact Hi. apply Hin2.
      apply perm_index; assumption. }
  f_equal. unfold species_sum. cbn [cpu_of sp_ptcl]. rewrite lsum_map. rewrite X3.
  rewrite (lsum_ext _ (fun i => pair_with (fun gz gr => delta iz ir (fz (g_Nz g) gz) (fr (g_Nr g) gr))
       (contributions c g (gs_shape sp) k m (gs_q sp) (gs_ionizable sp) (gptcl_at (gs_ionizable sp) (gs_arr sp) (pi i))))).
  2:{ intros i Hi. apply in_range in Hi. rewrite X1 by exact Hi. reflexivity. }
  rewrite <- (lsum_map (fun i => pair_with (fun gz gr => delta iz ir (fz (g_Nz g) gz) (fr (g_Nr g) gr))
       (contributions c g (gs_shape sp) k m (gs_q sp) (gs_ionizable sp) (gptcl_at (gs_ionizable sp) (gs_arr sp) i))) pi).
  rewrite (lsum_perm _ _ _ X2). reflexivity.
Qed.

Lemma gpu_loop_cell v100 c g Nm ft l l' A A' k m iz ir : Deposit_Spec.grid_ok g -> beta_ok g ->
  Forall (gsp_ok g) l -> Forall (flag_ok g) l -> gpu_species_loop c v100 g Nm ft l l' A A' -> deposited ft k = true -> (m < Nm)%nat ->
  A' k m iz ir = Cplus (A k m iz ir)
    (lsum (species_sum c g k m iz ir) (filter (fun sp => if Req_EM_T (sp_q sp) 0 then false else true) (map cpu_of l))).
Proof.
  intros Hg Hb Hl Hf H Hk Hm. induction H as [A|sp sp' l l' A A1 A' H1 H2 IH].
  - cbn [map filter]. rewrite lsum_nil. ring.
  - inversion Hl; inversion Hf; subst. rewrite IH by assumption.
    rewrite (gpu_species_cell _ _ _ _ _ _ _ _ _ k m iz ir Hg Hb ltac:(eassumption) ltac:(eassumption) H1 Hk Hm).
    cbn [map filter]. change (sp_q (cpu_of sp)) with (gs_q sp).
    destruct (Req_EM_T (gs_q sp) 0); [ring|]. rewrite lsum_cons. ring.
Qed.

Lemma loop_mode_grid v100 c g vol m Nm ft l l' A A' : gpu_species_loop c v100 g Nm ft l l' A A' ->
  gpu_species_loop c v100 (mode_grid g vol m) Nm ft l l' A A'.
Proof. induction 1 as [A|sp sp' l l' A A1 A' H1 H2 IH]; [constructor|]. econstructor; [exact H1|exact IH]. Qed.

Lemma gpu_cpu v100 c g vol Nm ft l l' A A' k m nthreads iz ir :
  Deposit_Spec.grid_ok (mode_grid g vol m) -> beta_ok g ->
  Forall (gsp_ok g) l -> Forall (flag_ok g) l -> 1 <= nthreads <= 2 ^ 32 ->
  gpu_deposit c v100 g vol Nm ft l l' A A' -> deposited ft k = true -> (m < Nm)%nat ->
  0 <= iz < g_Nz g -> 0 <= ir < g_Nr g ->
  A' k m iz ir = deposit c (mode_grid g vol m) k m nthreads (map cpu_of l) None iz ir.
Proof.
  intros Hg Hb Hl Hf Hth (A1 & Hloop & HA) Hk Hm Hiz Hir.
  rewrite (HA k m Hm), Hk.
  assert (Hok : Forall (gsp_ok g) (filter (fun s => negb (gs_tracer s)) l) /\ Forall (flag_ok g) (filter (fun s => negb (gs_tracer s)) l)).
  { rewrite !Forall_forall in *. split; intros s Hs; apply filter_In in Hs; [apply Hl|apply Hf]; tauto. }
  destruct Hok as [Hok1 Hok2].
  assert (Ed : depositing (map cpu_of l) None = map cpu_of (filter (fun s => negb (gs_tracer s)) l)).
  { cbn [depositing]. clear. induction l as [|s l IH]; [reflexivity|]. cbn [map filter].
    change (sp_tracer (cpu_of s)) with (gs_tracer s). destruct (negb (gs_tracer s)); cbn [map]; rewrite IH; reflexivity. }
  rewrite (deposit_cell c (mode_grid g vol m) k m nthreads (map cpu_of l) None iz ir Hg).
  - unfold divide_by_volume. f_equal.
    transitivity (Cplus (RtoC 0) (lsum (species_sum c g k m iz ir)
       (filter (fun sp => if Req_EM_T (sp_q sp) 0 then false else true) (map cpu_of (filter (fun s => negb (gs_tracer s)) l))))).
    2:{ rewrite Ed, Cplus_0_l. reflexivity. }
    pose proof (gpu_loop_cell v100 c (mode_grid g vol m)
      Nm ft _ _ _ _ k m iz ir Hg Hb Hok1 Hok2 (loop_mode_grid _ _ _ _ _ _ _ _ _ _ _ Hloop) Hk Hm) as Q.
    cbv beta in Q. rewrite Hk in Q. exact Q.
  - split; [lia|]. rewrite Ed. rewrite Forall_forall in *. intros s Hs. apply in_map_iff in Hs as [s' [<- Hs']].
    destruct (Hok1 s' Hs') as (_ & B & _). cbn [cpu_of sp_ptcl]. rewrite map_length, length_range.
    change (2 ^ 53) with (2 ^ 32 + (2 ^ 53 - 2 ^ 32)). lia.
  - rewrite Ed. unfold all_in_grid. rewrite Forall_forall in *. intros s Hs. apply in_map_iff in Hs as [s' [<- Hs']].
    destruct (Hok1 s' Hs') as (_ & _ & _ & B). exact B.
  - exact Hiz.
  - exact Hir.
Qed.

(** ** The state after a deposition *)
Lemma deposit_state v100 c g Nm ft sp sp' A A' : Deposit_Spec.grid_ok g -> gsp_ok g sp -> flag_ok g sp ->
  gpu_species_deposit c v100 g Nm ft sp sp' A A' ->
  gsp_ok g sp' /\ flag_ok g sp' /\ reordered (cpu_of sp) (cpu_of sp').
Proof.
  intros Hg (Hlen & HN & Hn & Hin) Hflag H. unfold gpu_species_deposit in H.
  destruct (Req_EM_T (gs_q sp) 0) as [E|E].
  { destruct H as [-> _]. split; [repeat split; assumption || lia|]. split; [exact Hflag|]. repeat split; reflexivity. }
  destruct H as (E1 & E2 & E3 & E4 & E5 & Hsort & _).
  assert (Hin2 : forall i, 0 <= i < s_N (gs_arr sp) -> in_grid g (gptcl_at (gs_ionizable sp) (gs_arr sp) i)).
  { intros i Hi. rewrite Forall_forall in Hin. apply Hin. cbn [cpu_of sp_ptcl]. apply in_map, in_range. exact Hi. }
  destruct (gs_sorted sp) eqn:Es.
  - assert (Ec : cpu_of sp' = cpu_of sp) by (unfold cpu_of; rewrite E1, E2, E3, E4, Hsort; reflexivity).
    split; [|split].
    + unfold gsp_ok. rewrite Ec, E3, Hsort. repeat split; assumption || lia.
    + intros _. rewrite Hsort. apply Hflag. exact Es.
    + rewrite Ec. repeat split; reflexivity.
  - assert (Hsz : sizes_ok (sgrid_of g) (gs_arr sp)).
    { split; [split; [lia|]|]; change (2 ^ 52) with (2 ^ 31 * 2 ^ 21); lia. }
    pose proof (in_grid_near g _ _ Hg Hin2) as Hnear.
    destruct (sorted_ranges _ _ _ (sgrid_ok g Hg) Hsz Hnear Hsort) as ([pi Hpi] & _).
    assert (HN' : s_N (gs_arr sp') = s_N (gs_arr sp)) by apply Hpi.
    assert (Hperm : Permutation (sp_ptcl (cpu_of sp)) (sp_ptcl (cpu_of sp'))).
    { cbn [cpu_of sp_ptcl]. rewrite HN', E3.
      rewrite (map_ext_in (gptcl_at (gs_ionizable sp) (gs_arr sp')) (fun i => gptcl_at (gs_ionizable sp) (gs_arr sp) (pi i))).
      2:{ intros i Hi. apply in_range in Hi. apply permuted_ptcl; assumption. }
      rewrite <- (map_map pi). apply Permutation_map. symmetry. apply Hpi. }
    assert (Hfl : length (s_fl (gs_arr sp')) = length (s_fl (gs_arr sp))).
    { destruct Hpi as (_ & _ & _ & _ & _ & F & _). clear -F. induction F; cbn [length]; congruence. }
    split; [|split].
    + unfold gsp_ok. rewrite E3, Hfl, HN'. repeat split; try assumption; try lia.
      rewrite Forall_forall in *. intros p Hp. apply Hin. eapply Permutation_in; [symmetry; exact Hperm|exact Hp].
    + intros _. exists (gs_arr sp). split; [exact Hsz|]. split; [exact Hnear|exact Hsort].
    + repeat split; cbn [cpu_of sp_q sp_tracer sp_ionizable sp_shape]; try congruence; exact Hperm.
Qed.

Lemma loop_state v100 c g Nm ft l l' A A' : Deposit_Spec.grid_ok g -> Forall (gsp_ok g) l -> Forall (flag_ok g) l ->
  gpu_species_loop c v100 g Nm ft l l' A A' ->
  Forall (gsp_ok g) l' /\ Forall (flag_ok g) l' /\ Forall2 reordered (map cpu_of l) (map cpu_of l').
Proof.
  intros Hg Hl Hf H. induction H as [A|sp sp' l l' A A1 A' H1 H2 IH].
  - repeat split; constructor.
  - inversion Hl; inversion Hf; subst. destruct IH as (I1 & I2 & I3); try assumption.
    destruct (deposit_state v100 c g Nm ft sp sp' A A1 Hg ltac:(assumption) ltac:(assumption) H1) as (J1 & J2 & J3).
    split; [constructor; assumption|]. split; constructor; assumption.
Qed.

(** ** A sort of one particle *)
Lemma rearr_exists {V} N sidx (l : list (Z -> V)) : forall buf, exists l' buf', rearranged N sidx l buf l' buf'.
Proof.
  induction l as [|a l IH]; intros buf; [exists [], buf; constructor|].
  destruct (IH a) as (l' & buf' & H). exists (launch N (write_sorting_buffer N sidx a) buf :: l'), buf'.
  econstructor; [apply launch_launched|exact H].
Qed.
Lemma one_sorted g s : s_N s = 1 -> exists s', sort_particles g s s'.
Proof.
  intros E.
  destruct (rearr_exists 1 (fun i => i) (s_x s :: s_y s :: s_z s :: s_fl s) (s_buf s)) as (l' & buf' & H).
  destruct (rearr_exists 1 (fun i => i) (s_int s) (s_ibuf s)) as (li & ibuf & Hi).
  assert (H0 := H). inversion H as [|? ? ? x ? ? Hx Hx']; subst. inversion Hx' as [|? ? ? y ? ? Hy Hy']; subst.
  inversion Hy' as [|? ? ? z fl ? Hz Hz']; subst.
  set (cs := launch 1 (get_cell_idx g 1 (s_x s) (s_y s) (s_z s)) (s_cell s)).
  set (p1 := launch (Sort_Model.g_Nz g * (Sort_Model.g_Nr g + 1)) (prefill_prefix_sum (Sort_Model.g_Nz g * (Sort_Model.g_Nr g + 1)) 1 cs) (s_prefix s)).
  exists {| s_N := 1; s_x := x; s_y := y; s_z := z; s_fl := fl; s_int := li; s_cell := cs; s_sidx := fun i => i;
            s_prefix := launch 1 (incl_prefix_sum 1 cs) p1; s_shift := 0; s_buf := buf'; s_ibuf := ibuf |}.
  exists cs, (launch 1 (reset_sorted_idx 1) (s_sidx s)), p1. rewrite E. cbn [s_cell s_sidx s_prefix s_x s_y s_z s_fl s_int s_buf s_ibuf s_N s_shift].
  split; [apply launch_launched|]. split; [apply launch_launched|].
  split; [|split; [apply launch_launched|]].
  - split; [rewrite map_id; reflexivity|]. split; [reflexivity|]. intros i j Hij.
    assert (i = j) as -> by lia. lia.
  - split; [apply launch_launched|]. repeat split; assumption.
Qed.

(** ** Frozen particles in a moving window *)
Definition wg (zmin : R) : grid :=
  {| g_dz := 1; g_zmin := zmin; g_Nz := 8; g_dr := 1; g_Nr := 4; g_vol := fun _ => 1; g_beta := fun _ _ _ => 0 |}%R.
Definition ws (z : R) : gspecies :=
  {| s_N := 1; s_x := fun _ => 0%R; s_y := fun _ => 0%R; s_z := fun _ => z;
     s_fl := [fun _ => 0%R; fun _ => 0%R; fun _ => 0%R; fun _ => 1%R; fun _ => 1%R]; s_int := [];
     s_cell := fun _ => 0; s_sidx := fun _ => 0; s_prefix := fun _ => 0; s_shift := 0;
     s_buf := fun _ => 0%R; s_ibuf := fun _ => 0 |}.
Definition wsp (sorted : bool) (s : gspecies) : gsp :=
  {| gs_q := 1; gs_tracer := false; gs_ionizable := false; gs_shape := Linear; gs_sorted := sorted; gs_arr := s |}%R.
Definition run (c : R) (g : grid) (s : gspecies) (Nm : nat) (ft : fieldtype) (A : Deposit_Model.comp -> nat -> Z -> Z -> C) : Deposit_Model.comp -> nat -> Z -> Z -> C :=
  fun k m => if deposited ft k then
    fold_left add_at (flat_map (deposit_thread c g Nm Linear k m 1 false s)
      (threads_1d (cuda_tpb_bpg_1d (g_Nz g * (g_Nr g + 1)) (deposit_tpb false Linear)))) (A k m)
  else A k m.

Lemma wg_ok zmin : Deposit_Spec.grid_ok (wg zmin).
Proof. unfold Deposit_Spec.grid_ok, wg; cbn. repeat split; try lra; try lia. intros _ _. lra. Qed.
Lemma run_deposit c g s Nm ft sorted s' A :
  (if sorted : bool then s' = s else sort_particles (sgrid_of g) s s') ->
  gpu_species_deposit c false g Nm ft (wsp sorted s) (wsp true s') A (run c g s' Nm ft A).
Proof.
  intros H. unfold gpu_species_deposit. cbn [wsp gs_q gs_tracer gs_ionizable gs_shape gs_sorted gs_arr].
  destruct (Req_EM_T 1 0) as [E|_]; [lra|]. repeat (split; [reflexivity|]). split; [exact H|].
  intros k m Hm. unfold run. destruct (deposited ft k); [|reflexivity].
  eexists. split; reflexivity.
Qed.
Definition zeroed (ft : fieldtype) (A : Deposit_Model.comp -> nat -> Z -> Z -> C) : Deposit_Model.comp -> nat -> Z -> Z -> C :=
  fun k m => if deposited ft k then zero2 else A k m.
Definition divided (g : grid) (vol : nat -> Z -> R) (ft : fieldtype) (A : Deposit_Model.comp -> nat -> Z -> Z -> C) : Deposit_Model.comp -> nat -> Z -> Z -> C :=
  fun k m => if deposited ft k then divide_by_volume (mode_grid g vol m) (A k m) else A k m.
Lemma run_sim c g vol s Nm ft sorted s' A :
  (if sorted : bool then s' = s else sort_particles (sgrid_of g) s s') ->
  gpu_deposit c false g vol Nm ft [wsp sorted s] [wsp true s'] A (divided g vol ft (run c g s' Nm ft (zeroed ft A))).
Proof.
  intros H. exists (run c g s' Nm ft (zeroed ft A)). split.
  - cbn [filter wsp gs_tracer negb]. econstructor; [apply run_deposit; exact H|]. constructor.
  - reflexivity.
Qed.

Lemma wsp_ok zmin s b : s_N s = 1 -> length (s_fl s) = 5%nat -> (zmin <= s_z s 0 <= zmin + 8)%R -> gsp_ok (wg zmin) (wsp b s).
Proof.
  intros HN Hf Hz. unfold gsp_ok. cbn [wsp gs_ionizable gs_arr]. rewrite Hf, HN.
  split; [lia|]. split; [lia|]. split; [unfold ncells; cbn; lia|].
  cbn [cpu_of sp_ptcl wsp gs_ionizable gs_arr]. rewrite HN. change (range 1) with [0]. cbn [map]. apply Forall_cons; [|apply Forall_nil].
  unfold in_grid; cbn; lra.
Qed.

Lemma Zceil_val x n : (IZR n - 1 < x <= IZR n)%R -> Zceil x = n.
Proof. intros H. apply Zceil_imp. rewrite minus_IZR. exact H. Qed.
Lemma frozen_window (c : R) : exists g vol l l1 l2 A1 A2 A3, 
  Deposit_Spec.grid_ok (mode_grid g vol 0) /\ beta_ok g /\ Forall (gsp_ok g) l /\ Forall (flag_ok g) l /\
  gpu_deposit c false g vol 2 FRho l l1 A1 A2 /\
  Forall (gsp_ok (grid_moved 1 g)) (map (species_window_moved 1) l1) /\
  gpu_deposit c false (grid_moved 1 g) vol 2 FRho (map (species_window_moved 1) l1) l2 A2 A3 /\
  exists iz ir, 0 <= iz < g_Nz g /\ 0 <= ir < g_Nr g /\
    A3 Rho 0%nat iz ir <> deposit c (mode_grid (grid_moved 1 g) vol 0) Rho 0 1 (map cpu_of (map (species_window_moved 1) l1)) None iz ir.
Proof.
  destruct (one_sorted (sgrid_of (wg 0)) (ws 3) eq_refl) as [s' Hs].
  set (g := wg 0). set (vol := fun (_ : nat) (_ : Z) => 1%R).
  assert (Hg : Deposit_Spec.grid_ok g) by apply wg_ok.
  assert (Hb : beta_ok g) by (intros sh m x _; reflexivity).
  assert (Hok : gsp_ok g (wsp false (ws 3))) by (apply wsp_ok; [reflexivity|reflexivity|cbn; lra]).
  assert (Hfl : flag_ok g (wsp false (ws 3))) by (intros H; discriminate).
  set (A0 := fun (_ : Deposit_Model.comp) (_ : nat) => zero2).
  pose proof (run_sim c g vol (ws 3) 2 FRho false s' A0 Hs) as D1.
  set (A2 := divided g vol FRho (run c g s' 2 FRho (zeroed FRho A0))) in *.
  assert (Hsz : sizes_ok (sgrid_of g) (ws 3)) by (unfold sizes_ok, ncells; cbn; lia).
  assert (Hnear : near_box (sgrid_of g) (ws 3)) by (intros j Hj; cbn; lra).
  destruct (sorted_ranges _ _ _ (sgrid_ok g Hg) Hsz Hnear Hs) as ([pi Hpi] & _).
  destruct (prefix_facts g _ _ Hg Hsz Hnear Hs) as (EN & F1 & F2 & F3).
  change (s_N (ws 3)) with 1 in EN.
  assert (Hpi0 : pi 0 = 0).
  { pose proof (perm_index 1 pi 0 (proj1 Hpi) ltac:(lia)). lia. }
  assert (EP : gptcl_at false s' 0 = gptcl_at false (ws 3) 0).
  { rewrite (permuted_ptcl pi (ws 3) s' false 0 Hpi) by (cbn; lia). rewrite Hpi0. reflexivity. }
  assert (Hlen : length (s_fl s') = 5%nat).
  { destruct Hpi as (_ & _ & _ & _ & _ & F & _). cbn in F. change 5%nat with (length (s_fl (ws 3))). clear -F. cbn [ws s_fl] in *.
    induction F; cbn [length]; congruence. }
  assert (Ez : s_z s' 0 = 3%R) by (apply (f_equal p_z) in EP; exact EP).
  set (g1 := grid_moved 1 g).
  assert (Eg1 : forall sp, gsp_ok (wg 1) sp -> gsp_ok g1 sp).
  { intros sp H. unfold gsp_ok in *. destruct H as (H1 & H2 & H3 & H4). split; [exact H1|]. split; [exact H2|]. split; [exact H3|].
    eapply Forall_impl; [|exact H4]. intros p. unfold in_grid. cbn. intros; lra. }
  pose proof (run_sim c g1 vol (grids_moved 1 s') 2 FRho true (grids_moved 1 s') A2 eq_refl) as D2.
  set (A3 := divided g1 vol FRho (run c g1 (grids_moved 1 s') 2 FRho (zeroed FRho A2))) in *.
  exists g, vol, [wsp false (ws 3)], [wsp true s'], [wsp true (grids_moved 1 s')], A0, A2, A3.
  split; [exact Hg|]. split; [exact Hb|]. split; [constructor; [exact Hok|constructor]|].
  split; [constructor; [exact Hfl|constructor]|]. split; [exact D1|].
  assert (Hok1 : gsp_ok g1 (wsp true (grids_moved 1 s'))).
  { apply Eg1. apply wsp_ok; cbn [grids_moved s_N s_fl s_z]; [exact EN|exact Hlen|rewrite Ez; lra]. }
  split; [constructor; [exact Hok1|constructor]|]. split; [exact D2|].
  exists 1, 0. split; [cbn; lia|]. split; [cbn; lia|].
  (* GPU: nothing in row 1 *)
  assert (G : A3 Rho 0%nat 1 0 = RtoC 0).
  { unfold A3, divided, run, zeroed. cbn [deposited]. unfold divide_by_volume.
    rewrite add_value. rewrite (lsum_zero (fun w => if (1 =? fst (fst w)) && (0 =? snd (fst w)) then snd w else RtoC 0)); [unfold zero2; ring|].
    intros w Hw. destruct (Z.eqb_spec 1 (fst (fst w))) as [E|]; [exfalso|reflexivity].
    apply in_flat_map in Hw as [i [Hi Hw]]. unfold deposit_thread in Hw.
    destruct (Z.ltb_spec i (g_Nz g1 * (g_Nr g1 + 1))) as [Hi2|]; [|destruct Hw]. cbn in Hi2.
    assert (Hi0 : 0 <= i).
    { destruct (cuda_tpb_bpg_1d (g_Nz g1 * (g_Nr g1 + 1)) (deposit_tpb false Linear)) as [bb tt] eqn:Eb.
      destruct (bpg_covers (g_Nz g1 * (g_Nr g1 + 1)) (deposit_tpb false Linear)) as [B1 _]; [cbn; lia..|].
      rewrite Eb in B1. cbn [fst] in B1. assert (tt = 8) as -> by (unfold cuda_tpb_bpg_1d in Eb; cbn in Eb; congruence).
      rewrite threads_range in Hi by lia. apply in_range in Hi. lia. }
    assert (Hi3 : 0 <= i < ncells (sgrid_of g1)) by (unfold ncells; cbn; lia).
    rewrite (iz_upper_div g1 i Hi3) in Hw by (unfold ncells; cbn; lia).
    change (s_prefix (grids_moved 1 s')) with (s_prefix s') in Hw. cbv zeta in Hw.
    destruct (F1 i Hi3) as [[P0 P1] P2]. rewrite EN in P2.
    rewrite (int32_id (s_prefix s' i)) in Hw by lia.
    assert (Efr : (if i =? 0 then int32 (s_prefix s' i) else int32 (s_prefix s' i - s_prefix s' (i - 1))) = s_prefix s' i - prev (s_prefix s') i).
    { unfold prev in *. destruct (Z.eqb_spec i 0); rewrite int32_id by lia; lia. }
    rewrite Efr in Hw. destruct (Z.gtb_spec (s_prefix s' i - prev (s_prefix s') i) 0) as [Hpos|]; [|destruct Hw].
    assert (Ec : cell (sgrid_of g) s' 0 = i) by (apply F3; [exact Hi3|lia]).
    unfold cell in Ec.
    destruct (cell_points g Hg (gptcl_at false s' 0)) as [C1 _].
    { rewrite EP. unfold in_grid. cbn. lra. }
    cbn [gptcl_at p_x p_y p_z] in C1. rewrite Ec in C1.
    assert (Zu : zup g (gptcl_at false s' 0) = 3).
    { rewrite EP. unfold zup. assert (Zceil (z_cell g (gptcl_at false (ws 3) 0)) = 3) as ->; [|reflexivity].
      apply Zceil_val. unfold z_cell. cbn. lra. }
    rewrite Zu in C1. change (g_Nr g1) with 4 in Hw. change (g_Nr g) with 4 in C1. change (4 + 1) with 5 in C1, Hw. rewrite C1 in Hw.
    apply in_flat_map in Hw as [b [Hb2 Hw]]. apply in_flat_map in Hw as [a [Ha Hw]]. cbn [In] in Hw.
    destruct Hw as [Hw|[]]. rewrite <- Hw in E. cbn [fst] in E. apply in_range in Hb2. cbn [npts] in Hb2.
    unfold gpu_iz in E. change (g_Nz g1) with 8 in E.
    assert (b = 0 \/ b = 1) as [Eb|Eb] by lia; subst b; cbn in E; lia. }
  rewrite G. intros X. symmetry in X. revert X.
  rewrite (deposit_cell c (mode_grid g1 vol 0) Rho 0 1 _ None 1 0).
  2:{ unfold Deposit_Spec.grid_ok; cbn. repeat split; try lra; try lia. intros. unfold vol. lra. }
  2:{ split; [lia|]. cbn [map depositing filter cpu_of sp_tracer species_window_moved wsp gs_tracer negb sp_ptcl gs_arr].
      constructor; [|constructor]. cbn [cpu_of species_window_moved wsp sp_ptcl gs_arr]. rewrite map_length, length_range. change (s_N (grids_moved 1 s')) with (s_N s'). rewrite EN. change (2 ^ 53) with 9007199254740992. lia. }
  2:{ cbn [map depositing filter cpu_of sp_tracer species_window_moved wsp gs_tracer negb].
      constructor; [|constructor]. apply Hok1. }
  2,3: cbn; lia.
  cbn [map depositing filter cpu_of sp_tracer species_window_moved wsp gs_tracer gs_q negb sp_q].
  destruct (Req_EM_T 1 0) as [E|_]; [lra|]. rewrite lsum_cons, lsum_nil.
  cbn [cpu_of species_window_moved wsp sp_ptcl gs_ionizable gs_arr]. change (s_N (grids_moved 1 s')) with (s_N s'). rewrite EN.
  change (range 1) with [0]. cbn [map]. rewrite lsum_cons, lsum_nil.
  assert (EP1 : gptcl_at false (grids_moved 1 s') 0 = gptcl_at false (ws 3) 0) by exact EP.
  rewrite EP1. unfold contrib, pair_with, contributions. cbn [cpu_of species_window_moved sp_shape sp_q sp_ionizable gs_shape wsp gs_q gs_ionizable].
  set (p := gptcl_at false (ws 3) 0).
  assert (Zc : Zceil (z_cell (mode_grid g1 vol 0) p) = 2) by (apply Zceil_val; unfold z_cell; cbn; lra).
  assert (Rj : rj p = 0%R). { unfold rj. cbn. replace (0 * (0 * 1) + 0 * (0 * 1))%R with 0%R by ring. apply sqrt_0. }
  assert (Rc : r_cell (mode_grid g1 vol 0) p = (- (1 / 2))%R) by (unfold r_cell; rewrite Rj; cbn; lra).
  assert (Rcc : Zceil (- (1 / 2))%R = 0) by (apply Zceil_val; lra).
  assert (Zcv : z_cell (mode_grid g1 vol 0) p = (3 / 2)%R) by (unfold z_cell; cbn; lra).
  cbn [npts]. change (range 2) with [0; 1]. cbn [flat_map map app]. rewrite !lsum_cons, lsum_nil. cbn [fst snd iz_cell ir_cell Sz Sr].
  rewrite Zc, Rc, Rcc. change (Z.min (0 + 1) (g_Nr (mode_grid g1 vol 0) + 2)) with 1.
  change (g_Nz (mode_grid g1 vol 0)) with 8. change (g_Nr (mode_grid g1 vol 0)) with 4.
  change (delta 1 0 (fz 8 (2 + 1 + 0)) (fr 4 (1 + 0))) with (RtoC 1).
  change (delta 1 0 (fz 8 (2 + 1 + 0)) (fr 4 (1 + 1))) with (RtoC 1).
  change (delta 1 0 (fz 8 (2 + 1 + 1)) (fr 4 (1 + 0))) with (RtoC 0).
  change (delta 1 0 (fz 8 (2 + 1 + 1)) (fr 4 (1 + 1))) with (RtoC 0).
  rewrite Zcv. unfold Sz_linear, Sr_linear. rewrite Rcc.
  assert (Zc2 : Zceil (3 / 2) = 2) by (apply Zceil_val; lra). rewrite Zc2.
  cbn [Z.eqb Z.ltb Z.add Z.sub Z.opp Z.pos_sub Z.compare Pos.add].
  intros X. apply (f_equal fst) in X. revert X. cbn. unfold vol. lra.
Qed.

Lemma loop_untouched v100 c g Nm ft l l' A A' : gpu_species_loop c v100 g Nm ft l l' A A' ->
  forall k m, deposited ft k = false -> (m < Nm)%nat -> A' k m = A k m.
Proof.
  induction 1 as [A|sp sp' l l' A A1 A' H1 H2 IH]; intros k m Hk Hm; [reflexivity|]. rewrite (IH k m Hk Hm).
  unfold gpu_species_deposit in H1. destruct (Req_EM_T (gs_q sp) 0); [destruct H1 as [_ ->]; reflexivity|].
  destruct H1 as (_ & _ & _ & _ & _ & _ & H1). specialize (H1 k m Hm). rewrite Hk in H1. exact H1.
Qed.
Lemma gpu_cpu_all v100 c g vol Nm ft l l' A A' nthreads :
  (forall m, (m < Nm)%nat -> Deposit_Spec.grid_ok (mode_grid g vol m)) -> beta_ok g ->
  Forall (gsp_ok g) l -> Forall (flag_ok g) l -> 1 <= nthreads <= 2 ^ 32 ->
  gpu_deposit c v100 g vol Nm ft l l' A A' ->
  forall k m iz ir, (m < Nm)%nat -> 0 <= iz < g_Nz g -> 0 <= ir < g_Nr g ->
  A' k m iz ir = (if deposited ft k then deposit c (mode_grid g vol m) k m nthreads (map cpu_of l) None iz ir
                  else A k m iz ir).
Proof.
  intros Hg Hb Hl Hf Hn H k m iz ir Hm Hiz Hir. destruct (deposited ft k) eqn:Ek.
  - apply (gpu_cpu v100 c g vol Nm ft l l' A A'); auto.
  - destruct H as (A1 & Hloop & HA). rewrite (HA k m Hm), Ek. rewrite (loop_untouched _ _ _ _ _ _ _ _ _ Hloop k m Ek Hm), Ek. reflexivity.
Qed.
Lemma loop_sorted v100 c g Nm ft l l' A A' : gpu_species_loop c v100 g Nm ft l l' A A' ->
  Forall (fun s => gs_q s = 0%R \/ gs_sorted s = true) l'.
Proof.
  induction 1 as [A|sp sp' l l' A A1 A' H1 H2 IH]; constructor; [|exact IH].
  unfold gpu_species_deposit in H1. destruct (Req_EM_T (gs_q sp) 0) as [E|]; [destruct H1 as [-> _]; left; exact E|].
  right. apply H1.
Qed.
Lemma depositing_reordered l l1 : Forall (fun s => gs_tracer s = false) l -> Forall2 reordered (map cpu_of l) (map cpu_of l1) ->
  filter (fun s => negb (gs_tracer s)) l = l.
Proof. intros H _. induction H as [|s l E _ IH]; [reflexivity|]. cbn [filter]. rewrite E. cbn [negb]. rewrite IH. reflexivity. Qed.
Lemma frozen_same_grid v100 c g vol Nm ft1 ft2 l l1 l2 A1 A2 A3 nthreads :
  (forall m, (m < Nm)%nat -> Deposit_Spec.grid_ok (mode_grid g vol m)) -> beta_ok g -> (1 <= Nm)%nat ->
  Forall (gsp_ok g) l -> Forall (flag_ok g) l -> Forall (fun s => gs_tracer s = false) l -> 1 <= nthreads <= 2 ^ 32 ->
  gpu_deposit c v100 g vol Nm ft1 l l1 A1 A2 -> gpu_deposit c v100 g vol Nm ft2 l1 l2 A2 A3 ->
  Forall (fun s => gs_q s = 0%R \/ gs_sorted s = true) l1 /\
  forall k m iz ir, deposited ft2 k = true -> (m < Nm)%nat -> 0 <= iz < g_Nz g -> 0 <= ir < g_Nr g ->
  A3 k m iz ir = deposit c (mode_grid g vol m) k m nthreads (map cpu_of l) None iz ir.
Proof.
  intros Hg Hb HNm Hl Hf Ht Hn (B1 & Hloop & HB) H2.
  rewrite (depositing_reordered l l Ht) in Hloop by (clear; induction l; constructor; [repeat split; reflexivity|assumption]).
  split; [eapply loop_sorted; exact Hloop|].
  assert (Hgm : Deposit_Spec.grid_ok (mode_grid g vol 0)) by (apply Hg; lia).
  destruct (loop_state v100 c (mode_grid g vol 0) Nm ft1 l l1 _ _ Hgm Hl Hf (loop_mode_grid _ _ _ _ _ _ _ _ _ _ _ Hloop)) as (I1 & I2 & I3).
  intros k m iz ir Hk Hm Hiz Hir.
  rewrite (gpu_cpu v100 c g vol Nm ft2 l1 l2 A2 A3 k m nthreads iz ir); auto.
  assert (Hok : forall l0, Forall (gsp_ok g) l0 -> threads_ok nthreads (map cpu_of l0) /\ all_in_grid (mode_grid g vol m) (map cpu_of l0)).
  { clear -Hn. intros l0 H. split; [split; [lia|]|].
    - rewrite Forall_forall in *. intros s Hs. apply in_map_iff in Hs as [s' [<- Hs']].
      destruct (H s' Hs') as (_ & B & _). cbn [cpu_of sp_ptcl]. rewrite map_length, length_range.
      change (2 ^ 53) with (2 ^ 32 + (2 ^ 53 - 2 ^ 32)). lia.
    - unfold all_in_grid. rewrite Forall_forall in *. intros s Hs. apply in_map_iff in Hs as [s' [<- Hs']].
      destruct (H s' Hs') as (_ & _ & _ & B). exact B. }
  destruct (Hok l Hl) as [K1 K2]. destruct (Hok l1 I1) as [K3 K4].
  symmetry. apply order_independent; auto.
Qed.

Lemma gpu_state v100 c g vol Nm ft l l' A A' : (forall m, (m < Nm)%nat -> Deposit_Spec.grid_ok (mode_grid g vol m)) -> (1 <= Nm)%nat ->
  Forall (gsp_ok g) l -> Forall (flag_ok g) l -> gpu_deposit c v100 g vol Nm ft l l' A A' ->
  Forall2 reordered (map cpu_of (filter (fun s => negb (gs_tracer s)) l)) (map cpu_of l').
Proof.
  intros Hg HNm Hl Hf (A1 & Hloop & _).
  apply (loop_state v100 c (mode_grid g vol 0) Nm ft _ l' _ _ (Hg 0%nat ltac:(lia))) with (4 := loop_mode_grid _ _ _ _ _ _ _ _ _ _ _ Hloop) || 
  eapply (loop_state v100 c (mode_grid g vol 0) Nm ft _ l' _ _ (Hg 0%nat ltac:(lia))).
  all: rewrite ?Forall_forall in *.
  - intros s Hs. apply Hl. apply filter_In in Hs. tauto.
  - intros s Hs. apply Hf. apply filter_In in Hs. tauto.
  - apply loop_mode_grid. exact Hloop.
Qed.

Lemma gpu_met : exists l l' A',
  (forall m, (m < 2)%nat -> Deposit_Spec.grid_ok (mode_grid (wg 0) (fun _ _ => 1%R) m)) /\ beta_ok (wg 0) /\
  Forall (gsp_ok (wg 0)) l /\ Forall (flag_ok (wg 0)) l /\
  gpu_deposit 1 false (wg 0) (fun _ _ => 1%R) 2 FRho l l' (fun _ _ => zero2) A' /\ A' Rho 0%nat 2 0 <> RtoC 0.
Proof.
  destruct (one_sorted (sgrid_of (wg 0)) (ws 3) eq_refl) as [s' Hs].
  set (g := wg 0). set (vol := fun (_ : nat) (_ : Z) => 1%R).
  assert (Hg : forall m, (m < 2)%nat -> Deposit_Spec.grid_ok (mode_grid g vol m)).
  { intros m _. unfold Deposit_Spec.grid_ok, g, wg; cbn. repeat split; try lra; try lia. intros. unfold vol. lra. }
  assert (Hb : beta_ok g) by (intros sh m x _; reflexivity).
  assert (Hok : gsp_ok g (wsp false (ws 3))) by (apply wsp_ok; [reflexivity|reflexivity|cbn; lra]).
  assert (Hfl : flag_ok g (wsp false (ws 3))) by (intros H; discriminate).
  pose proof (run_sim 1 g vol (ws 3) 2 FRho false s' (fun _ _ => zero2) Hs) as D1.
  eexists _, _, _. split; [exact Hg|]. split; [exact Hb|]. split; [constructor; [exact Hok|constructor]|].
  split; [constructor; [exact Hfl|constructor]|]. split; [exact D1|].
  rewrite (gpu_cpu false 1 g vol 2 FRho _ _ _ _ Rho 0 1 2 0 (Hg 0%nat ltac:(lia)) Hb (Forall_cons _ Hok (Forall_nil _)) (Forall_cons _ Hfl (Forall_nil _)) ltac:(lia) D1 eq_refl ltac:(lia))
    by (cbn; lia).
  rewrite (deposit_cell 1 (mode_grid g vol 0) Rho 0 1 _ None 2 0 (Hg 0%nat ltac:(lia))).
  2:{ split; [lia|]. cbn [map depositing filter cpu_of sp_tracer wsp gs_tracer negb sp_ptcl gs_arr].
      constructor; [|constructor]. cbn [cpu_of wsp sp_ptcl gs_arr]. rewrite map_length, length_range. change (s_N (ws 3)) with 1. change (2 ^ 53) with 9007199254740992. lia. }
  2:{ cbn [map depositing filter cpu_of sp_tracer wsp gs_tracer negb].
      constructor; [|constructor]. apply Hok. }
  2,3: cbn; lia.
  cbn [map depositing filter cpu_of sp_tracer wsp gs_tracer gs_q negb sp_q].
  destruct (Req_EM_T 1 0) as [E|_]; [lra|]. rewrite lsum_cons, lsum_nil.
  cbn [cpu_of wsp sp_ptcl gs_ionizable gs_arr]. change (s_N (ws 3)) with 1.
  change (range 1) with [0]. cbn [map]. rewrite lsum_cons, lsum_nil.
  unfold contrib, pair_with, contributions. cbn [cpu_of sp_shape sp_q sp_ionizable gs_shape wsp gs_q gs_ionizable].
  set (p := gptcl_at false (ws 3) 0).
  assert (Zc : Zceil (z_cell (mode_grid g vol 0) p) = 3) by (apply Zceil_val; unfold z_cell; cbn; lra).
  assert (Rj : rj p = 0%R). { unfold rj. cbn. replace (0 * (0 * 1) + 0 * (0 * 1))%R with 0%R by ring. apply sqrt_0. }
  assert (Rc : r_cell (mode_grid g vol 0) p = (- (1 / 2))%R) by (unfold r_cell; rewrite Rj; cbn; lra).
  assert (Rcc : Zceil (- (1 / 2))%R = 0) by (apply Zceil_val; lra).
  assert (Zcv : z_cell (mode_grid g vol 0) p = (5 / 2)%R) by (unfold z_cell; cbn; lra).
  cbn [npts]. change (range 2) with [0; 1]. cbn [flat_map map app]. rewrite !lsum_cons, lsum_nil. cbn [fst snd iz_cell ir_cell Sz Sr].
  rewrite Zc, Rc, Rcc. change (Z.min (0 + 1) (g_Nr (mode_grid g vol 0) + 2)) with 1.
  change (g_Nz (mode_grid g vol 0)) with 8. change (g_Nr (mode_grid g vol 0)) with 4.
  change (delta 2 0 (fz 8 (3 + 1 + 0)) (fr 4 (1 + 0))) with (RtoC 1).
  change (delta 2 0 (fz 8 (3 + 1 + 0)) (fr 4 (1 + 1))) with (RtoC 1).
  change (delta 2 0 (fz 8 (3 + 1 + 1)) (fr 4 (1 + 0))) with (RtoC 0).
  change (delta 2 0 (fz 8 (3 + 1 + 1)) (fr 4 (1 + 1))) with (RtoC 0).
  rewrite Zcv. unfold Sz_linear, Sr_linear. rewrite Rcc.
  assert (Zc2 : Zceil (5 / 2) = 3) by (apply Zceil_val; lra). rewrite Zc2.
  cbn [Z.eqb Z.ltb Z.add Z.sub Z.opp Z.pos_sub Z.compare Pos.add].
  intros X. apply (f_equal fst) in X. revert X. cbn. unfold vol. lra.
Qed.
