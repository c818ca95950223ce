(** Proofs of C100. *)
From Coq Require Import Reals Lra Lia Permutation.
From Flocq Require Import Core.Core.
From Coquelicot Require Import Complex.
From Verif Require Import Base Decomp_Proofs Chunk_Model Shape_Model Sort_Model Sort_Spec Deposit_Model Deposit_Spec Deposit_Proofs GDeposit_Model GDeposit_Spec GDeposit_Proofs GUnroll_Model GUnroll_Spec.
Open Scope Z_scope.

Lemma comp_eqb_eq k k' : comp_eqb k k' = true <-> k = k'.
Proof. destruct k, k'; cbn; split; congruence. Qed.
Lemma comp_eqb_refl k : comp_eqb k k = true.
Proof. now apply comp_eqb_eq. Qed.
Lemma rname_eqb_eq n n' : rname_eqb n n' = true <-> n = n'.
Proof.
  destruct n as [k m a b], n' as [k' m' a' b']. unfold rname_eqb; cbn [n_comp n_mode n_a n_b].
  rewrite !Bool.andb_true_iff, comp_eqb_eq, Nat.eqb_eq, !Z.eqb_eq. split; [intros [[[-> ->] ->] ->]; reflexivity|].
  intros E; injection E; tauto.
Qed.
Definition part_eqb (p p' : part) : bool := match p, p' with Re_, Re_ | Im_, Im_ => true | _, _ => false end.
Definition add_row_eqb (d d' : add_row) : bool :=
  comp_eqb (d_comp d) (d_comp d') && (d_mode d =? d_mode d')%nat && part_eqb (d_part d) (d_part d') &&
  (d_iz d =? d_iz d') && (d_ir d =? d_ir d') && rname_eqb (d_reg d) (d_reg d') && part_eqb (d_from d) (d_from d') &&
  Bool.eqb (d_high d) (d_high d').
Lemma part_eqb_eq p p' : part_eqb p p' = true -> p = p'.
Proof. destruct p, p'; cbn; congruence. Qed.
Lemma add_row_eqb_eq d d' : add_row_eqb d d' = true -> d = d'.
Proof.
  destruct d, d'. unfold add_row_eqb; cbn. rewrite !Bool.andb_true_iff, comp_eqb_eq, Nat.eqb_eq, !Z.eqb_eq, rname_eqb_eq, Bool.eqb_true_iff.
  intros [[[[[[[-> ->] E1] ->] ->] ->] E2] ->]. apply part_eqb_eq in E1, E2. now subst.
Qed.

(** A boolean test for permutations. *)
Fixpoint take_out (x : add_row) (l : list add_row) : option (list add_row) :=
  match l with
  | [] => None
  | y :: l => if add_row_eqb x y then Some l else match take_out x l with Some l' => Some (y :: l') | None => None end
  end.
Fixpoint permb (l l' : list add_row) : bool :=
  match l with
  | [] => match l' with [] => true | _ => false end
  | x :: l => match take_out x l' with Some r => permb l r | None => false end
  end.
Lemma take_out_perm x l r : take_out x l = Some r -> Permutation (x :: r) l.
Proof.
  revert r. induction l as [|y l IH]; intros r; cbn; [discriminate|].
  destruct (add_row_eqb x y) eqn:E.
  - intros [= <-]. apply add_row_eqb_eq in E. subst. reflexivity.
  - destruct (take_out x l) as [l'|]; [|discriminate]. intros [= <-].
    rewrite perm_swap. now rewrite (IH l' eq_refl).
Qed.
Lemma permb_perm l l' : permb l l' = true -> Permutation l l'.
Proof.
  revert l'. induction l as [|x l IH]; intros l'; cbn.
  - destruct l'; [reflexivity|discriminate].
  - destruct (take_out x l') as [r|] eqn:E; [|discriminate]. intros H. rewrite <- (take_out_perm _ _ _ E). now rewrite (IH _ H).
Qed.

(** The checks made on a kernel, by computation. *)
Definition flipZ (k : comp) (mu : nat) : Z :=
  match k with Rho | Jz => if (mu =? 0)%nat then 1 else -1 | Jr | Jt => if (mu =? 0)%nat then -1 else 1 end.
Definition row_ok (K : kernel) (r : acc_row) : bool :=
  let n := c_reg r in
  (c_sr r =? n_a n) && (c_sz r =? n_b n) && (c_bn r =? n_mode n)%nat && comp_eqb (c_comp r) (n_comp n) &&
  (c_mode r =? n_mode n)%nat && (if k_two K then (n_mode n <? 2)%nat else (n_mode n =? 0)%nat) && (c_flip r =? flipZ (n_comp n) (n_mode n)).
Fixpoint nodupb (l : list rname) : bool :=
  match l with [] => true | n :: l => negb (existsb (rname_eqb n) l) && nodupb l end.
Definition expected (K : kernel) (k : comp) (mu : nat) : list add_row :=
  flat_map (fun b => flat_map (fun a =>
    D k mu Re_ b a k mu a b Re_ false ::
    (if k_two K then (if (mu =? 0)%nat then [] else [D k mu Im_ b a k mu a b Im_ false])
     else [D k mu Im_ b a k mu a b Im_ true])) (range (npts (k_shape K)))) (range (npts (k_shape K))).
Definition comps : list comp := [Rho; Jr; Jt; Jz].
Definition kmodes (K : kernel) : list nat := if k_two K then [0%nat; 1%nat] else [0%nat].
Definition kernel_ok (K : kernel) (ft : fieldtype) : bool :=
  forallb (row_ok K) (k_acc K) && nodupb (map c_reg (k_acc K)) &&
  forallb (fun r => existsb (rname_eqb (c_reg r)) (k_init K)) (k_acc K) &&
  forallb (fun k => if deposited ft k then
    forallb (fun mu =>
      forallb (fun a => forallb (fun b => existsb (rname_eqb (N k mu a b)) (map c_reg (k_acc K))) (range (npts (k_shape K)))) (range (npts (k_shape K))) &&
      permb (filter (fun d => comp_eqb k (d_comp d) && (mu =? d_mode d)%nat) (k_add K)) (expected K k mu)) (kmodes K)
    else true) comps &&
  forallb (fun d => deposited ft (d_comp d) && existsb (Nat.eqb (d_mode d)) (kmodes K)) (k_add K).
Lemma kernels_ok Nm ft sh : kernel_ok (gpu_kernel Nm ft sh) ft = true.
Proof. unfold gpu_kernel. destruct ft, sh; (destruct (Nm =? 2)%nat; vm_compute; reflexivity). Qed.
Lemma kernels_two Nm ft sh : k_two (gpu_kernel Nm ft sh) = (Nm =? 2)%nat /\ k_shape (gpu_kernel Nm ft sh) = sh.
Proof. unfold gpu_kernel. destruct ft, sh; (destruct (Nm =? 2)%nat; split; reflexivity). Qed.

Section Thread.
Variables (c : R) (g : grid) (K : kernel) (ft : fieldtype) (Nm m : nat) (q : R) (ion : bool) (junk : rname -> C) (s : gspecies).
Hypothesis HK : kernel_ok K ft = true.
Hypothesis H2 : k_two K = (Nm =? 2)%nat.

Definition contribution (wj : R) (p : ptcl) (n : rname) : C :=
  let mode := if k_two K then n_mode n else m in
  Cmult (RtoC (Sr (k_shape K) (r_cell g p) (n_a n) (gpu_flip Nm (n_comp n) mode)
                 (g_beta g (k_shape K) mode (Z.min (Zceil (r_cell g p)) (g_Nr g))) *
               Sz (k_shape K) (z_cell g p) (n_b n))%R) (gpu_scal c Nm (n_comp n) wj p mode).

Lemma ok_parts : (forall r, In r (k_acc K) -> row_ok K r = true) /\ nodupb (map c_reg (k_acc K)) = true /\
  (forall r, In r (k_acc K) -> existsb (rname_eqb (c_reg r)) (k_init K) = true) /\
  (forall k mu, deposited ft k = true -> In mu (kmodes K) ->
     (forall a b, In a (range (npts (k_shape K))) -> In b (range (npts (k_shape K))) -> In (N k mu a b) (map c_reg (k_acc K))) /\
     Permutation (filter (fun d => comp_eqb k (d_comp d) && (mu =? d_mode d)%nat) (k_add K)) (expected K k mu)) /\
  (forall d, In d (k_add K) -> deposited ft (d_comp d) = true /\ In (d_mode d) (kmodes K)).
Proof.
  pose proof HK as H. unfold kernel_ok in H. rewrite !Bool.andb_true_iff, !forallb_forall in H. destruct H as [[[[A1 A2] A3] A4] A5].
  split; [exact A1|]. split; [exact A2|]. split; [exact A3|]. split.
  - intros k mu Hk Hmu. assert (Hc : In k comps) by (destruct k; cbn; tauto). specialize (A4 k Hc). rewrite Hk in A4.
    rewrite forallb_forall in A4. specialize (A4 mu Hmu). rewrite Bool.andb_true_iff in A4. destruct A4 as [B1 B2].
    split; [|now apply permb_perm]. intros a b Ha Hb. rewrite forallb_forall in B1. specialize (B1 a Ha).
    rewrite forallb_forall in B1. specialize (B1 b Hb). apply existsb_exists in B1. destruct B1 as [x [Hx E]].
    apply rname_eqb_eq in E. now subst x.
  - intros d Hd. specialize (A5 d Hd). rewrite Bool.andb_true_iff in A5. destruct A5 as [B1 B2]. split; [exact B1|].
    apply existsb_exists in B2. destruct B2 as [x [Hx E]]. apply Nat.eqb_eq in E. now subst x.
Qed.

Lemma run_acc_value wj p regs r : row_ok K r = true ->
  run_acc c g K Nm m wj p regs r (c_reg r) = Cplus (regs (c_reg r)) (contribution wj p (c_reg r)).
Proof.
  intros H. unfold row_ok in H. rewrite !Bool.andb_true_iff, !Z.eqb_eq, !Nat.eqb_eq, comp_eqb_eq in H.
  destruct H as [[[[[[E1 E2] E3] E4] E5] E6] E7].
  unfold run_acc, contribution. rewrite (proj2 (rname_eqb_eq _ _) eq_refl). cbv zeta.
  rewrite E1, E2, E3, E4, E5, E7. f_equal. f_equal. f_equal. f_equal. f_equal.
  destruct (k_two K).
  - symmetry in H2. apply Nat.eqb_eq in H2. rewrite H2. apply Nat.ltb_lt in E6.
    destruct (n_mode (c_reg r)) as [|[|x]]; [| |lia]; destruct (n_comp (c_reg r)); reflexivity.
  - apply Nat.eqb_eq in E6. rewrite E6. symmetry in H2. apply Nat.eqb_neq in H2.
    unfold gpu_flip. destruct Nm as [|[|[|x]]]; [| |lia|]; destruct (n_comp (c_reg r)); reflexivity.
Qed.
Lemma run_acc_other wj p regs r n : n <> c_reg r -> run_acc c g K Nm m wj p regs r n = regs n.
Proof. intros H. unfold run_acc. destruct (rname_eqb n (c_reg r)) eqn:E; [|reflexivity]. apply rname_eqb_eq in E. tauto. Qed.
Lemma rows_other wj p rows : forall regs n, ~ In n (map c_reg rows) -> fold_left (run_acc c g K Nm m wj p) rows regs n = regs n.
Proof.
  induction rows as [|r rows IH]; intros regs n H; cbn [fold_left]; [reflexivity|]. cbn in H.
  rewrite IH by tauto. apply run_acc_other. intros E. apply H. now left.
Qed.
Lemma rows_value wj p rows : (forall r, In r rows -> row_ok K r = true) -> nodupb (map c_reg rows) = true -> forall regs n,
  In n (map c_reg rows) -> fold_left (run_acc c g K Nm m wj p) rows regs n = Cplus (regs n) (contribution wj p n).
Proof.
  induction rows as [|r rows IH]; intros Hr Hn regs n H; cbn [fold_left]; [destruct H|].
  cbn [map nodupb] in Hn. apply Bool.andb_true_iff in Hn. destruct Hn as [Hn1 Hn2].
  assert (Hni : ~ In (c_reg r) (map c_reg rows)).
  { intros X. apply Bool.negb_true_iff in Hn1. assert (existsb (rname_eqb (c_reg r)) (map c_reg rows) = true); [|congruence].
    apply existsb_exists. exists (c_reg r). split; [exact X|]. now apply rname_eqb_eq. }
  destruct (rname_eqb n (c_reg r)) eqn:E.
  - apply rname_eqb_eq in E. subst n. rewrite rows_other by exact Hni. apply run_acc_value. apply Hr. now left.
  - assert (n <> c_reg r) by (intros X; apply rname_eqb_eq in X; congruence).
    cbn [map] in H. destruct H as [H|H]; [congruence|].
    rewrite IH; [|intros; apply Hr; now right|exact Hn2|exact H]. now rewrite run_acc_other.
Qed.

Definition loop (io : Z) (js : list Z) : rname -> C :=
  fold_left (fun regs j => let p := gptcl_at ion s (io - 1 - j) in
    fold_left (run_acc c g K Nm m (q * eff_weight ion p)%R p) (k_acc K) regs) js (regs0 K junk).
Lemma loop_value_gen io js n : In n (map c_reg (k_acc K)) -> forall regs,
  fold_left (fun regs j => let p := gptcl_at ion s (io - 1 - j) in
    fold_left (run_acc c g K Nm m (q * eff_weight ion p)%R p) (k_acc K) regs) js regs n =
  fold_left (fun acc j => let p := gptcl_at ion s (io - 1 - j) in Cplus acc (contribution (q * eff_weight ion p)%R p n)) js (regs n).
Proof.
  intros H. destruct ok_parts as (A1 & A2 & _). induction js as [|j js IH]; intros regs; cbn [fold_left]; [reflexivity|].
  rewrite IH. cbv zeta. now rewrite (rows_value _ _ _ A1 A2 _ _ H).
Qed.
Lemma loop_value io n k mu a b : In (N k mu a b) (map c_reg (k_acc K)) ->
  loop io (range n) (N k mu a b) = register c g Nm (k_shape K) k (if k_two K then mu else m) q ion s io n a b.
Proof.
  intros H. unfold loop. rewrite loop_value_gen by exact H. unfold register, contribution. cbn [n_comp n_mode n_a n_b].
  f_equal. unfold regs0. destruct ok_parts as (_ & _ & A3 & _). apply in_map_iff in H. destruct H as [r [E Hr]].
  specialize (A3 r Hr). rewrite E in A3. now rewrite A3.
Qed.

Lemma filter_flat_map {X Y} (f : X -> list Y) P l : filter P (flat_map f l) = flat_map (fun x => filter P (f x)) l.
Proof. induction l as [|x l IH]; cbn; [reflexivity|]. now rewrite filter_app, IH. Qed.
Lemma map_flat_map {X Y Z'} (f : X -> list Y) (h : Y -> Z') l : map h (flat_map f l) = flat_map (fun x => map h (f x)) l.
Proof. induction l as [|x l IH]; cbn; [reflexivity|]. now rewrite map_app, IH. Qed.
Lemma flat_map_flat_map {X Y Z'} (f : X -> list Y) (h : Y -> list Z') l : flat_map h (flat_map f l) = flat_map (fun x => flat_map h (f x)) l.
Proof. induction l as [|x l IH]; cbn; [reflexivity|]. now rewrite flat_map_app, IH. Qed.
Lemma flat_map_filter {X Y} (f : X -> list Y) P l : (forall x, In x l -> P x = false -> f x = []) -> flat_map f l = flat_map f (filter P l).
Proof.
  induction l as [|x l IH]; intros H; cbn; [reflexivity|]. destruct (P x) eqn:E; cbn.
  - rewrite IH; [reflexivity|]. intros; apply H; [now right|assumption].
  - rewrite (H x (or_introl eq_refl) E). cbn. apply IH. intros; apply H; [now right|assumption].
Qed.
Lemma flat_map_ext_in' {X Y} (f h : X -> list Y) l : (forall x, In x l -> f x = h x) -> flat_map f l = flat_map h l.
Proof. induction l as [|x l IH]; intros H; cbn; [reflexivity|]. rewrite H by now left. rewrite IH; [reflexivity|]. intros; apply H; now right. Qed.

(** The additions of a thread to one array. *)
Lemma thread_array k mm mu i : deposited ft k = true -> In mu (kmodes K) -> mm = (if k_two K then mu else m) ->
  Permutation (to_array k mm (written_thread c g K Nm m q ion junk s i)) (deposit_thread c g Nm (k_shape K) k mm q ion s i).
Proof.
  intros Hk Hmu Hmm. destruct ok_parts as (_ & _ & _ & A4 & A5). destruct (A4 k mu Hk Hmu) as [Hin HP].
  unfold written_thread, deposit_thread. destruct (i <? g_Nz g * (g_Nr g + 1)); [|reflexivity]. cbv zeta.
  set (izu := Flocq.Core.Raux.Ztrunc _). set (io := int32 (s_prefix s i)).
  set (fr := if i =? 0 then int32 io else int32 (io - s_prefix s (i - 1))).
  destruct (fr >? 0); [|reflexivity].
  change (fold_left _ (range fr) (regs0 K junk)) with (loop io (range fr)).
  unfold to_array. rewrite filter_flat_map, map_flat_map.
  set (F := fun d : add_row => map snd (filter _ _)).
  rewrite (flat_map_filter F (fun d => comp_eqb k (d_comp d) && (mu =? d_mode d)%nat)).
  2:{ intros d Hd E. unfold F. destruct (d_high d && (m =? 0)%nat); [reflexivity|]. cbn [filter fst snd].
      destruct (comp_eqb k (d_comp d)) eqn:Ek; cbn [andb] in E |- *; [|reflexivity].
      replace (mm =? (if k_two K then d_mode d else m))%nat with false; [reflexivity|].
      symmetry. apply Nat.eqb_neq. apply Nat.eqb_neq in E. rewrite Hmm. destruct (k_two K) eqn:E2; [exact E|].
      exfalso. destruct (A5 d Hd) as [_ X]. unfold kmodes in X, Hmu. rewrite E2 in X, Hmu. cbn in X, Hmu. intuition congruence. }
  eapply perm_trans; [exact (Permutation_flat_map F HP)|].
  unfold expected. rewrite flat_map_flat_map. apply Permutation_refl'. apply flat_map_ext_in'. intros b Hb.
  rewrite flat_map_flat_map. apply flat_map_ext_in'. intros a Ha.
  pose proof (Hin a b Ha Hb) as Hr.
  pose proof (loop_value io fr k mu a b Hr) as HL. rewrite <- Hmm in HL.
  unfold F at 1. cbn [flat_map].
  assert (HF : forall p h, map snd (filter (fun w : wadd => comp_eqb k (fst (fst w)) && (mm =? snd (fst w))%nat)
     (let d := D k mu p b a k mu a b p h in if d_high d && (m =? 0)%nat then [] else
        [((d_comp d, if k_two K then d_mode d else m),
          ((gpu_iz (k_shape K) (g_Nz g) izu (d_iz d), gpu_ir (k_shape K) (g_Nr g) (i - izu * (g_Nr g + 1)) (d_ir d)),
           match d_part d with Re_ => (match d_from d with Re_ => fst (loop io (range fr) (d_reg d)) | Im_ => snd (loop io (range fr) (d_reg d)) end, 0%R)
                             | Im_ => (0%R, match d_from d with Re_ => fst (loop io (range fr) (d_reg d)) | Im_ => snd (loop io (range fr) (d_reg d)) end) end))])) =
     if h && (m =? 0)%nat then [] else
       [((gpu_iz (k_shape K) (g_Nz g) izu b, gpu_ir (k_shape K) (g_Nr g) (i - izu * (g_Nr g + 1)) a),
         let v := register c g Nm (k_shape K) k mm q ion s io fr a b in match p with Re_ => (fst v, 0%R) | Im_ => (0%R, snd v) end)]).
  { intros p h. unfold D. cbn [d_comp d_mode d_part d_iz d_ir d_reg d_from d_high]. destruct (h && (m =? 0)%nat); [reflexivity|].
    cbn [filter fst snd]. rewrite comp_eqb_refl. rewrite <- Hmm, Nat.eqb_refl. cbn [andb map snd]. rewrite HL. cbv zeta. destruct p; reflexivity. }
  cbv zeta in HF.
  etransitivity; [apply f_equal2; [exact (HF Re_ false)|]; reflexivity|].
  cbn [andb app]. unfold RtoC. f_equal. unfold kmodes in Hmu.
  destruct (k_two K).
  - cbn in Hmu. destruct Hmu as [<-|[<-|[]]]; subst mm; cbn [Nat.eqb flat_map]; [reflexivity|].
    etransitivity; [apply f_equal2; [exact (HF Im_ false)|]; reflexivity|]. reflexivity.
  - cbn [flat_map]. etransitivity; [apply f_equal2; [exact (HF Im_ true)|]; reflexivity|]. subst mm. destruct m; reflexivity.
Qed.
Lemma thread_no_array k mm i : deposited ft k = false \/ (if k_two K then (2 <= mm)%nat else mm <> m) ->
  to_array k mm (written_thread c g K Nm m q ion junk s i) = [].
Proof.
  intros H. destruct ok_parts as (_ & _ & _ & _ & A5).
  unfold written_thread. destruct (i <? g_Nz g * (g_Nr g + 1)); [|reflexivity]. cbv zeta.
  match goal with |- context[if ?x >? 0 then _ else _] => destruct (x >? 0) end; [|reflexivity].
  unfold to_array. rewrite filter_flat_map, map_flat_map.
  match goal with |- flat_map ?F _ = _ => rewrite (flat_map_filter F (fun _ => false)) end.
  - clear. induction (k_add K); [reflexivity|assumption].
  - intros d Hd _. destruct (d_high d && (m =? 0)%nat); [reflexivity|]. cbn [filter fst snd].
    destruct (A5 d Hd) as [B1 B2].
    assert (E : comp_eqb k (d_comp d) && (mm =? (if k_two K then d_mode d else m))%nat = false).
    { destruct (comp_eqb k (d_comp d)) eqn:Ek; [|reflexivity]. cbn [andb]. apply comp_eqb_eq in Ek. subst k.
      apply Nat.eqb_neq. destruct H as [H|H]; [congruence|]. unfold kmodes in B2. destruct (k_two K); [|exact H].
      cbn in B2. lia. }
    now rewrite E.
Qed.
End Thread.

Lemma gpu_thread c g Nm ft sh k m m0 q ion junk s i : deposited ft k = true -> (m < Nm)%nat -> (Nm <> 2%nat -> m0 = m) ->
  Permutation (to_array k m (written_thread c g (gpu_kernel Nm ft sh) Nm m0 q ion junk s i)) (deposit_thread c g Nm sh k m q ion s i).
Proof.
  intros Hk Hm H0. destruct (kernels_two Nm ft sh) as [K2 KS].
  pose proof (thread_array c g (gpu_kernel Nm ft sh) ft Nm m0 q ion junk s (kernels_ok Nm ft sh) K2 k m (if (Nm =? 2)%nat then m else 0%nat) i Hk) as T.
  rewrite KS in T. apply T.
  - unfold kmodes. rewrite K2. destruct (Nat.eqb_spec Nm 2) as [E|E]; cbn; lia.
  - rewrite K2. destruct (Nat.eqb_spec Nm 2) as [E|E]; [reflexivity|]. symmetry. auto.
Qed.
Lemma gpu_thread_others c g Nm ft sh k m m0 q ion junk s i :
  deposited ft k = false \/ (Nm = 2%nat /\ (2 <= m)%nat) \/ (Nm <> 2%nat /\ m <> m0) ->
  to_array k m (written_thread c g (gpu_kernel Nm ft sh) Nm m0 q ion junk s i) = [].
Proof.
  intros H. destruct (kernels_two Nm ft sh) as [K2 KS].
  apply (thread_no_array c g (gpu_kernel Nm ft sh) ft Nm m0 q ion junk s (kernels_ok Nm ft sh) K2).
  rewrite K2. destruct (Nat.eqb_spec Nm 2); intuition.
Qed.

(** ** Launches *)
Lemma add_all_array k m ws : forall A, fold_left add_all ws A k m = fold_left add_at (to_array k m ws) (A k m).
Proof.
  induction ws as [|w ws IH]; intros A; [reflexivity|]. cbn [fold_left]. rewrite IH. unfold to_array, add_all. cbn [filter].
  destruct (comp_eqb k (fst (fst w)) && (m =? snd (fst w))%nat); reflexivity.
Qed.
Lemma to_array_perm k m ws ws' : Permutation ws ws' -> Permutation (to_array k m ws) (to_array k m ws').
Proof.
  unfold to_array. intros H. apply Permutation_map. induction H; cbn [filter].
  - reflexivity.
  - destruct (_ && _); [now constructor|assumption].
  - destruct (_ && _), (_ && _); try reflexivity. constructor.
  - etransitivity; eassumption.
Qed.
Lemma to_array_flat_map {X} k m (f : X -> list wadd) l : to_array k m (flat_map f l) = flat_map (fun x => to_array k m (f x)) l.
Proof. unfold to_array. rewrite filter_flat_map, map_flat_map. reflexivity. Qed.
Lemma flat_map_perm_ext {X Y} (f h : X -> list Y) l : (forall x, Permutation (f x) (h x)) -> Permutation (flat_map f l) (flat_map h l).
Proof. intros H. induction l as [|x l IH]; cbn; [reflexivity|]. now apply Permutation_app. Qed.
Lemma flat_map_none {X Y} (f : X -> list Y) l : (forall x, f x = []) -> flat_map f l = [].
Proof. intros H. induction l as [|x l IH]; cbn; [reflexivity|]. now rewrite H. Qed.

Lemma launch_array n tpb body A A' k m body' : (forall i, Permutation (to_array k m (body i)) (body' i)) ->
  written_launch n tpb body A A' -> atomic_launch n tpb body' (A k m) (A' k m).
Proof.
  intros H [ws [Hp ->]]. exists (to_array k m ws). split; [|apply add_all_array].
  eapply perm_trans; [apply to_array_perm; exact Hp|]. rewrite to_array_flat_map. now apply flat_map_perm_ext.
Qed.
Lemma launch_untouched n tpb body A A' k m : (forall i, to_array k m (body i) = []) ->
  written_launch n tpb body A A' -> A' k m = A k m.
Proof.
  intros H [ws [Hp ->]]. rewrite add_all_array.
  assert (E : to_array k m ws = []); [|now rewrite E].
  apply Permutation_nil. symmetry. eapply perm_trans; [apply to_array_perm; exact Hp|]. rewrite to_array_flat_map, flat_map_none by exact H. reflexivity.
Qed.
Lemma modes_array (launch : nat -> (comp -> nat -> Z -> Z -> C) -> (comp -> nat -> Z -> Z -> C) -> Prop) ms : forall A A' k m (Q : (Z -> Z -> C) -> (Z -> Z -> C) -> Prop),
  NoDup ms -> (forall A A', launch m A A' -> Q (A k m) (A' k m)) ->
  (forall m' A A', m' <> m -> launch m' A A' -> A' k m = A k m) ->
  written_modes launch ms A A' -> if existsb (Nat.eqb m) ms then Q (A k m) (A' k m) else A' k m = A k m.
Proof.
  induction ms as [|x ms IH]; intros A A' k m Q Hn H1 H2 H; cbn [written_modes existsb] in *; [now subst|].
  destruct H as [A1 [HL HM]]. inversion Hn as [|? ? Hx Hn']; subst. specialize (IH A1 A' k m Q Hn' H1 H2 HM).
  destruct (Nat.eqb_spec m x) as [->|E]; cbn [orb].
  - assert (F : existsb (Nat.eqb x) ms = false).
    { destruct (existsb (Nat.eqb x) ms) eqn:F; [|reflexivity]. apply existsb_exists in F. destruct F as [y [Hy E]]. apply Nat.eqb_eq in E. subst y. tauto. }
    rewrite F in IH. rewrite IH. now apply H1.
  - rewrite (H2 x A A1 (not_eq_sym E) HL) in IH. exact IH.
Qed.

Lemma written_species v100 c g Nm ft sp sp' A A' : written_gpu_species_deposit c v100 g Nm ft sp sp' A A' ->
  gpu_species_deposit c v100 g Nm ft sp sp' A A'.
Proof.
  unfold written_gpu_species_deposit, gpu_species_deposit. destruct (Req_EM_T (gs_q sp) 0); [tauto|].
  intros (E1 & E2 & E3 & E4 & E5 & E6 & junk & H). repeat (split; [assumption|]). intros k m Hm.
  destruct (kernels_two Nm ft (gs_shape sp)) as [K2 KS]. pose proof (kernels_ok Nm ft (gs_shape sp)) as KO.
  destruct (Nm =? 2)%nat eqn:EN.
  - apply Nat.eqb_eq in EN. assert (Hmu : In m (kmodes (gpu_kernel Nm ft (gs_shape sp)))).
    { unfold kmodes. rewrite K2. cbn. lia. }
    destruct (deposited ft k) eqn:Ek.
    + refine (launch_array _ _ _ _ _ k m _ _ H). intros i.
      pose proof (thread_array c g (gpu_kernel Nm ft (gs_shape sp)) ft Nm 0 (gs_q sp) (gs_ionizable sp) junk (gs_arr sp') KO ltac:(rewrite K2, EN; reflexivity) k m m i Ek Hmu ltac:(now rewrite K2)) as T.
      rewrite KS in T. exact T.
    + refine (launch_untouched _ _ _ _ _ k m _ H). intros i.
      apply (thread_no_array c g _ ft Nm 0 _ _ _ _ KO ltac:(rewrite K2, ?EN; reflexivity)). now left.
  - set (Q := fun X X' => if deposited ft k then atomic_launch (g_Nz g * (g_Nr g + 1)) (deposit_tpb v100 (gs_shape sp))
               (deposit_thread c g Nm (gs_shape sp) k m (gs_q sp) (gs_ionizable sp) (gs_arr sp')) X X' else X' = X).
    match type of H with written_modes ?L _ _ _ =>
      assert (M : (forall A A', L m A A' -> Q (A k m) (A' k m)) -> (forall m' A A', m' <> m -> L m' A A' -> A' k m = A k m) ->
        if existsb (Nat.eqb m) (seq 0 Nm) then Q (A k m) (A' k m) else A' k m = A k m)
        by (intros h1 h2; exact (modes_array L (seq 0 Nm) A A' k m Q (seq_NoDup _ _) h1 h2 H)) end.
    assert (Hin : existsb (Nat.eqb m) (seq 0 Nm) = true).
    { apply existsb_exists. exists m. split; [apply in_seq; lia|apply Nat.eqb_refl]. }
    rewrite Hin in M. apply M.
    + intros B B' HL. unfold Q. destruct (deposited ft k) eqn:Ek.
      * refine (launch_array _ _ _ _ _ k m _ _ HL). intros i.
        pose proof (thread_array c g (gpu_kernel Nm ft (gs_shape sp)) ft Nm m (gs_q sp) (gs_ionizable sp) junk (gs_arr sp') KO ltac:(rewrite K2, EN; reflexivity) k m 0%nat i Ek ltac:(unfold kmodes; rewrite K2; cbn; tauto) ltac:(now rewrite K2)) as T.
        rewrite KS in T. exact T.
      * refine (launch_untouched _ _ _ _ _ k m _ HL). intros i. apply (thread_no_array c g _ ft Nm m _ _ _ _ KO ltac:(rewrite K2, ?EN; reflexivity)). now left.
    + intros m' B B' Hne HL. refine (launch_untouched _ _ _ _ _ k m _ HL). intros i.
      apply (thread_no_array c g _ ft Nm m' _ _ _ _ KO ltac:(rewrite K2, ?EN; reflexivity)). right. rewrite K2. congruence.
Qed.
Lemma written_loop v100 c g Nm ft l l' A A' : written_gpu_species_loop c v100 g Nm ft l l' A A' ->
  gpu_species_loop c v100 g Nm ft l l' A A'.
Proof. induction 1; econstructor; [apply written_species; eassumption|assumption]. Qed.
Lemma written_gpu v100 c g vol Nm ft l l' A A' : written_gpu_deposit c v100 g vol Nm ft l l' A A' ->
  gpu_deposit c v100 g vol Nm ft l l' A A'.
Proof. intros [A1 [H1 H2]]. exists A1. split; [now apply written_loop|exact H2]. Qed.

(** ** CPU *)
Definition cpu_rows (k : comp) (sh : shape) : list cpu_row :=
  flat_map (fun a => map (fun b => P k a b a b (match k with Rho | Jz => 1 | Jr | Jt => -1 end) k) (range (npts sh))) (range (npts sh)).
Lemma cpu_kernel_rows ft sh k : filter (fun r => comp_eqb k (r_comp r)) (cpu_kernel ft sh) = if deposited ft k then cpu_rows k sh else [].
Proof. destruct ft, sh, k; vm_compute; reflexivity. Qed.
Lemma seq_pick {Y} (f : nat -> list Y) m Nm : flat_map (fun m' => if (m =? m')%nat then f m' else []) (seq 0 Nm) = if (m <? Nm)%nat then f m else [].
Proof.
  assert (H : forall n0, flat_map (fun m' => if (m =? m')%nat then f m' else []) (seq n0 Nm) = if (n0 <=? m)%nat && (m <? n0 + Nm)%nat then f m else []).
  { induction Nm as [|n IH]; intros n0; cbn [seq flat_map].
    - destruct (Nat.leb_spec n0 m), (Nat.ltb_spec m (n0 + 0)); cbn; try reflexivity; lia.
    - rewrite IH. destruct (Nat.eqb_spec m n0) as [->|E].
      + destruct (Nat.leb_spec (S n0) n0); [lia|]. cbn [andb]. rewrite app_nil_r, Nat.leb_refl. destruct (Nat.ltb_spec n0 (n0 + S n)); [reflexivity|lia].
      + cbn [app]. destruct (Nat.leb_spec (S n0) m), (Nat.leb_spec n0 m); try lia; cbn [andb]; try reflexivity.
        replace (S n0 + n)%nat with (n0 + S n)%nat by lia. reflexivity. }
  rewrite H. reflexivity.
Qed.
Lemma cpu_particle c g sh ft Nm q ion p k m :
  to_array k m (written_particle c g sh ft Nm q ion p) =
  if deposited ft k && (m <? Nm)%nat then contributions c g sh k m q ion p else [].
Proof.
  unfold written_particle. rewrite to_array_flat_map.
  set (F := fun m' r => (iz_cell g sh p + r_iz r, ir_cell g sh p + r_ir r, Cmult (RtoC (Sz sh (z_cell g p) (r_sz r) *
      Sr sh (r_cell g p) (r_sr r) (if r_flip r =? 1 then (-1) ^ m' else - (-1) ^ m') (bn g sh m' p))%R)
      (scal c (r_scal r) (q * eff_weight ion p)%R p m'))).
  rewrite (flat_map_ext_in' _ (fun m' => if (m =? m')%nat then map (F m') (filter (fun r => comp_eqb k (r_comp r)) (cpu_kernel ft sh)) else [])).
  - rewrite seq_pick. destruct (m <? Nm)%nat; [|now rewrite Bool.andb_false_r]. rewrite Bool.andb_true_r, cpu_kernel_rows.
    destruct (deposited ft k); [|reflexivity]. unfold cpu_rows, contributions. rewrite map_flat_map. apply flat_map_ext_in'. intros a _.
    rewrite map_map. apply map_ext. intros b. unfold F. cbn [r_iz r_ir r_sz r_sr r_flip r_scal]. unfold flip. destruct k; reflexivity.
  - intros m' _. unfold to_array. induction (cpu_kernel ft sh) as [|r rows IH]; cbn [map filter fst snd]; [now destruct (m =? m')%nat|].
    destruct (comp_eqb k (r_comp r)); cbn [andb]; [|exact IH].
    destruct (m =? m')%nat; cbn [map snd]; [|exact IH]. unfold F at 1. now rewrite IH.
Qed.
Lemma cpu_numba c g ft Nm n sp G t k m : deposited ft k = true -> (m < Nm)%nat ->
  written_deposit_numba c g ft Nm n sp G t k m = deposit_numba c g k m n sp (fun t => G t k m) t.
Proof.
  intros Hk Hm. unfold written_deposit_numba, deposit_numba. cbv zeta. rewrite add_all_array, to_array_flat_map. f_equal.
  apply flat_map_ext_in'. intros i _. rewrite cpu_particle, Hk. apply Nat.ltb_lt in Hm. now rewrite Hm.
Qed.
Lemma cpu_species_gen c g ft Nm n k m l : deposited ft k = true -> (m < Nm)%nat -> forall G H, (forall t, G t k m = H t) ->
  forall t, fold_left (written_species_deposit c g ft Nm n) l G t k m = fold_left (species_deposit c g k m n) l H t.
Proof.
  intros Hk Hm. induction l as [|sp l IH]; intros G H E t; cbn [fold_left]; [apply E|].
  apply IH. intros t'. unfold written_species_deposit, species_deposit. destruct (Req_EM_T (sp_q sp) 0); [apply E|].
  rewrite cpu_numba by assumption. unfold deposit_numba. cbv zeta. now rewrite E.
Qed.
Lemma reduce_ext n Nz Nr G H : (forall t, G t = H t) -> sum_reduce_2d_array n Nz Nr G = sum_reduce_2d_array n Nz Nr H.
Proof.
  intros E. assert (R : forall a b, reduce_slice n Nr a b G = reduce_slice n Nr a b H).
  { intros a b. unfold reduce_slice. apply flat_map_ext_in'. intros t _. now rewrite E. }
  unfold sum_reduce_2d_array. rewrite !R. f_equal. apply flat_map_ext_in'. intros iz _. apply R.
Qed.
Lemma species_mode_grid c g vol m k n l : forall G, fold_left (species_deposit c (mode_grid g vol m) k m n) l G = fold_left (species_deposit c g k m n) l G.
Proof. induction l as [|sp l IH]; intros G; cbn [fold_left]; [reflexivity|]. rewrite IH. reflexivity. Qed.
Lemma cpu_whole c g vol ft Nm n l k m : deposited ft k = true -> (m < Nm)%nat ->
  written_deposit c g vol ft Nm n l k m = deposit c (mode_grid g vol m) k m n l None.
Proof.
  intros Hk Hm. unfold written_deposit, deposit. cbv zeta. f_equal. f_equal. 
  rewrite species_mode_grid. change (g_Nz (mode_grid g vol m)) with (g_Nz g). change (g_Nr (mode_grid g vol m)) with (g_Nr g).
  apply reduce_ext. intros t. now apply cpu_species_gen.
Qed.

Lemma deposits_agree v100 c g vol Nm ft l l' A A' nthreads :
  (forall m, (m < Nm)%nat -> Deposit_Spec.grid_ok (mode_grid g vol m)) -> beta_ok g ->
  Forall (gsp_ok g) l -> Forall (flag_ok g) l -> 1 <= nthreads <= 2 ^ 32 ->
  written_gpu_deposit c v100 g vol Nm ft l l' A A' ->
  forall k m iz ir, (m < Nm)%nat -> 0 <= iz < g_Nz g -> 0 <= ir < g_Nr g ->
  A' k m iz ir = if deposited ft k then written_deposit c g vol ft Nm nthreads (map cpu_of l) k m iz ir else A k m iz ir.
Proof.
  intros Hg Hb Ho Hf Hn H k m iz ir Hm Hz Hr.
  rewrite (gpu_cpu_all v100 c g vol Nm ft l l' A A' nthreads Hg Hb Ho Hf Hn (written_gpu _ _ _ _ _ _ _ _ _ _ H) k m iz ir Hm Hz Hr).
  destruct (deposited ft k) eqn:E; [|reflexivity]. now rewrite cpu_whole.
Qed.
Lemma written_total_charge c g vol Nm nthreads l : Deposit_Spec.grid_ok (mode_grid g vol 0) -> (1 <= Nm)%nat ->
  threads_ok nthreads (depositing l None) -> all_in_grid g (depositing l None) ->
  over_cells g (fun iz ir => Cmult (written_deposit c g vol FRho Nm nthreads l Rho 0 iz ir) (RtoC (vol 0%nat ir))) =
  RtoC (rsum charge (depositing l None)).
Proof.
  intros Hg Hm Ht Ha. rewrite cpu_whole by (reflexivity || lia). exact (total_charge c (mode_grid g vol 0) nthreads l None Hg Ht Ha).
Qed.
Lemma written_total_current c g vol Nm nthreads l : Deposit_Spec.grid_ok (mode_grid g vol 0) -> (1 <= Nm)%nat ->
  threads_ok nthreads (depositing l None) -> all_in_grid g (depositing l None) ->
  over_cells g (fun iz ir => Cmult (written_deposit c g vol FJ Nm nthreads l Jz 0 iz ir) (RtoC (vol 0%nat ir))) =
  RtoC (rsum (axial_current c) (depositing l None)).
Proof.
  intros Hg Hm Ht Ha. rewrite cpu_whole by (reflexivity || lia). exact (total_current c (mode_grid g vol 0) nthreads l None Hg Ht Ha).
Qed.

(** ** An execution *)
Definition wrun (c : R) (g : grid) (sp : gsp) (Nm : nat) (ft : fieldtype) (m : nat) (A : comp -> nat -> Z -> Z -> C) : comp -> nat -> Z -> Z -> C :=
  fold_left add_all (flat_map (written_thread c g (gpu_kernel Nm ft (gs_shape sp)) Nm m (gs_q sp) (gs_ionizable sp) (fun _ => RtoC 0) (gs_arr sp))
    (threads_1d (cuda_tpb_bpg_1d (g_Nz g * (g_Nr g + 1)) (deposit_tpb false (gs_shape sp))))) A.
Lemma written_modes_run (launch : nat -> (comp -> nat -> Z -> Z -> C) -> (comp -> nat -> Z -> Z -> C) -> Prop) f ms : (forall m A, launch m A (f m A)) -> forall A, written_modes launch ms A (fold_left (fun A m => f m A) ms A).
Proof. intros H. induction ms as [|m ms IH]; intros A; cbn; [reflexivity|]. exists (f m A). split; [apply H|apply IH]. Qed.
Lemma cpu_threads_ok l : Forall (fun sp => 0 <= s_N (gs_arr sp) < 2 ^ 31) l -> threads_ok 1 (depositing (map cpu_of l) None).
Proof.
  intros H. split; [lia|]. cbn [depositing]. apply Forall_forall. intros x Hx. apply filter_In in Hx. destruct Hx as [Hx _].
  apply in_map_iff in Hx. destruct Hx as [sp [<- Hs]]. rewrite Forall_forall in H. specialize (H sp Hs).
  cbn [cpu_of sp_ptcl]. rewrite map_length, length_range. change (2 ^ 53) with 9007199254740992. change (2 ^ 31) with 2147483648 in H. lia.
Qed.
Lemma cpu_all_in g l : Forall (gsp_ok g) l -> all_in_grid g (depositing (map cpu_of l) None).
Proof.
  intros H. apply Forall_forall. intros x Hx. cbn [depositing] in Hx. apply filter_In in Hx. destruct Hx as [Hx _].
  apply in_map_iff in Hx. destruct Hx as [sp [<- Hs]]. rewrite Forall_forall in H. apply (H sp Hs).
Qed.
Lemma over_cells_ext g f h : (forall iz ir, 0 <= iz < g_Nz g -> 0 <= ir < g_Nr g -> f iz ir = h iz ir) -> over_cells g f = over_cells g h.
Proof.
  intros H. unfold over_cells. apply lsum_ext. intros iz Hz. apply lsum_ext. intros ir Hr. apply in_range in Hz, Hr. now apply H.
Qed.
Lemma gpu_totals v100 c g vol Nm ft l l' A A' :
  (forall m, (m < Nm)%nat -> Deposit_Spec.grid_ok (mode_grid g vol m)) -> beta_ok g -> (1 <= Nm)%nat ->
  Forall (gsp_ok g) l -> Forall (flag_ok g) l -> written_gpu_deposit c v100 g vol Nm ft l l' A A' ->
  over_cells g (fun iz ir => Cmult (A' (match ft with FRho => Rho | FJ => Jz end) 0%nat iz ir) (RtoC (vol 0%nat ir))) =
  RtoC (rsum (match ft with FRho => charge | FJ => axial_current c end) (depositing (map cpu_of l) None)).
Proof.
  intros Hg Hb Hm Ho Hf H.
  assert (Hth : threads_ok 1 (depositing (map cpu_of l) None)).
  { apply cpu_threads_ok. eapply Forall_impl; [|exact Ho]. intros sp X. apply X. }
  pose proof (cpu_all_in g l Ho) as Hin.
  rewrite (over_cells_ext g _ (fun iz ir => Cmult (written_deposit c g vol ft Nm 1 (map cpu_of l) (match ft with FRho => Rho | FJ => Jz end) 0 iz ir) (RtoC (vol 0%nat ir)))).
  - destruct ft; [apply written_total_charge|apply written_total_current]; try assumption; apply Hg; lia.
  - intros iz ir Hz Hr. rewrite (deposits_agree v100 c g vol Nm ft l l' A A' 1 Hg Hb Ho Hf ltac:(lia) H _ 0%nat iz ir ltac:(lia) Hz Hr).
    destruct ft; reflexivity.
Qed.

Definition csp (sorted : bool) (s : gspecies) : gsp :=
  {| gs_q := 1; gs_tracer := false; gs_ionizable := false; gs_shape := Cubic; gs_sorted := sorted; gs_arr := s |}%R.
Lemma unroll_met Nm : (1 <= Nm)%nat -> exists l l' A',
  (forall m, (m < Nm)%nat -> Deposit_Spec.grid_ok (mode_grid (wg 0) (fun _ _ => 1%R) m)) /\ beta_ok (wg 0) /\
  Forall (gsp_ok (wg 0)) l /\ Forall (flag_ok (wg 0)) l /\
  written_gpu_deposit 1 false (wg 0) (fun _ _ => 1%R) Nm FRho l l' (fun _ _ => zero2) A' /\
  over_cells (wg 0) (A' Rho 0%nat) = RtoC 1.
Proof.
  intros HN. destruct (one_sorted (sgrid_of (wg 0)) (ws 3) eq_refl) as [s' Hs].
  set (g := wg 0). set (vol := fun (_ : nat) (_ : Z) => 1%R).
  assert (Hg : forall m, (m < Nm)%nat -> Deposit_Spec.grid_ok (mode_grid g vol m)).
  { intros m _. unfold Deposit_Spec.grid_ok, g, wg; cbn. repeat split; try lra; try lia. intros. unfold vol. lra. }
  assert (Hb : beta_ok g) by (intros sh m x _; reflexivity).
  assert (Hok : Forall (gsp_ok g) [csp false (ws 3)]).
  { constructor; [|constructor]. apply (wsp_ok 0 (ws 3) false); [reflexivity|reflexivity|cbn; lra]. }
  assert (Hfl : Forall (flag_ok g) [csp false (ws 3)]) by (constructor; [intros H; discriminate|constructor]).
  set (f := wrun 1 g (csp true s') Nm FRho).
  set (A0 := fun (k : comp) (m : nat) => if deposited FRho k then zero2 else zero2).
  set (A1 := if (Nm =? 2)%nat then f 0%nat A0 else fold_left (fun A m => f m A) (seq 0 Nm) A0).
  set (A' := fun k m => if deposited FRho k then divide_by_volume (mode_grid g vol m) (A1 k m) else A1 k m).
  assert (D1 : written_gpu_deposit 1 false g vol Nm FRho [csp false (ws 3)] [csp true s'] (fun _ _ => zero2) A').
  { exists A1. split; [|reflexivity]. cbn [filter csp gs_tracer negb]. econstructor; [|constructor].
    unfold written_gpu_species_deposit. cbn [csp gs_q gs_tracer gs_ionizable gs_shape gs_sorted gs_arr].
    destruct (Req_EM_T 1 0) as [E|_]; [lra|]. repeat (split; [reflexivity|]). split; [exact Hs|]. exists (fun _ => RtoC 0).
    cbv zeta. unfold A1. destruct (Nm =? 2)%nat.
    - eexists. split; [reflexivity|]. reflexivity.
    - apply written_modes_run. intros m A. eexists. split; [reflexivity|]. reflexivity. }
  exists [csp false (ws 3)], [csp true s'], A'. split; [exact Hg|]. split; [exact Hb|]. split; [exact Hok|]. split; [exact Hfl|].
  split; [exact D1|]. pose proof (gpu_totals false 1 g vol Nm FRho _ _ _ _ Hg Hb HN Hok Hfl D1) as T. cbv iota in T.
  rewrite (over_cells_ext (wg 0) _ (fun iz ir => Cmult (A' Rho 0%nat iz ir) (RtoC (vol 0%nat ir)))) by (intros; unfold vol; ring).
  etransitivity; [exact T|]. unfold depositing. cbn [map filter cpu_of csp sp_tracer gs_tracer negb rsum fold_right].
  unfold charge, weight. cbn [sp_q sp_ionizable sp_ptcl cpu_of csp gs_q gs_ionizable gs_arr]. change (s_N (ws 3)) with 1.
  change (range 1) with [0]. cbn [map rsum fold_right gptcl_at p_w attr ws s_fl nth]. f_equal. lra.
Qed.
