From Coq Require Import ZArith List Reals Lia Lra Permutation Sorted.
From Coquelicot Require Import Complex.
From Flocq Require Import Core.
From Verif Require Import Base Fourier_Lib Deposit_Spec Deposit_Proofs Hankel_Model Hankel_Proofs Spectrum_Model Spectrum_Spec.
Import ListNotations.
Open Scope R_scope.

Section I.
Context {V : Type} (fill : V) (lin : R -> V -> R -> V -> R -> V).
Implicit Types l s : list (R * V).
Definition lt1 (p q : R * V) := fst p < fst q.
Lemma insert_perm p l : Permutation (p :: l) (insert p l).
Proof.
  induction l as [|q l IH]; simpl; [auto|]. destruct (Rle_dec _ _); [auto|].
  eapply perm_trans; [apply perm_swap|]. constructor. auto.
Qed.
Lemma isort_perm l : Permutation l (isort l).
Proof.
  induction l as [|q l IH]; simpl; [auto|]. eapply perm_trans; [|apply insert_perm]. constructor; auto.
Qed.
Lemma insert_sorted p l : StronglySorted lt1 l -> ~ In (fst p) (map fst l) -> StronglySorted lt1 (insert p l).
Proof.
  induction l as [|q l IH]; simpl; intros H N; [repeat constructor|]. inversion H as [|? ? H1 H2]; subst.
  destruct (Rle_dec (fst p) (fst q)) as [L|L].
  - assert (fst p < fst q) by (destruct L; [auto|exfalso; apply N; auto]). constructor; [auto|]. constructor; [auto|].
    eapply Forall_impl; [|exact H2]. unfold lt1. intros; simpl in *; lra.
  - constructor; [apply IH; auto|]. apply (Permutation_Forall (insert_perm p l)). constructor; [unfold lt1; lra|auto].
Qed.
Lemma isort_sorted l : NoDup (map fst l) -> StronglySorted lt1 (isort l).
Proof.
  induction l as [|q l IH]; simpl; intros H; [constructor|]. inversion H; subst. apply insert_sorted; [apply IH; auto|].
  intro A. apply H2. eapply Permutation_in; [|exact A]. apply Permutation_map, Permutation_sym, isort_perm.
Qed.
Lemma last_max s : StronglySorted lt1 s -> forall p d, In p s -> fst p <= fst (last s d).
Proof.
  induction 1 as [|q l H IH F]; intros p d Hp; [destruct Hp|]. destruct l as [|q' l].
  - destruct Hp as [->|[]]. simpl; lra.
  - change (last (q :: q' :: l) d) with (last (q' :: l) d). destruct Hp as [->|Hp].
    + apply Rle_trans with (fst q'). { inversion F; subst. unfold lt1 in *; lra. } apply IH. left; auto.
    + apply IH; auto.
Qed.
Lemma last_in (A : Type) (s : list A) d : s <> [] -> In (last s d) s.
Proof.
  induction s as [|a s IH]; intros H; [contradiction|]. destruct s as [|b s]; [left; reflexivity|].
  right. apply IH. discriminate.
Qed.
Lemma hd_min s : StronglySorted lt1 s -> forall p d, In p s -> fst (hd d s) <= fst p.
Proof.
  destruct 1 as [|q l H F]; intros p d Hp; [destruct Hp|]. destruct Hp as [->|Hp]; [simpl; lra|].
  rewrite Forall_forall in F. specialize (F p Hp). unfold lt1 in F; simpl; lra.
Qed.

Context (lin_l : forall x0 y0 x1 y1, x0 < x1 -> lin x0 y0 x1 y1 x0 = y0)
        (lin_r : forall x0 y0 x1 y1, x0 < x1 -> lin x0 y0 x1 y1 x1 = y1).

(** Between two neighbouring points: the line through them. *)
Lemma sorted_between s : StronglySorted lt1 s -> forall p q x, In p s -> In q s -> fst p < fst q ->
  (forall r, In r s -> ~ (fst p < fst r < fst q)) -> fst p <= x <= fst q ->
  interp_sorted fill lin s x = lin (fst p) (snd p) (fst q) (snd q) x.
Proof.
  induction 1 as [|a l H IH F]; intros p q x Hp Hq L N X; [destruct Hp|].
  rewrite Forall_forall in F. unfold lt1 in F.
  assert (Hql : In q l).
  { destruct Hq as [->|Hq]; [|auto]. destruct Hp as [->|Hp]; [lra|]. specialize (F p Hp). lra. }
  destruct l as [|b l]; [destruct Hql|].
  destruct Hp as [<-|Hp].
  - assert (q = b) as ->.
    { destruct Hql as [->|Hql]; [auto|]. exfalso. apply (N b); [right; left; auto|]. split; [apply F; left; auto|].
      inversion H; subst. rewrite Forall_forall in H3. apply H3; auto. }
    simpl. destruct l; [reflexivity|]. destruct (Rle_dec x (fst b)); [reflexivity|lra].
  - assert (E : interp_sorted fill lin (b :: l) x = lin (fst p) (snd p) (fst q) (snd q) x).
    { apply IH; auto. intros r Hr. apply N. right; auto. }
    simpl. destruct l as [|d l].
    { destruct Hp as [->|[]]. destruct Hql as [->|[]]. lra. }
    destruct (Rle_dec x (fst b)) as [Lx|Lx]; [|exact E].
    assert (p = b) as ->.
    { destruct Hp as [->|Hp]; [auto|]. inversion H; subst. rewrite Forall_forall in H3. specialize (H3 p Hp). unfold lt1 in H3. lra. }
    assert (x = fst b) by lra. subst x. rewrite lin_r, lin_l; auto; apply F; left; auto.
Qed.
Lemma between l : NoDup (map fst l) -> forall p q x, In p l -> In q l -> fst p < fst q ->
  (forall r, In r l -> ~ (fst p < fst r < fst q)) -> fst p <= x <= fst q ->
  interp1d fill lin l x = lin (fst p) (snd p) (fst q) (snd q) x.
Proof.
  intros ND p q x Hp Hq L N X. assert (P := isort_perm l). assert (SS := isort_sorted l ND). unfold interp1d.
  assert (Hp' : In p (isort l)) by (eapply Permutation_in; eauto).
  assert (Hq' : In q (isort l)) by (eapply Permutation_in; eauto).
  assert (A := hd_min _ SS p (0, fill) Hp'). assert (B := last_max _ SS q (0, fill) Hq').
  destruct (Rlt_dec _ _); [lra|]. destruct (Rlt_dec _ _); [lra|].
  apply sorted_between; auto. intros r Hr. apply N. eapply Permutation_in; [apply Permutation_sym|]; eauto.
Qed.
(** At a point: its value. *)
Lemma sorted_node s : StronglySorted lt1 s -> (2 <= length s)%nat -> forall p, In p s -> interp_sorted fill lin s (fst p) = snd p.
Proof.
  induction 1 as [|a l H IH F]; intros Len p Hp; [destruct Hp|]. rewrite Forall_forall in F. unfold lt1 in F.
  destruct l as [|b l]; [simpl in Len; lia|]. assert (ab := F b (or_introl eq_refl)). simpl.
  destruct l as [|d l].
  - destruct Hp as [<-|[<-|[]]]; [apply lin_l|apply lin_r]; auto.
  - destruct (Rle_dec (fst p) (fst b)) as [Lx|Lx].
    + destruct Hp as [<-|[<-|Hp]]; [apply lin_l; auto|apply lin_r; auto|].
      inversion H; subst. rewrite Forall_forall in H3. specialize (H3 p Hp). unfold lt1 in H3. lra.
    + apply IH; [simpl; lia|]. destruct Hp as [<-|Hp]; [lra|auto].
Qed.
Lemma node l : NoDup (map fst l) -> (2 <= length l)%nat -> forall p, In p l -> interp1d fill lin l (fst p) = snd p.
Proof.
  intros ND Len p Hp. assert (P := isort_perm l). assert (SS := isort_sorted l ND). unfold interp1d.
  assert (Hp' : In p (isort l)) by (eapply Permutation_in; eauto).
  assert (A := hd_min _ SS p (0, fill) Hp'). assert (B := last_max _ SS p (0, fill) Hp').
  destruct (Rlt_dec _ _); [lra|]. destruct (Rlt_dec _ _); [lra|].
  apply sorted_node; auto. rewrite <- (Permutation_length P). auto.
Qed.
(** Outside of the points: the fill value. *)
Lemma outside l x : NoDup (map fst l) -> l <> [] -> (forall p, In p l -> x < fst p) \/ (forall p, In p l -> fst p < x) ->
  interp1d fill lin l x = fill.
Proof.
  intros ND NE H. assert (P := isort_perm l). unfold interp1d.
  assert (NE' : isort l <> []) by (intro E; rewrite E in P; apply Permutation_sym, Permutation_nil in P; auto).
  destruct (Rlt_dec _ _) as [a|a]; [reflexivity|]. destruct (Rlt_dec _ _) as [b|b]; [reflexivity|]. exfalso.
  destruct H as [H|H].
  - apply a. apply H. eapply Permutation_in; [apply Permutation_sym; eauto|]. destruct (isort l); [contradiction|left; auto].
  - apply b. apply H. eapply Permutation_in; [apply Permutation_sym; eauto|]. apply last_in; auto.
Qed.
(** Anything stable by segments and true at the points (and at the fill value) is true everywhere. *)
Lemma sorted_convex (Q : V -> Prop) s :
  (forall x0 y0 x1 y1 x, x0 < x1 -> x0 <= x <= x1 -> Q y0 -> Q y1 -> Q (lin x0 y0 x1 y1 x)) -> Q fill ->
  StronglySorted lt1 s -> (forall p, In p s -> Q (snd p)) -> forall x d, fst (hd d s) <= x -> x <= fst (last s d) -> Q (interp_sorted fill lin s x).
Proof.
  intros HQ Hf. induction 1 as [|a l H IH F]; intros Hs x d A B; [exact Hf|]. rewrite Forall_forall in F. unfold lt1 in F.
  destruct l as [|b l]; [exact Hf|]. assert (ab := F b (or_introl eq_refl)).
  simpl in A. simpl. destruct l as [|e l].
  - simpl in B. apply HQ; auto; [apply Hs; left; auto|apply Hs; right; left; auto].
  - destruct (Rle_dec x (fst b)).
    + apply HQ; auto; [apply Hs; left; auto|apply Hs; right; left; auto].
    + apply (IH (fun p Hp => Hs p (or_intror Hp)) x d); [simpl; lra|exact B].
Qed.
Lemma convex (Q : V -> Prop) l x :
  (forall x0 y0 x1 y1 x, x0 < x1 -> x0 <= x <= x1 -> Q y0 -> Q y1 -> Q (lin x0 y0 x1 y1 x)) -> Q fill ->
  NoDup (map fst l) -> (forall p, In p l -> Q (snd p)) -> Q (interp1d fill lin l x).
Proof.
  intros HQ Hf ND Hl. assert (P := isort_perm l). unfold interp1d.
  destruct (Rlt_dec _ _); [exact Hf|]. destruct (Rlt_dec _ _); [exact Hf|].
  apply sorted_convex with (d := (0, fill)); auto; [apply isort_sorted; auto| |lra|lra].
  intros p Hp. apply Hl. eapply Permutation_in; [apply Permutation_sym|]; eauto.
Qed.
(** Inside the points: the fill value is not used. *)
Lemma sorted_convex_in (Q : V -> Prop) s :
  (forall x0 y0 x1 y1 x, x0 < x1 -> x0 <= x <= x1 -> Q y0 -> Q y1 -> Q (lin x0 y0 x1 y1 x)) ->
  StronglySorted lt1 s -> (2 <= length s)%nat -> (forall p, In p s -> Q (snd p)) -> forall x d, fst (hd d s) <= x -> x <= fst (last s d) -> Q (interp_sorted fill lin s x).
Proof.
  intros HQ. induction 1 as [|a l H IH F]; intros Len Hs x d A B; [simpl in Len; lia|]. rewrite Forall_forall in F. unfold lt1 in F.
  destruct l as [|b l]; [simpl in Len; lia|]. assert (ab := F b (or_introl eq_refl)).
  simpl in A. simpl. destruct l as [|e l].
  - simpl in B. apply HQ; auto; [apply Hs; left; auto|apply Hs; right; left; auto].
  - destruct (Rle_dec x (fst b)).
    + apply HQ; auto; [apply Hs; left; auto|apply Hs; right; left; auto].
    + apply (IH ltac:(simpl; lia) (fun p Hp => Hs p (or_intror Hp)) x d); [simpl; lra|exact B].
Qed.
Lemma convex_in (Q : V -> Prop) l x :
  (forall x0 y0 x1 y1 x, x0 < x1 -> x0 <= x <= x1 -> Q y0 -> Q y1 -> Q (lin x0 y0 x1 y1 x)) ->
  NoDup (map fst l) -> (2 <= length l)%nat -> (forall p, In p l -> Q (snd p)) ->
  (exists p, In p l /\ fst p <= x) -> (exists p, In p l /\ x <= fst p) -> Q (interp1d fill lin l x).
Proof.
  intros HQ ND Len Hl [p [Hp Lp]] [q [Hq Lq]]. assert (P := isort_perm l). assert (SS := isort_sorted l ND). unfold interp1d.
  assert (Hp' : In p (isort l)) by (eapply Permutation_in; eauto).
  assert (Hq' : In q (isort l)) by (eapply Permutation_in; eauto).
  assert (A := hd_min _ SS p (0, fill) Hp'). assert (B := last_max _ SS q (0, fill) Hq').
  destruct (Rlt_dec _ _); [lra|]. destruct (Rlt_dec _ _); [lra|].
  apply sorted_convex_in with (d := (0, fill)); auto; [rewrite <- (Permutation_length P); auto| |lra|lra].
  intros r Hr. apply Hl. eapply Permutation_in; [apply Permutation_sym|]; eauto.
Qed.
End I.

Lemma linR_l x0 y0 x1 y1 : x0 < x1 -> linR x0 y0 x1 y1 x0 = y0.
Proof. intros. unfold linR. field. lra. Qed.
Lemma linR_r x0 y0 x1 y1 : x0 < x1 -> linR x0 y0 x1 y1 x1 = y1.
Proof. intros. unfold linR. field. lra. Qed.
Lemma linC_comb x0 y0 x1 y1 x : x0 < x1 ->
  linC x0 y0 x1 y1 x = Cplus (Cmult (RtoC ((x1 - x) / (x1 - x0))) y0) (Cmult (RtoC ((x - x0) / (x1 - x0))) y1).
Proof.
  intros L. unfold linC. unfold Cdiv. rewrite <- RtoC_inv by lra. destruct y0 as [a b], y1 as [a' b'].
  unfold Cplus, Cmult, Cminus, Copp, RtoC; simpl. f_equal; field; lra.
Qed.
Lemma linC_l x0 y0 x1 y1 : x0 < x1 -> linC x0 y0 x1 y1 x0 = y0.
Proof.
  intros. rewrite linC_comb by auto. replace ((x1 - x0) / (x1 - x0)) with 1 by (field; lra).
  replace ((x0 - x0) / (x1 - x0)) with 0 by (field; lra). ring.
Qed.
Lemma linC_r x0 y0 x1 y1 : x0 < x1 -> linC x0 y0 x1 y1 x1 = y1.
Proof.
  intros. rewrite linC_comb by auto. replace ((x1 - x1) / (x1 - x0)) with 0 by (field; lra).
  replace ((x1 - x0) / (x1 - x0)) with 1 by (field; lra). ring.
Qed.
Lemma linR_comb x0 y0 x1 y1 x : x0 < x1 -> linR x0 y0 x1 y1 x = (x1 - x) / (x1 - x0) * y0 + (x - x0) / (x1 - x0) * y1.
Proof. intros. unfold linR. field. lra. Qed.
Lemma frac x0 x1 x : x0 < x1 -> x0 <= x <= x1 -> 0 <= (x - x0) / (x1 - x0) <= 1.
Proof.
  intros L X. split; [apply Rmult_le_pos; [lra|left; apply Rinv_0_lt_compat; lra]|]. apply Rmult_le_reg_r with (x1 - x0); [lra|].
  unfold Rdiv. rewrite Rmult_assoc, Rinv_l; lra.
Qed.
Lemma linC_ball x0 y0 x1 y1 x M : x0 < x1 -> x0 <= x <= x1 -> Cmod y0 <= M -> Cmod y1 <= M -> Cmod (linC x0 y0 x1 y1 x) <= M.
Proof.
  intros L X A B. rewrite linC_comb by auto. eapply Rle_trans; [apply Cmod_triangle|]. rewrite !Cmod_mult, !Cmod_R.
  assert (F := frac x0 x1 x L X). set (s := (x - x0) / (x1 - x0)) in *.
  replace ((x1 - x) / (x1 - x0)) with (1 - s) by (unfold s; field; lra).
  rewrite !Rabs_pos_eq by lra.
  assert ((1 - s) * Cmod y0 <= (1 - s) * M) by (apply Rmult_le_compat_l; lra).
  assert (s * Cmod y1 <= s * M) by (apply Rmult_le_compat_l; lra). lra.
Qed.
Lemma linR_pos x0 y0 x1 y1 x : x0 < x1 -> x0 <= x <= x1 -> 0 < y0 -> 0 < y1 -> 0 < linR x0 y0 x1 y1 x.
Proof.
  intros L X A B. rewrite linR_comb by auto.
  assert (F := frac x0 x1 x L X). set (s := (x - x0) / (x1 - x0)) in *.
  replace ((x1 - x) / (x1 - x0)) with (1 - s) by (unfold s; field; lra).
  destruct (Rle_dec s (1 / 2)).
  - assert (0 < (1 - s) * y0) by (apply Rmult_lt_0_compat; lra). assert (0 <= s * y1) by (apply Rmult_le_pos; lra). lra.
  - assert (0 <= (1 - s) * y0) by (apply Rmult_le_pos; lra). assert (0 < s * y1) by (apply Rmult_lt_0_compat; lra). lra.
Qed.
Lemma linR_nonneg x0 y0 x1 y1 x : x0 < x1 -> x0 <= x <= x1 -> 0 <= y0 -> 0 <= y1 -> 0 <= linR x0 y0 x1 y1 x.
Proof.
  intros L X A B. rewrite linR_comb by auto.
  assert (F := frac x0 x1 x L X). set (s := (x - x0) / (x1 - x0)) in *.
  replace ((x1 - x) / (x1 - x0)) with (1 - s) by (unfold s; field; lra).
  assert (0 <= (1 - s) * y0) by (apply Rmult_le_pos; lra). assert (0 <= s * y1) by (apply Rmult_le_pos; lra). lra.
Qed.

(** *** Wavelengths *)
Lemma rising_ss l : rising l -> StronglySorted (fun r s => r_lam r < r_lam s) l.
Proof.
  intros H. apply Sorted_StronglySorted. { intros x y z; lra. }
  induction l as [|r l IH]; [constructor|]. destruct l as [|s l]; [repeat constructor|]. destruct H as [H1 H2].
  constructor; [apply IH; auto|]. constructor; auto.
Qed.
Lemma ss_nodup l : StronglySorted (fun r s => r_lam r < r_lam s) l -> NoDup (map r_lam l).
Proof.
  induction 1 as [|r l H IH F]; simpl; constructor; auto. rewrite in_map_iff. intros [s [E Hs]].
  rewrite Forall_forall in F. specialize (F s Hs). simpl in F. lra.
Qed.
Lemma file_nodup l : file_ok l -> NoDup (map r_lam l).
Proof.
  intros (_ & [H|H] & _); [apply ss_nodup, rising_ss; auto|].
  apply rising_ss, ss_nodup in H. rewrite map_rev in H. apply NoDup_rev in H. rewrite rev_involutive in H. exact H.
Qed.

(** Sums over the intervals of a rising file. *)
Lemma trapz_app_last l p q : trapz (l ++ [p; q]) = trapz (l ++ [p]) + (fst q - fst p) * (snd p + snd q) / 2.
Proof.
  induction l as [|a l IH]; simpl; [lra|]. destruct l as [|b l].
  - simpl. lra.
  - simpl in *. rewrite IH. lra.
Qed.
Lemma trapz_rev l : trapz (rev l) = - trapz l.
Proof.
  induction l as [|p l IH]; simpl; [lra|]. destruct l as [|q l]; [simpl; lra|].
  simpl in *. rewrite <- app_assoc. simpl. rewrite trapz_app_last. rewrite IH. lra.
Qed.
Lemma lambda0_rev l : lambda0 (rev l) = lambda0 l.
Proof.
  unfold lambda0. rewrite !map_rev, !trapz_rev. rewrite !Rmult_1_r. unfold Rdiv. rewrite Rinv_opp. ring.
Qed.
Lemma trapz_int_nonneg l : rising l -> (forall r, In r l -> 0 < r_lam r /\ 0 <= r_int r) ->
  0 <= trapz (map (fun r => (r_lam r, r_int r)) l).
Proof.
  induction l as [|r l IH]; intros H P; [simpl; lra|]. destruct l as [|s l]; [simpl; lra|].
  destruct H as [H1 H2]. specialize (IH H2 (fun q Hq => P q (or_intror Hq))).
  destruct (P r (or_introl eq_refl)), (P s (or_intror (or_introl eq_refl))).
  change (trapz (map (fun r => (r_lam r, r_int r)) (r :: s :: l)))
    with ((r_lam s - r_lam r) * (r_int r + r_int s) / 2 + trapz (map (fun r => (r_lam r, r_int r)) (s :: l))).
  assert (0 <= (r_lam s - r_lam r) * (r_int r + r_int s)) by (apply Rmult_le_pos; lra). lra.
Qed.
Lemma trapz_int_pos l : rising l -> (2 <= length l)%nat -> (forall r, In r l -> 0 < r_lam r /\ 0 <= r_int r) ->
  (exists r, In r l /\ 0 < r_int r) -> 0 < trapz (map (fun r => (r_lam r, r_int r)) l).
Proof.
  induction l as [|r l IH]; intros H Len P E; [simpl in Len; lia|]. destruct l as [|s l]; [simpl in Len; lia|].
  destruct H as [H1 H2]. assert (N := trapz_int_nonneg _ H2 (fun q Hq => P q (or_intror Hq))).
  destruct (P r (or_introl eq_refl)), (P s (or_intror (or_introl eq_refl))).
  change (trapz (map (fun r => (r_lam r, r_int r)) (r :: s :: l)))
    with ((r_lam s - r_lam r) * (r_int r + r_int s) / 2 + trapz (map (fun r => (r_lam r, r_int r)) (s :: l))).
  assert (Q : 0 <= (r_lam s - r_lam r) * (r_int r + r_int s)) by (apply Rmult_le_pos; lra).
  destruct (Rlt_dec 0 (r_int r + r_int s)) as [a|a].
  - assert (0 < (r_lam s - r_lam r) * (r_int r + r_int s)) by (apply Rmult_lt_0_compat; lra). lra.
  - destruct E as [q [[<-|Hq] Eq]]; [lra|]. destruct l as [|u l].
    { destruct Hq as [<-|[]]. lra. }
    assert (0 < trapz (map (fun r => (r_lam r, r_int r)) (s :: u :: l))).
    { apply IH; auto; [simpl; lia|intros x Hx; apply P; right; auto|exists q; auto]. }
    lra.
Qed.
Lemma trapz_lam_bounds l lo hi : rising l -> (forall r, In r l -> 0 < r_lam r /\ 0 <= r_int r) ->
  (forall r, In r l -> lo <= r_lam r <= hi) ->
  lo * trapz (map (fun r => (r_lam r, r_int r)) l) <= trapz (map (fun r => (r_lam r, r_lam r * r_int r)) l)
  <= hi * trapz (map (fun r => (r_lam r, r_int r)) l).
Proof.
  induction l as [|r l IH]; intros H P B; [simpl; lra|]. destruct l as [|s l]; [simpl; lra|].
  destruct H as [H1 H2]. specialize (IH H2 (fun q Hq => P q (or_intror Hq)) (fun q Hq => B q (or_intror Hq))).
  destruct (P r (or_introl eq_refl)), (P s (or_intror (or_introl eq_refl))).
  destruct (B r (or_introl eq_refl)), (B s (or_intror (or_introl eq_refl))).
  change (trapz (map (fun r => (r_lam r, r_int r)) (r :: s :: l)))
    with ((r_lam s - r_lam r) * (r_int r + r_int s) / 2 + trapz (map (fun r => (r_lam r, r_int r)) (s :: l))).
  change (trapz (map (fun r => (r_lam r, r_lam r * r_int r)) (r :: s :: l)))
    with ((r_lam s - r_lam r) * (r_lam r * r_int r + r_lam s * r_int s) / 2 + trapz (map (fun r => (r_lam r, r_lam r * r_int r)) (s :: l))).
  assert (lo * r_int r <= r_lam r * r_int r <= hi * r_int r) by (split; apply Rmult_le_compat_r; lra).
  assert (lo * r_int s <= r_lam s * r_int s <= hi * r_int s) by (split; apply Rmult_le_compat_r; lra).
  assert ((r_lam s - r_lam r) * (lo * r_int r + lo * r_int s) <= (r_lam s - r_lam r) * (r_lam r * r_int r + r_lam s * r_int s)) by (apply Rmult_le_compat_l; lra).
  assert ((r_lam s - r_lam r) * (r_lam r * r_int r + r_lam s * r_int s) <= (r_lam s - r_lam r) * (hi * r_int r + hi * r_int s)) by (apply Rmult_le_compat_l; lra).
  lra.
Qed.
Lemma lambda0_bounds_rising l lo hi : rising l -> (2 <= length l)%nat -> (forall r, In r l -> 0 < r_lam r /\ 0 <= r_int r) ->
  (exists r, In r l /\ 0 < r_int r) -> (forall r, In r l -> lo <= r_lam r <= hi) -> lo <= lambda0 l <= hi.
Proof.
  intros H Len P E B. assert (T := trapz_int_pos l H Len P E). assert (U := trapz_lam_bounds l lo hi H P B).
  unfold lambda0. rewrite Rmult_1_r. set (A := trapz (map (fun r => (r_lam r, r_lam r * r_int r)) l)) in *.
  set (D := trapz (map (fun r => (r_lam r, r_int r)) l)) in *.
  split; apply Rmult_le_reg_r with D; auto; unfold Rdiv; rewrite Rmult_assoc, Rinv_l by lra; lra.
Qed.
Lemma lambda0_bounds l lo hi : file_ok l -> (forall r, In r l -> lo <= r_lam r <= hi) -> lo <= lambda0 l <= hi.
Proof.
  intros (Len & [H|H] & P & E) B; [apply lambda0_bounds_rising; auto|].
  rewrite <- lambda0_rev. apply lambda0_bounds_rising; auto.
  - rewrite rev_length; auto.
  - intros r Hr. apply P. apply in_rev; auto.
  - destruct E as [r [Hr Er]]. exists r. split; [apply -> in_rev; auto|auto].
  - intros r Hr. apply B. apply in_rev; auto.
Qed.
Lemma least (l : list row) : l <> [] -> exists r, In r l /\ forall s, In s l -> r_lam r <= r_lam s.
Proof.
  induction l as [|r l IH]; intros H; [contradiction|]. destruct l as [|s l].
  - exists r. split; [left; auto|]. intros s [->|[]]; lra.
  - destruct IH as [m [Hm Lm]]; [discriminate|]. destruct (Rle_dec (r_lam r) (r_lam m)).
    + exists r. split; [left; auto|]. intros q [->|Hq]; [lra|]. specialize (Lm q Hq). lra.
    + exists m. split; [right; auto|]. intros q [->|Hq]; [lra|auto].
Qed.
Lemma greatest (l : list row) : l <> [] -> exists r, In r l /\ forall s, In s l -> r_lam s <= r_lam r.
Proof.
  induction l as [|r l IH]; intros H; [contradiction|]. destruct l as [|s l].
  - exists r. split; [left; auto|]. intros s [->|[]]; lra.
  - destruct IH as [m [Hm Lm]]; [discriminate|]. destruct (Rle_dec (r_lam m) (r_lam r)).
    + exists r. split; [left; auto|]. intros q [->|Hq]; [lra|]. specialize (Lm q Hq). lra.
    + exists m. split; [right; auto|]. intros q [->|Hq]; [lra|auto].
Qed.
Lemma file_nonempty l : file_ok l -> l <> [].
Proof. intros (L & _) ->. simpl in L. lia. Qed.
Lemma lambda0_pos l : file_ok l -> 0 < lambda0 l.
Proof.
  intros H. destruct (least l (file_nonempty l H)) as [m [Hm Lm]]. destruct (greatest l (file_nonempty l H)) as [M [HM LM]].
  assert (B := lambda0_bounds l (r_lam m) (r_lam M) H (fun r Hr => conj (Lm r Hr) (LM r Hr))).
  destruct H as (_ & _ & P & _). destruct (P m Hm). lra.
Qed.
(** lambda0 does not look at the phases. *)
Definition same_li (l l' : list row) := map (fun r => (r_lam r, r_int r)) l = map (fun r => (r_lam r, r_int r)) l'.
Lemma same_lambda0 l l' : same_li l l' -> lambda0 l = lambda0 l'.
Proof.
  intros H. unfold lambda0, same_li in *. rewrite H. f_equal. f_equal. f_equal.
  assert (E : forall k, map (fun r => (r_lam r, r_lam r * r_int r)) k = map (fun p : R * R => (fst p, fst p * snd p)) (map (fun r => (r_lam r, r_int r)) k)).
  { intros k. rewrite map_map. apply map_ext. reflexivity. }
  rewrite (E l), (E l'), H. reflexivity.
Qed.
Lemma same_rising : forall l l', same_li l l' -> rising l -> rising l'.
Proof.
  induction l as [|r l IH]; intros [|r' l'] H R; try discriminate; [exact I|]. injection H as H1 H2 H3.
  destruct l as [|s l], l' as [|s' l']; try discriminate; [exact I|]. destruct R as [R1 R2].
  assert (E := H3). injection E as E1 E2 E3. split; [lra|]. apply (IH (s' :: l')); auto.
Qed.
Lemma same_in l l' : same_li l l' -> forall r, In r l -> exists r', In r' l' /\ r_lam r' = r_lam r /\ r_int r' = r_int r.
Proof.
  intros H r Hr. assert (A : In (r_lam r, r_int r) (map (fun r => (r_lam r, r_int r)) l')).
  { rewrite <- H. apply in_map_iff. exists r; auto. }
  apply in_map_iff in A. destruct A as [r' [E Hr']]. injection E as E1 E2. exists r'; auto.
Qed.
Lemma same_sym l l' : same_li l l' -> same_li l' l. Proof. unfold same_li; auto. Qed.
Lemma same_ok l l' : same_li l l' -> file_ok l -> file_ok l'.
Proof.
  intros H (A & B & D & E). repeat split.
  - assert (L := f_equal (@length _) H). rewrite !map_length in L. lia.
  - destruct B as [B|B]; [left; eapply same_rising; eauto|right].
    apply (same_rising (rev l)); auto. unfold same_li. rewrite !map_rev. f_equal. exact H.
  - intros. destruct (same_in _ _ (same_sym _ _ H) r H0) as [q [Hq [E1 E2]]]. destruct (D q Hq). lra.
  - intros. destruct (same_in _ _ (same_sym _ _ H) r H0) as [q [Hq [E1 E2]]]. destruct (D q Hq). lra.
  - destruct E as [r [Hr Er]]. destruct (same_in _ _ H r Hr) as [q [Hq [E1 E2]]]. exists q. split; [auto|lra].
Qed.
Section P.
Context (c : R) (Hc : 0 < c) (polyfit : list (R * R) -> R * R * R * R * R).
Lemma same_data a : same_li (a_rows a) (data c polyfit a).
Proof.
  unfold same_li, data, unslope, load. destruct (a_three a), (a_sub a); simpl;
    try (destruct (polyfit _) as [[[[? ?] ?] ?] ?]); rewrite ?map_map; reflexivity.
Qed.
Lemma data_ok a : file_ok (a_rows a) -> file_ok (data c polyfit a).
Proof. apply same_ok, same_data. Qed.
Lemma lam0_rows a : lam0 c polyfit a = lambda0 (a_rows a).
Proof. symmetry. apply same_lambda0, same_data. Qed.
(** *** The spectrum *)
Lemma omega_pos r : 0 < r_lam r -> 0 < omega_axis c r.
Proof.
  intros. unfold omega_axis. assert (PI > 0) by apply PI_RGT_0. apply Rmult_lt_0_compat; [|apply Rinv_0_lt_compat; auto].
  apply Rmult_lt_0_compat; lra.
Qed.
Lemma omega_anti r s : 0 < r_lam r -> r_lam r < r_lam s -> omega_axis c s < omega_axis c r.
Proof.
  intros A B. unfold omega_axis. assert (PI > 0) by apply PI_RGT_0. apply Rmult_lt_compat_l.
  - apply Rmult_lt_0_compat; lra.
  - apply Rinv_lt_contravar; [apply Rmult_lt_0_compat; lra|auto].
Qed.
Lemma omega_nodup l : (forall r, In r l -> 0 < r_lam r) -> NoDup (map r_lam l) -> NoDup (map (omega_axis c) l).
Proof.
  induction l as [|r l IH]; simpl; intros P H; [constructor|]. inversion H; subst. constructor; [|apply IH; auto].
  rewrite in_map_iff. intros [s [E Hs]]. apply H2. rewrite in_map_iff. exists s. split; [|auto].
  assert (Pr := P r (or_introl eq_refl)). assert (Ps := P s (or_intror Hs)).
  destruct (Rtotal_order (r_lam s) (r_lam r)) as [L|[L|L]]; [|auto|].
  - assert (A := omega_anti s r Ps L). lra.
  - assert (A := omega_anti r s Pr L). lra.
Qed.
Lemma pts_nodup {V} l (f : row -> V) : file_ok l -> NoDup (map fst (map (fun r => (omega_axis c r, f r)) l)).
Proof.
  intros H. rewrite map_map. simpl. change (fun x : row => omega_axis c x) with (omega_axis c). apply omega_nodup; [|apply file_nodup; auto].
  destruct H as (_ & _ & P & _). intros r Hr. destruct (P r Hr); auto.
Qed.
Lemma pts_at l f r : file_ok l -> In r l -> interp1d 0 linR (map (fun r => (omega_axis c r, f r)) l) (omega_axis c r) = f r.
Proof.
  intros H Hr. apply (node 0 linR linR_l linR_r _ (pts_nodup l f H)) with (p := (omega_axis c r, f r)).
  - rewrite map_length. apply H.
  - apply in_map_iff. exists r; auto.
Qed.
Lemma pts_between l f r s w : file_ok l -> neighbours l r s -> omega_axis c s <= w <= omega_axis c r ->
  interp1d 0 linR (map (fun r => (omega_axis c r, f r)) l) w
  = ((omega_axis c r - w) * f s + (w - omega_axis c s) * f r) / (omega_axis c r - omega_axis c s).
Proof.
  intros H (Hr & Hs & L & N) W. destruct H as (H0 & H1 & P & H3).
  assert (H : file_ok l) by (unfold file_ok; auto).
  assert (O := omega_anti r s (proj1 (P r Hr)) L).
  rewrite (between 0 linR linR_l linR_r _ (pts_nodup l f H) (omega_axis c s, f s) (omega_axis c r, f r)); simpl; auto.
  - unfold linR. field. lra.
  - apply in_map_iff. exists s; auto.
  - apply in_map_iff. exists r; auto.
  - intros q Hq [Q1 Q2]. apply in_map_iff in Hq. destruct Hq as [u [<- Hu]]. simpl in *. apply (N u Hu). split.
    + destruct (Rlt_dec (r_lam r) (r_lam u)) as [|G]; [auto|]. exfalso. destruct (Req_dec (r_lam u) (r_lam r)) as [E|E].
      * unfold omega_axis in Q2. rewrite E in Q2. lra.
      * assert (A := omega_anti u r (proj1 (P u Hu)) ltac:(lra)). lra.
    + destruct (Rlt_dec (r_lam u) (r_lam s)) as [|G]; [auto|]. exfalso. destruct (Req_dec (r_lam u) (r_lam s)) as [E|E].
      * unfold omega_axis in Q1. rewrite E in Q1. lra.
      * assert (A := omega_anti s u (proj1 (P s Hs)) ltac:(lra)). lra.
Qed.
Lemma pts_out l f w : file_ok l -> (forall r, In r l -> w < omega_axis c r) \/ (forall r, In r l -> omega_axis c r < w) ->
  interp1d 0 linR (map (fun r => (omega_axis c r, f r)) l) w = 0.
Proof.
  intros H W. apply outside; [apply pts_nodup; auto|intro E; apply map_eq_nil in E; apply (file_nonempty _ H); auto|].
  destruct W as [W|W]; [left|right]; intros p Hp; apply in_map_iff in Hp; destruct Hp as [r [<- Hr]]; simpl; auto.
Qed.
Lemma sqrt_weight r : 0 < r_lam r -> 0 <= r_int r -> sqrt (r_int r * r_lam r ^ 2) = r_lam r * sqrt (r_int r).
Proof.
  intros A B. rewrite sqrt_mult by (auto; apply pow2_ge_0). rewrite sqrt_pow2 by lra. ring.
Qed.
Lemma field_at a r : file_ok (a_rows a) -> In r (data c polyfit a) ->
  spectral_field c polyfit a (omega_axis c r)
  = Cmult (RtoC (r_lam r * sqrt (r_int r))) (cis (chirp c (a_phi2 a) (a_phi3 a) (a_phi4 a) (k0 (a_rows a)) r)).
Proof.
  intros H Hr. assert (D := data_ok a H). unfold spectral_field, inten_fn, phase_fn.
  rewrite !(pts_at _ _ _ D Hr). destruct D as (_ & _ & P & _). destruct (P r Hr).
  rewrite sqrt_weight by auto. unfold k0. rewrite (same_lambda0 _ _ (same_data a)). reflexivity.
Qed.
Lemma field_out a w : file_ok (a_rows a) ->
  (forall r, In r (a_rows a) -> w < omega_axis c r) \/ (forall r, In r (a_rows a) -> omega_axis c r < w) ->
  spectral_field c polyfit a w = RtoC 0.
Proof.
  intros H W. assert (D := data_ok a H). unfold spectral_field, inten_fn. rewrite pts_out; auto.
  - rewrite sqrt_0. ring.
  - destruct W as [W|W]; [left|right]; intros r Hr; destruct (same_in _ _ (same_sym _ _ (same_data a)) r Hr) as [q [Hq [E _]]];
      specialize (W q Hq); unfold omega_axis in *; rewrite E in W; auto.
Qed.
(** *** The grid of times *)
Lemma dt_val a : dt c polyfit a = lambda0 (a_rows a) / 1000 / c.
Proof. unfold dt. rewrite lam0_rows. reflexivity. Qed.
Lemma window_val a : file_ok (a_rows a) -> time_window c polyfit a = 1000 * lambda0 (a_rows a) / c.
Proof. intros H. assert (L := lambda0_pos _ H). unfold time_window. rewrite lam0_rows. field. lra. Qed.
Lemma Nt_val a : file_ok (a_rows a) -> Nt c polyfit a = 1000000%Z.
Proof.
  intros H. assert (L := lambda0_pos _ H). unfold Nt. rewrite window_val, dt_val by auto.
  replace (1000 * lambda0 (a_rows a) / c / (lambda0 (a_rows a) / 1000 / c)) with (IZR 1000000) by (field; lra).
  apply Zrnd_IZR; apply valid_rnd_N.
Qed.
Lemma time_val a j : file_ok (a_rows a) -> c * time_arr c polyfit a j = (IZR j - 500000) * (lambda0 (a_rows a) / 1000).
Proof.
  intros H. unfold time_arr. rewrite window_val, dt_val by auto. field. lra.
Qed.
Lemma omega_val a k : file_ok (a_rows a) -> omega_arr c polyfit a k
  = IZR (if (k <? 500000)%Z then k else (k - 1000000)%Z) * (2 * PI * c / (1000 * lambda0 (a_rows a))).
Proof.
  intros H. assert (L := lambda0_pos _ H). unfold omega_arr, fftfreq. rewrite Nt_val, dt_val by auto.
  change ((1000000 - 1) / 2 + 1)%Z with 500000%Z. field. lra.
Qed.
Lemma nodup_map_in {A B} (f : A -> B) l : (forall x y, In x l -> In y l -> f x = f y -> x = y) -> NoDup l -> NoDup (map f l).
Proof.
  induction l as [|a l IH]; simpl; intros H N; [constructor|]. inversion N; subst. constructor; [|apply IH; auto].
  rewrite in_map_iff. intros [b [E Hb]]. apply H2. rewrite (H a b); auto.
Qed.
Lemma reindex (F : Z -> C) : lsum (fun k => F (if (k <? 500000)%Z then k else (k - 1000000)%Z)) (range 1000000)
  = lsum (fun n => F (n - 500000)%Z) (range 1000000).
Proof.
  rewrite <- (lsum_map F (fun k => if (k <? 500000)%Z then k else (k - 1000000)%Z)).
  rewrite <- (lsum_map F (fun n => (n - 500000)%Z)). apply lsum_perm. apply NoDup_Permutation.
  - apply nodup_map_in; [|apply NoDup_range]. intros x y Hx Hy. apply in_range in Hx, Hy.
    destruct (Z.ltb_spec x 500000), (Z.ltb_spec y 500000); lia.
  - apply FinFun.Injective_map_NoDup; [|apply NoDup_range]. intros x y; lia.
  - intros x. rewrite !in_map_iff. split; intros [y [E Hy]]; apply in_range in Hy.
    + exists (x + 500000)%Z. split; [lia|]. apply in_range. destruct (Z.ltb_spec y 500000); lia.
    + destruct (Z.ltb_spec y 500000).
      * exists (y + 500000)%Z. split; [|apply in_range; lia]. destruct (Z.ltb_spec (y + 500000) 500000); lia.
      * exists (y - 500000)%Z. split; [|apply in_range; lia]. destruct (Z.ltb_spec (y - 500000) 500000); lia.
Qed.
Lemma cis_shift x n : cis (x + 2 * PI * IZR n) = cis x.
Proof.
  destruct n as [|p|p].
  - replace (x + 2 * PI * 0) with x by ring. reflexivity.
  - rewrite <- (positive_nat_Z p), <- INR_IZR_INZ. replace (x + 2 * PI * INR (Pos.to_nat p)) with (x + 2 * INR (Pos.to_nat p) * PI) by ring.
    unfold cis. rewrite cos_period, sin_period. reflexivity.
  - set (y := x + 2 * PI * IZR (Z.neg p)). replace x with (y + 2 * INR (Pos.to_nat p) * PI).
    + unfold cis. rewrite cos_period, sin_period. reflexivity.
    + unfold y. rewrite INR_IZR_INZ, positive_nat_Z. change (Z.neg p) with (- Z.pos p)%Z. rewrite opp_IZR. ring.
Qed.
Lemma raw_val a j : file_ok (a_rows a) ->
  raw_field c polyfit a j = waves c (lambda0 (a_rows a)) (spectral_field c polyfit a) (time_arr c polyfit a j).
Proof.
  intros H. assert (L := lambda0_pos _ H). unfold raw_field, fftshift, np_fft. rewrite Nt_val by auto.
  change (1000000 / 2)%Z with 500000%Z. unfold waves.
  set (dw := 2 * PI * c / (1000 * lambda0 (a_rows a))).
  set (G := fun n => let w := IZR n * dw in Cmult (cis (- (w * time_arr c polyfit a j))) (spectral_field c polyfit a w)).
  change (lsum _ (range 1000000)) with (lsum (fun n => G (n - 500000)%Z) (range 1000000)) at 2.
  rewrite <- (reindex G). apply lsum_ext. intros k Hk. unfold G. rewrite (omega_val a k H). fold dw.
  set (kk := if (k <? 500000)%Z then k else (k - 1000000)%Z). simpl. f_equal.
  assert (T : time_arr c polyfit a j = (IZR j - 500000) * (lambda0 (a_rows a) / 1000) / c).
  { rewrite <- (time_val a j H). field. lra. }
  rewrite T.
  assert (Ek : exists u, k = (kk + 1000000 * u)%Z).
  { unfold kk. destruct (Z.ltb_spec k 500000); [exists 0%Z|exists 1%Z]; lia. }
  destruct Ek as [u Eu].
  assert (Em := Z.div_mod (j - 500000) 1000000 ltac:(lia)).
  set (m := ((j - 500000) mod 1000000)%Z) in *. set (q := ((j - 500000) / 1000000)%Z) in *.
  rewrite Eu.
  assert (EM : (m = j - 500000 - 1000000 * q)%Z) by lia.
  rewrite EM.
  assert (EW : ((j - 500000 - 1000000 * q) * (kk + 1000000 * u) = (j - 500000) * kk + 1000000 * ((j - 500000) * u - q * kk - 1000000 * q * u))%Z) by ring.
  rewrite EW. set (n := ((j - 500000) * u - q * kk - 1000000 * q * u)%Z).
  rewrite <- (cis_shift (- (IZR kk * dw * ((IZR j - 500000) * (lambda0 (a_rows a) / 1000) / c))) (- n)).
  f_equal. rewrite plus_IZR, !mult_IZR, minus_IZR, opp_IZR. unfold dw. field. lra.
Qed.

(** *** The pulse *)
Definition grid_pts a := map (fun j => (IZR (a_prop a) * a_z0 a - c * time_arr c polyfit a j, temporal_field c polyfit a j)) (range (Nt c polyfit a)).
Lemma grid_x a j : file_ok (a_rows a) ->
  IZR (a_prop a) * a_z0 a - c * time_arr c polyfit a j = IZR (a_prop a) * a_z0 a - (IZR j - 500000) * (lambda0 (a_rows a) / 1000).
Proof. intros H. rewrite time_val; auto. Qed.
Lemma grid_nodup a : file_ok (a_rows a) -> NoDup (map fst (grid_pts a)).
Proof.
  intros H. assert (L := lambda0_pos _ H). unfold grid_pts. rewrite map_map. simpl. apply FinFun.Injective_map_NoDup; [|apply NoDup_range].
  intros i j E. rewrite !grid_x in E by auto. apply eq_IZR.
  assert (E' : (IZR i - IZR j) * (lambda0 (a_rows a) / 1000) = 0) by lra.
  apply Rmult_integral in E'. destruct E'; lra.
Qed.
Lemma evaluate_between a z t j s : file_ok (a_rows a) -> (0 <= j < 999999)%Z -> 0 <= s <= 1 ->
  c * t - IZR (a_prop a) * (z - a_z0 a) = (IZR j + s - 500000) * (lambda0 (a_rows a) / 1000) ->
  evaluate c polyfit a z t
  = Cplus (Cmult (RtoC (1 - s)) (temporal_field c polyfit a j)) (Cmult (RtoC s) (temporal_field c polyfit a (j + 1))).
Proof.
  intros H Hj Hs E. assert (L := lambda0_pos _ H). unfold evaluate. fold (grid_pts a).
  set (d := lambda0 (a_rows a) / 1000) in *. assert (D : 0 < d) by (unfold d; lra).
  set (X := fun j => IZR (a_prop a) * a_z0 a - (IZR j - 500000) * d).
  assert (M : forall i, (0 <= i < 1000000)%Z -> In (X i, temporal_field c polyfit a i) (grid_pts a)).
  { intros i Hi. unfold grid_pts. apply in_map_iff. exists i. split; [|apply in_range; rewrite Nt_val by auto; exact Hi].
    rewrite grid_x by auto. reflexivity. }
  rewrite (between (RtoC 0) linC linC_l linC_r _ (grid_nodup a H) (X (j + 1)%Z, temporal_field c polyfit a (j + 1)) (X j, temporal_field c polyfit a j)); simpl.
  - assert (XX : X j - X (j + 1)%Z = d) by (unfold X; rewrite plus_IZR; ring).
    rewrite linC_comb by lra. rewrite XX.
    replace (IZR (a_prop a) * z - c * t) with (X j - s * d) by (unfold X; lra).
    replace ((X j - (X j - s * d)) / d) with s by (field; lra).
    replace ((X j - s * d - X (j + 1)%Z) / d) with (1 - s).
    + ring.
    + replace (X j - s * d - X (j + 1)%Z) with (d - s * d) by lra. field. lra.
  - apply M; lia.
  - apply M; lia.
  - unfold X. rewrite plus_IZR. lra.
  - intros r Hr [R1 R2]. unfold grid_pts in Hr. apply in_map_iff in Hr. destruct Hr as [i [<- _]]. simpl in *.
    rewrite grid_x in R1, R2 by auto. fold d in R1, R2. unfold X in R1, R2.
    assert (IZR j < IZR i) by (apply Rmult_lt_reg_r with d; [auto|lra]).
    assert (IZR i < IZR (j + 1)) by (apply Rmult_lt_reg_r with d; [auto|lra]).
    apply lt_IZR in H0, H1. lia.
  - replace (IZR (a_prop a) * z - c * t) with (X j - s * d) by (unfold X; lra).
    unfold X. rewrite plus_IZR. assert (0 <= s * d) by (apply Rmult_le_pos; lra).
    assert (s * d <= 1 * d) by (apply Rmult_le_compat_r; lra). lra.
Qed.
Lemma evaluate_out a z t : file_ok (a_rows a) ->
  c * t - IZR (a_prop a) * (z - a_z0 a) < - 500 * lambda0 (a_rows a) \/ 500 * lambda0 (a_rows a) <= c * t - IZR (a_prop a) * (z - a_z0 a) ->
  evaluate c polyfit a z t = RtoC 0.
Proof.
  intros H O. assert (L := lambda0_pos _ H). unfold evaluate. fold (grid_pts a). apply outside.
  - apply grid_nodup; auto.
  - unfold grid_pts. rewrite Nt_val by auto. intro E.
    assert (F : In (IZR (a_prop a) * a_z0 a - c * time_arr c polyfit a 0, temporal_field c polyfit a 0)
      (map (fun j => (IZR (a_prop a) * a_z0 a - c * time_arr c polyfit a j, temporal_field c polyfit a j)) (range 1000000))).
    { apply in_map_iff. exists 0%Z. split; [reflexivity|apply in_range; lia]. }
    rewrite E in F. destruct F.
  - destruct O as [O|O]; [right|left]; intros p Hp; unfold grid_pts in Hp; apply in_map_iff in Hp; destruct Hp as [j [<- Hj]];
      apply in_range in Hj; rewrite Nt_val in Hj by auto; simpl; rewrite grid_x by auto.
    + assert (0 <= IZR j) by (apply IZR_le; lia). 
      assert (- 500 * lambda0 (a_rows a) <= (IZR j - 500000) * (lambda0 (a_rows a) / 1000)).
      { replace (- 500 * lambda0 (a_rows a)) with ((0 - 500000) * (lambda0 (a_rows a) / 1000)) by field. apply Rmult_le_compat_r; lra. }
      lra.
    + assert (IZR j < 1000000) by (apply IZR_lt; lia).
      assert ((IZR j - 500000) * (lambda0 (a_rows a) / 1000) < 500 * lambda0 (a_rows a)).
      { replace (500 * lambda0 (a_rows a)) with ((1000000 - 500000) * (lambda0 (a_rows a) / 1000)) by field. apply Rmult_lt_compat_r; lra. }
      lra.
Qed.
Lemma max_abs_ge n f j : (0 <= j < n)%Z -> Cmod (f j) <= max_abs n f.
Proof.
  intros H. unfold max_abs. assert (I := proj2 (in_range n j) H). induction (range n) as [|i l IH]; [destruct I|].
  simpl. destruct I as [->|I]; [apply Rmax_l|]. eapply Rle_trans; [apply IH; auto|apply Rmax_r].
Qed.
Lemma max_abs_att n f : 0 < max_abs n f -> exists j, (0 <= j < n)%Z /\ Cmod (f j) = max_abs n f.
Proof.
  unfold max_abs. intros H. assert (E : exists j, In j (range n) /\ Cmod (f j) = fold_right Rmax 0 (map (fun j => Cmod (f j)) (range n))).
  { induction (range n) as [|i l IH]; simpl in *; [lra|]. unfold Rmax in *. destruct (Rle_dec _ _).
    - destruct IH as [j [Hj Ej]]; [auto|]. exists j; auto.
    - exists i; auto. }
  destruct E as [j [Hj Ej]]. exists j. split; [apply in_range; auto|auto].
Qed.
Lemma temporal_le a j : file_ok (a_rows a) -> (0 <= j < 1000000)%Z -> 0 < max_abs 1000000 (raw_field c polyfit a) -> Cmod (temporal_field c polyfit a j) <= 1.
Proof.
  intros H Hj M. unfold temporal_field. rewrite Nt_val by auto. rewrite Cmod_div by (intro E; apply RtoC_inj in E; lra).
  rewrite Cmod_R, Rabs_pos_eq by lra. apply Rmult_le_reg_r with (max_abs 1000000 (raw_field c polyfit a)); [auto|].
  unfold Rdiv. rewrite Rmult_assoc, Rinv_l by lra. assert (A := max_abs_ge 1000000 (raw_field c polyfit a) j Hj). lra.
Qed.
Lemma evaluate_le a z t : file_ok (a_rows a) -> 0 < max_abs 1000000 (raw_field c polyfit a) -> Cmod (evaluate c polyfit a z t) <= 1.
Proof.
  intros H M. unfold evaluate. fold (grid_pts a). apply (convex (RtoC 0) linC (fun v => Cmod v <= 1)).
  - intros. apply linC_ball; auto.
  - rewrite Cmod_0. lra.
  - apply grid_nodup; auto.
  - intros p Hp. unfold grid_pts in Hp. apply in_map_iff in Hp. destruct Hp as [j [<- Hj]]. apply in_range in Hj.
    rewrite Nt_val in Hj by auto. simpl. apply temporal_le; auto.
Qed.
Lemma evaluate_one a t : file_ok (a_rows a) -> 0 < max_abs 1000000 (raw_field c polyfit a) -> a_prop a = 1%Z \/ a_prop a = (-1)%Z ->
  exists z, Cmod (evaluate c polyfit a z t) = 1.
Proof.
  intros H M P. destruct (max_abs_att _ _ M) as [j [Hj Ej]]. assert (L := lambda0_pos _ H).
  assert (T : Cmod (temporal_field c polyfit a j) = 1).
  { unfold temporal_field. rewrite Nt_val by auto. rewrite Cmod_div by (intro E; apply RtoC_inj in E; lra).
    rewrite Cmod_R, Rabs_pos_eq by lra. rewrite Ej. field. lra. }
  set (d := lambda0 (a_rows a) / 1000).
  exists (a_z0 a + IZR (a_prop a) * (c * t - (IZR j - 500000) * d)).
  assert (PP : IZR (a_prop a) * IZR (a_prop a) = 1) by (destruct P as [-> | ->]; simpl; lra).
  assert (X : c * t - IZR (a_prop a) * (a_z0 a + IZR (a_prop a) * (c * t - (IZR j - 500000) * d) - a_z0 a) = (IZR j - 500000) * d).
  { replace (IZR (a_prop a) * (a_z0 a + IZR (a_prop a) * (c * t - (IZR j - 500000) * d) - a_z0 a)) with (IZR (a_prop a) * IZR (a_prop a) * (c * t - (IZR j - 500000) * d)) by ring.
    rewrite PP. ring. }
  destruct (Z.eq_dec j 999999) as [Ej9|Ej9].
  - rewrite (evaluate_between a _ t 999998 1 H); [|lia|lra|rewrite X; unfold d; subst j; lra].
    change (999998 + 1)%Z with 999999%Z. rewrite <- Ej9. replace (1 - 1) with 0 by ring. transitivity (Cmod (temporal_field c polyfit a j)); [f_equal; ring|exact T].
  - rewrite (evaluate_between a _ t j 0 H); [|lia|lra|rewrite X; unfold d; lra].
    replace (1 - 0) with 1 by ring. transitivity (Cmod (temporal_field c polyfit a j)); [f_equal; ring|exact T].
Qed.
(** A spectrum that is not 0 at the mean wavelength gives a pulse. *)
Lemma raw_nonzero a : file_ok (a_rows a) -> 0 < inten_fn c polyfit a (2 * PI * c / lambda0 (a_rows a)) -> 0 < max_abs 1000000 (raw_field c polyfit a).
Proof.
  intros H I. assert (L := lambda0_pos _ H). set (N := 1000000%Z) in *.
  destruct (Rlt_dec 0 (max_abs N (raw_field c polyfit a))) as [G|G]; [exact G|]. exfalso.
  assert (Z0 : forall j, (0 <= j < N)%Z -> raw_field c polyfit a j = RtoC 0).
  { intros j Hj. apply Cmod_eq_0. assert (A := max_abs_ge N (raw_field c polyfit a) j Hj).
    assert (B := Cmod_ge_0 (raw_field c polyfit a j)). lra. }
  set (f := fun k (_ : Z) => spectral_field c polyfit a (omega_arr c polyfit a k)).
  assert (F0 : forall j, (0 <= j < N)%Z -> fft N f j 0%Z = RtoC 0).
  { intros j Hj. rewrite <- (Z0 ((j + N / 2) mod N)%Z) by (apply Z.mod_pos_bound; reflexivity).
    unfold raw_field, fftshift. rewrite (Nt_val a H). fold N.
    assert (E : (((j + N / 2) mod N - N / 2) mod N = j)%Z).
    { rewrite Zminus_mod_idemp_l. replace (j + N / 2 - N / 2)%Z with j by ring. apply Z.mod_small; auto. }
    rewrite E. reflexivity. }
  assert (K := ifft_fft N f 1000 0 ltac:(unfold N; lia)).
  rewrite (ifft_ext N (fft N f) (fun _ _ => RtoC 0)) in K by auto.
  assert (K0 : ifft N (fun _ _ : Z => RtoC 0) 1000 0 = RtoC 0).
  { unfold ifft. rewrite lsum_zero; [ring|]. intros. ring. }
  rewrite K0 in K. unfold f in K. rewrite (omega_val a 1000 H) in K.
  change (if (1000 <? 500000)%Z then 1000%Z else (1000 - 1000000)%Z) with 1000%Z in K.
  replace (1000 * (2 * PI * c / (1000 * lambda0 (a_rows a)))) with (2 * PI * c / lambda0 (a_rows a)) in K by (field; lra).
  assert (KM := f_equal Cmod K). rewrite Cmod_0 in KM. unfold spectral_field in KM. rewrite Cmod_mult, Cmod_R, Cmod_cis in KM.
  rewrite Rabs_pos_eq in KM by apply sqrt_pos. assert (S := sqrt_lt_R0 _ I). lra.
Qed.
Lemma inten_pos a : file_ok (a_rows a) -> (forall r, In r (a_rows a) -> 0 < r_int r) ->
  0 < inten_fn c polyfit a (2 * PI * c / lambda0 (a_rows a)).
Proof.
  intros H P. assert (D := data_ok a H). unfold inten_fn. assert (L := lambda0_pos _ H).
  assert (PI > 0) by apply PI_RGT_0.
  apply (convex_in 0 linR linR_l linR_r (fun v => 0 < v)).
  - intros. apply linR_pos; auto.
  - apply pts_nodup; auto.
  - rewrite map_length. apply D.
  - intros p Hp. apply in_map_iff in Hp. destruct Hp as [r [<- Hr]]. simpl.
    destruct (same_in _ _ (same_sym _ _ (same_data a)) r Hr) as [q [Hq [E1 E2]]].
    apply Rmult_lt_0_compat; [rewrite <- E2; apply P; auto|]. destruct D as (_ & _ & D & _). destruct (D r Hr).
    apply Rmult_lt_0_compat; lra.
  - destruct (greatest _ (file_nonempty _ D)) as [m [Hm Lm]]. exists (omega_axis c m, r_int m * r_lam m ^ 2).
    split; [apply in_map_iff; exists m; auto|]. simpl.
    assert (B := lambda0_bounds _ 0 (r_lam m) D (fun r Hr => conj (Rlt_le _ _ (proj1 (proj1 (proj2 (proj2 D)) r Hr))) (Lm r Hr))).
    rewrite <- (same_lambda0 _ _ (same_data a)) in B. unfold omega_axis. apply Rmult_le_compat_l.
    + apply Rmult_le_pos; lra.
    + apply Rinv_le_contravar; lra.
  - destruct (least _ (file_nonempty _ D)) as [m [Hm Lm]]. destruct (greatest _ (file_nonempty _ D)) as [M [HM LM]].
    exists (omega_axis c m, r_int m * r_lam m ^ 2).
    split; [apply in_map_iff; exists m; auto|]. simpl.
    assert (B := lambda0_bounds _ (r_lam m) (r_lam M) D (fun r Hr => conj (Lm r Hr) (LM r Hr))).
    rewrite <- (same_lambda0 _ _ (same_data a)) in B. unfold omega_axis. apply Rmult_le_compat_l.
    + apply Rmult_le_pos; lra.
    + assert (X := proj1 (proj1 (proj2 (proj2 D)) m Hm)). apply Rinv_le_contravar; lra.
Qed.
(** *** The integral *)
Lemma trapz_even (X y : Z -> R) d : (forall j, X (j + 1)%Z = X j + d) -> forall n, (0 <= n)%Z ->
  trapz (map (fun j => (X j, y j)) (range (n + 1))) = d * (rsum y (range (n + 1)) - (y 0%Z + y n) / 2).
Proof.
  intros HX. apply natlike_ind.
  - simpl. lra.
  - intros n Hn IH. rewrite <- Z.add_1_r. rewrite (range_succ (n + 1)) by lia. rewrite map_app. rewrite (range_succ n Hn) in *.
    rewrite !map_app in *. simpl in *. rewrite <- app_assoc. simpl. rewrite trapz_app_last. rewrite IH. simpl. rewrite HX.
    assert (RS : forall l m, rsum y (l ++ m) = rsum y l + rsum y m).
    { induction l as [|b l IHl]; intros m; simpl; [lra|]. rewrite IHl. lra. }
    rewrite !RS. simpl. lra.
Qed.
Lemma integral_val a : file_ok (a_rows a) -> squared_profile_integral c polyfit a
  = lambda0 (a_rows a) / 1000 * (rsum (fun j => Cmod (temporal_field c polyfit a j) ^ 2) (range 1000000)
      - (Cmod (temporal_field c polyfit a 0) ^ 2 + Cmod (temporal_field c polyfit a 999999) ^ 2) / 2).
Proof.
  intros H. unfold squared_profile_integral. rewrite Nt_val by auto.
  apply (trapz_even (fun j => c * time_arr c polyfit a j) (fun j => Cmod (temporal_field c polyfit a j) ^ 2) (lambda0 (a_rows a) / 1000)) with (n := 999999%Z); [|lia].
  intros j. rewrite !time_val by auto. rewrite plus_IZR. ring.
Qed.
(** *** Linear phase *)
Lemma five_zeros a4 a3 a2 a1 a0 x1 x2 x3 x4 x5 :
  NoDup [x1; x2; x3; x4; x5] ->
  (forall x, In x [x1; x2; x3; x4; x5] -> poly (a4, a3, a2, a1, a0) x = 0) -> a4 = 0 /\ a3 = 0 /\ a2 = 0 /\ a1 = 0 /\ a0 = 0.
Proof.
  intros N Z. assert (Z1 := Z x1 ltac:(simpl; tauto)). assert (Z2 := Z x2 ltac:(simpl; tauto)). assert (Z3 := Z x3 ltac:(simpl; tauto)).
  assert (Z4 := Z x4 ltac:(simpl; tauto)). assert (Z5 := Z x5 ltac:(simpl; tauto)). clear Z. unfold poly in *.
  assert (n12 : x2 - x1 <> 0 /\ x3 - x1 <> 0 /\ x4 - x1 <> 0 /\ x5 - x1 <> 0 /\ x3 - x2 <> 0 /\ x4 - x2 <> 0 /\ x5 - x2 <> 0 /\ x4 - x3 <> 0 /\ x5 - x3 <> 0 /\ x5 - x4 <> 0).
  { inversion N as [|? ? N1 M1]; subst. inversion M1 as [|? ? N2 M2]; subst. inversion M2 as [|? ? N3 M3]; subst. inversion M3 as [|? ? N4 M4]; subst. simpl in *.
    repeat split; intro E; [apply N1|apply N1|apply N1|apply N1|apply N2|apply N2|apply N2|apply N3|apply N3|apply N4];
      [left|right; left|right; right; left|right; right; right; left|left|right; left|right; right; left|left|right; left|left]; lra. }
  destruct n12 as (d1 & d2 & d3 & d4 & d5 & d6 & d7 & d8 & d9 & d10).
  set (q := fun x y => a4 * (x ^ 3 + x ^ 2 * y + x * y ^ 2 + y ^ 3) + a3 * (x ^ 2 + x * y + y ^ 2) + a2 * (x + y) + a1).
  assert (Q : forall y, y - x1 <> 0 -> a4 * y ^ 4 + a3 * y ^ 3 + a2 * y ^ 2 + a1 * y + a0 = 0 -> q x1 y = 0).
  { intros y D E. apply Rmult_eq_reg_l with (y - x1); [|auto]. unfold q.
    transitivity ((a4 * y ^ 4 + a3 * y ^ 3 + a2 * y ^ 2 + a1 * y + a0) - (a4 * x1 ^ 4 + a3 * x1 ^ 3 + a2 * x1 ^ 2 + a1 * x1 + a0)); [ring|lra]. }
  assert (q2 := Q x2 d1 Z2). assert (q3 := Q x3 d2 Z3). assert (q4 := Q x4 d3 Z4). assert (q5 := Q x5 d4 Z5). unfold q in *.
  assert (R3 : forall y, y - x2 <> 0 -> a4 * (x1 ^ 3 + x1 ^ 2 * y + x1 * y ^ 2 + y ^ 3) + a3 * (x1 ^ 2 + x1 * y + y ^ 2) + a2 * (x1 + y) + a1 = 0 ->
     a4 * (x1 ^ 2 + x1 * (y + x2) + y ^ 2 + y * x2 + x2 ^ 2) + a3 * (x1 + x2 + y) + a2 = 0).
  { intros y D E. apply Rmult_eq_reg_l with (y - x2); [|auto].
    transitivity ((a4 * (x1 ^ 3 + x1 ^ 2 * y + x1 * y ^ 2 + y ^ 3) + a3 * (x1 ^ 2 + x1 * y + y ^ 2) + a2 * (x1 + y) + a1)
     - (a4 * (x1 ^ 3 + x1 ^ 2 * x2 + x1 * x2 ^ 2 + x2 ^ 3) + a3 * (x1 ^ 2 + x1 * x2 + x2 ^ 2) + a2 * (x1 + x2) + a1)); [ring|lra]. }
  assert (r3 := R3 x3 d5 q3). assert (r4 := R3 x4 d6 q4). assert (r5 := R3 x5 d7 q5). 
  assert (s4 : a4 * (x1 + x2 + x3 + x4) + a3 = 0).
  { apply Rmult_eq_reg_l with (x4 - x3); [|auto].
    transitivity ((a4 * (x1 ^ 2 + x1 * (x4 + x2) + x4 ^ 2 + x4 * x2 + x2 ^ 2) + a3 * (x1 + x2 + x4) + a2) - (a4 * (x1 ^ 2 + x1 * (x3 + x2) + x3 ^ 2 + x3 * x2 + x2 ^ 2) + a3 * (x1 + x2 + x3) + a2)); [ring|lra]. }
  assert (s5 : a4 * (x1 + x2 + x3 + x5) + a3 = 0).
  { apply Rmult_eq_reg_l with (x5 - x3); [|auto].
    transitivity ((a4 * (x1 ^ 2 + x1 * (x5 + x2) + x5 ^ 2 + x5 * x2 + x2 ^ 2) + a3 * (x1 + x2 + x5) + a2) - (a4 * (x1 ^ 2 + x1 * (x3 + x2) + x3 ^ 2 + x3 * x2 + x2 ^ 2) + a3 * (x1 + x2 + x3) + a2)); [ring|lra]. }
  assert (e4 : a4 = 0).
  { apply Rmult_eq_reg_l with (x5 - x4); [|auto]. transitivity ((a4 * (x1 + x2 + x3 + x5) + a3) - (a4 * (x1 + x2 + x3 + x4) + a3)); [ring|lra]. }
  subst a4. assert (a3 = 0) by lra. subst a3. assert (a2 = 0) by lra. subst a2. assert (a1 = 0) by lra. subst a1. repeat split; lra.
Qed.
Lemma misfit_cons p b l : misfit p (b :: l) = (snd b - poly p (fst b)) ^ 2 + misfit p l.
Proof. reflexivity. Qed.
Lemma misfit_nonneg p l : 0 <= misfit p l.
Proof.
  induction l as [|q l IH]; [unfold misfit; simpl; lra|]. rewrite misfit_cons. assert (A := pow2_ge_0 (snd q - poly p (fst q))). lra.
Qed.
Lemma misfit_0 p l : misfit p l <= 0 -> forall q, In q l -> snd q = poly p (fst q).
Proof.
  induction l as [|b l IH]; intros H q Hq; [destruct Hq|]. rewrite misfit_cons in H.
  assert (A := pow2_ge_0 (snd b - poly p (fst b))). assert (B := misfit_nonneg p l).
  destruct Hq as [<-|Hq].
  - assert (E : (snd b - poly p (fst b)) * (snd b - poly p (fst b)) = 0) by lra. apply Rmult_integral in E. destruct E; lra.
  - apply IH; auto. lra.
Qed.
Lemma misfit_exact p l : (forall q, In q l -> snd q = poly p (fst q)) -> misfit p l = 0.
Proof.
  induction l as [|b l IH]; intros H; [reflexivity|]. rewrite misfit_cons, IH by (intros; apply H; right; auto).
  rewrite (H b) by (left; auto). ring.
Qed.
(** The fit of points of a polynomial of degree 4, five of them at least, is this polynomial. *)
Lemma fit_exact l p : fits polyfit l -> NoDup (map fst l) -> (5 <= length l)%nat -> (forall q, In q l -> snd q = poly p (fst q)) -> polyfit l = p.
Proof.
  intros F N Len E. assert (M := F p). rewrite (misfit_exact p l E) in M. assert (E2 := misfit_0 _ _ M).
  destruct (polyfit l) as [[[[b4 b3] b2] b1] b0]. destruct p as [[[[a4 a3] a2] a1] a0].
  destruct l as [|p1 [|p2 [|p3 [|p4 [|p5 l]]]]]; simpl in Len; try lia.
  assert (Z := five_zeros (b4 - a4) (b3 - a3) (b2 - a2) (b1 - a1) (b0 - a0) (fst p1) (fst p2) (fst p3) (fst p4) (fst p5)).
  destruct Z as (Z4 & Z3 & Z2 & Z1 & Z0).
  - change (map fst (p1 :: p2 :: p3 :: p4 :: p5 :: l)) with ([fst p1; fst p2; fst p3; fst p4; fst p5] ++ map fst l) in N.
    revert N. generalize [fst p1; fst p2; fst p3; fst p4; fst p5]. intros h.
    induction h as [|x h IH]; intros Nd; [constructor|]. inversion Nd; subst. constructor; [|auto]. intro; apply H1, in_or_app; auto.
  - intros x Hx. assert (A : exists q, In q (p1 :: p2 :: p3 :: p4 :: p5 :: l) /\ fst q = x).
    { simpl in Hx. destruct Hx as [<-|[<-|[<-|[<-|[<-|[]]]]]];
        [exists p1|exists p2|exists p3|exists p4|exists p5]; (split; [simpl; tauto|reflexivity]). }
    destruct A as [q [Hq <-]]. assert (A1 := E q Hq). assert (A2 := E2 q Hq). unfold poly in *. lra.
  - repeat f_equal; lra.
Qed.
Lemma unslope_exact a p r : file_ok (a_rows a) -> (5 <= length (a_rows a))%nat -> a_three a = true -> a_sub a = true ->
  fits polyfit (map (fun r => (omega_axis c r, r_ph r)) (a_rows a)) ->
  (forall r, In r (a_rows a) -> r_ph r = poly p (omega_axis c r)) -> In r (data c polyfit a) ->
  r_ph r = poly p (omega_axis c r) - poly' p 0 * omega_axis c r.
Proof.
  intros H Len T Sb F E Hr. unfold data, unslope, load in Hr. rewrite T, Sb in Hr.
  rewrite (fit_exact _ p F) in Hr.
  - destruct p as [[[[a4 a3] a2] a1] a0]. apply in_map_iff in Hr. destruct Hr as [q [<- Hq]]. simpl. rewrite (E q Hq).
    unfold omega_axis; simpl. ring.
  - apply pts_nodup; auto.
  - rewrite map_length. auto.
  - intros q Hq. apply in_map_iff in Hq. destruct Hq as [s [<- Hs]]. simpl. auto.
Qed.
End P.
(** *** A spectrum of two narrow lines *)
Definition two_lines (L : R) : list row :=
  [ mk_row ((9999 / 10000) * L) 0 0; mk_row L 1 0; mk_row ((10001 / 10000) * L) 0 0;
    mk_row ((10009 / 10000) * L) 0 0; mk_row ((1001 / 1000) * L) 1 0; mk_row ((10011 / 10000) * L) 0 0 ].
Lemma two_lines_ok L : 0 < L -> file_ok (two_lines L).
Proof.
  intros H. split; [simpl; lia|]. split; [left; simpl; repeat split; lra|]. split.
  - intros r Hr. simpl in Hr. destruct Hr as [<-|[<-|[<-|[<-|[<-|[<-|[]]]]]]]; simpl; lra.
  - exists (mk_row L 1 0). split; [simpl; tauto|simpl; lra].
Qed.
Lemma two_lines_mean L : 0 < L -> lambda0 (two_lines L) = (10005 / 10000) * L.
Proof. intros H. unfold lambda0, two_lines. simpl. field. lra. Qed.
Lemma two_lines_dark c polyfit L a : 0 < c -> 0 < L -> a_rows a = two_lines L ->
  forall j, raw_field c polyfit a j = RtoC 0.
Proof.
  intros Hc HL E j. assert (K : file_ok (a_rows a)) by (rewrite E; apply two_lines_ok; auto).
  assert (P0 : PI > 0) by apply PI_RGT_0.
  rewrite (raw_val c Hc polyfit a j K). unfold waves. apply lsum_zero. intros n Hn. apply in_range in Hn.
  rewrite E, two_lines_mean by auto. set (m := (n - 500000)%Z). cbv zeta.
  set (w := IZR m * (2 * PI * c / (1000 * ((10005 / 10000) * L)))).
  assert (S0 : spectral_field c polyfit a w = RtoC 0); [|rewrite S0; ring].
  assert (PC : 0 < 2 * PI * c) by (apply Rmult_lt_0_compat; lra).
  assert (W : forall x, 0 < x -> 2 * PI * c / (x * L) - w = 2 * PI * c / L * (1 / x - IZR m * 10 / 10005)).
  { intros x Hx. unfold w. field. repeat split; lra. }
  assert (PL : 0 < 2 * PI * c / L) by (apply Rmult_lt_0_compat; [auto|apply Rinv_0_lt_compat; auto]).
  assert (CMP : forall x, 0 < x -> IZR m * x < (10005 / 10) -> w < 2 * PI * c / (x * L)).
  { intros x Hx I. assert (A := W x Hx). assert (0 < 1 / x - IZR m * 10 / 10005).
    { replace (1 / x - IZR m * 10 / 10005) with ((10005 / 10 - IZR m * x) * (10 * / (10005 * x))) by (field; lra).
      apply Rmult_lt_0_compat; [lra|apply Rmult_lt_0_compat; [lra|apply Rinv_0_lt_compat; lra]]. }
    assert (0 < 2 * PI * c / L * (1 / x - IZR m * 10 / 10005)) by (apply Rmult_lt_0_compat; auto). lra. }
  assert (CMP' : forall x, 0 < x -> (10005 / 10) < IZR m * x -> 2 * PI * c / (x * L) < w).
  { intros x Hx I. assert (A := W x Hx). assert (0 < IZR m * 10 / 10005 - 1 / x).
    { replace (IZR m * 10 / 10005 - 1 / x) with ((IZR m * x - 10005 / 10) * (10 * / (10005 * x))) by (field; lra).
      apply Rmult_lt_0_compat; [lra|apply Rmult_lt_0_compat; [lra|apply Rinv_0_lt_compat; lra]]. }
    assert (0 < 2 * PI * c / L * (IZR m * 10 / 10005 - 1 / x)) by (apply Rmult_lt_0_compat; auto).
    replace (2 * PI * c / L * (1 / x - IZR m * 10 / 10005)) with (- (2 * PI * c / L * (IZR m * 10 / 10005 - 1 / x))) in A by ring. lra. }
  destruct (Z_lt_ge_dec m 1000) as [M|M]; [|destruct (Z.eq_dec m 1000) as [M'|M']].
  - apply field_out; auto. left. intros r Hr. rewrite E in Hr. assert (I : IZR m <= 999) by (apply IZR_le; lia).
    assert (G : exists x, 0 < x <= (10011 / 10000) /\ r_lam r = x * L).
    { simpl in Hr. destruct Hr as [<-|[<-|[<-|[<-|[<-|[<-|[]]]]]]]; simpl;
        [exists (9999 / 10000)|exists 1|exists (10001 / 10000)|exists (10009 / 10000)|exists (1001 / 1000)|exists (10011 / 10000)]; split; lra. }
    destruct G as [x [G1 G2]]; unfold omega_axis; rewrite G2.
    apply CMP; [lra|]. destruct (Rle_dec (IZR m) 0).
    + assert (IZR m * x <= 0 * x) by (apply Rmult_le_compat_r; lra). lra.
    + assert (IZR m * x <= 999 * x) by (apply Rmult_le_compat_r; lra). lra.
  - assert (N0 : neighbours (data c polyfit a) (mk_row ((10001 / 10000) * L) 0 (r_ph (nth 2 (data c polyfit a) (mk_row 0 0 0))))
                (mk_row ((10009 / 10000) * L) 0 (r_ph (nth 3 (data c polyfit a) (mk_row 0 0 0))))).
    { assert (SD := same_data c polyfit a). rewrite E in SD. unfold same_li, two_lines in SD.
      destruct (data c polyfit a) as [|r1 [|r2 [|r3 [|r4 [|r5 [|r6 [|? ?]]]]]]]; try discriminate. simpl in SD.
      injection SD as E1 F1 E2 F2 E3 F3 E4 F4 E5 F5 E6 F6. simpl. unfold neighbours.
      split; [simpl; right; right; left; destruct r3; simpl in *; subst; reflexivity|].
      split; [simpl; right; right; right; left; destruct r4; simpl in *; subst; reflexivity|].
      split; [simpl; lra|]. intros q Hq. simpl in *. destruct Hq as [<-|[<-|[<-|[<-|[<-|[<-|[]]]]]]]; lra. }
    assert (D := data_ok c polyfit a K). unfold spectral_field, inten_fn.
    rewrite (pts_between c Hc _ _ _ _ w D N0).
    + simpl. replace (_ / _) with 0; [rewrite sqrt_0; ring|]. unfold Rdiv. ring.
    + unfold omega_axis; simpl. assert (I : IZR m = 1000) by (rewrite M'; reflexivity).
      split; left; [apply CMP'|apply CMP]; rewrite ?I; lra.
  - apply field_out; auto. right. intros r Hr. rewrite E in Hr. assert (I : 1001 <= IZR m) by (apply IZR_le; lia).
    assert (G : exists x, (9999 / 10000) <= x /\ r_lam r = x * L).
    { simpl in Hr. destruct Hr as [<-|[<-|[<-|[<-|[<-|[<-|[]]]]]]]; simpl;
        [exists (9999 / 10000)|exists 1|exists (10001 / 10000)|exists (10009 / 10000)|exists (1001 / 1000)|exists (10011 / 10000)]; split; lra. }
    destruct G as [x [G1 G2]]; unfold omega_axis; rewrite G2.
    apply CMP'; [lra|]. assert (1001 * (9999 / 10000) <= IZR m * x) by (apply Rmult_le_compat; lra). lra.
Qed.
