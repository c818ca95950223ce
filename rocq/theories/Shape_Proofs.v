(** Proofs for C21. *)
From Verif Require Import Base Shape_Model Shape_Spec.
From Coq Require Import Reals Lra Psatz.
From Flocq Require Import Core.Core.
From Coquelicot Require Import Coquelicot.
Open Scope R_scope.

Lemma range2 : range 2 = [0%Z; 1%Z]. Proof. reflexivity. Qed.
Lemma range4 : range 4 = [0%Z; 1%Z; 2%Z; 3%Z]. Proof. reflexivity. Qed.
Lemma zsum2 f : zsum 2 f = f 0%Z + f 1%Z. Proof. unfold zsum. rewrite range2. cbn [fold_right]. lra. Qed.
Lemma zsum4 f : zsum 4 f = f 0%Z + f 1%Z + f 2%Z + f 3%Z. Proof. unfold zsum. rewrite range4. cbn [fold_right]. lra. Qed.

(** Offset of the position below its ceiling. *)
Lemma ceil_offset p : exists c u, Zceil p = c /\ p = IZR c - 1 + u /\ 0 < u <= 1.
Proof.
  exists (Zceil p), (p - IZR (Zceil p) + 1). split; [reflexivity|]. split; [lra|].
  pose proof (Zceil_ub p). pose proof (Zceil_lb p). lra.
Qed.
Lemma sz_sum sh pos : zsum (npts sh) (Sz sh pos) = 1.
Proof.
  destruct sh; cbn [npts Sz].
  - rewrite zsum2. unfold Sz_linear. cbn. lra.
  - rewrite zsum4. unfold Sz_cubic. cbn [Z.eqb Pos.eqb]. ring_simplify. lra.
Qed.
Lemma sr_sum sh pos beta : zsum (npts sh) (fun i => Sr sh pos i 1 beta) = 1.
Proof.
  destruct sh; cbn [npts Sr].
  - rewrite zsum2. unfold Sr_linear. cbn [Z.eqb Pos.eqb].
    repeat match goal with |- context [if ?b then _ else _] => destruct b end; lra.
  - rewrite zsum4. unfold Sr_cubic. cbn [Z.eqb Pos.eqb].
    repeat match goal with |- context [if ?b then _ else _] => destruct b end; field.
Qed.
Lemma sz_bounds sh pos i : (0 <= i < npts sh)%Z -> 0 <= Sz sh pos i <= 1.
Proof.
  destruct (ceil_offset pos) as (c & u & Hc & Hp & Hu). destruct sh; cbn [npts Sz]; intros Hi.
  - unfold Sz_linear. rewrite Hc. destruct (Z.eqb_spec i 1); lra.
  - unfold Sz_cubic. rewrite Hc, minus_IZR. replace (pos - (IZR c - 2) - 1) with u by lra.
    assert (H3 : 0 <= u ^ 3 <= 1) by (split; [apply pow_le; lra|rewrite <- (pow1 3); apply pow_incr; lra]).
    assert (H3' : 0 <= (1 - u) ^ 3 <= 1) by (split; [apply pow_le; lra|rewrite <- (pow1 3); apply pow_incr; lra]).
    destruct (Z.eqb_spec i 0); [lra|]. destruct (Z.eqb_spec i 1); [nra|]. destruct (Z.eqb_spec i 2); [nra|].
    destruct (Z.eqb_spec i 3); [lra|]. lra.
Qed.
Lemma sz_mean sh pos : zsum (npts sh) (fun i => Sz sh pos i * IZR (first_pt sh pos + i)) = pos.
Proof.
  destruct (ceil_offset pos) as (c & u & Hc & Hp & Hu). destruct sh; cbn [npts Sz first_pt]; rewrite Hc.
  - rewrite zsum2. unfold Sz_linear. rewrite Hc. cbn [Z.eqb Pos.eqb]. rewrite !plus_IZR, !minus_IZR. lra.
  - rewrite zsum4. unfold Sz_cubic. rewrite Hc. cbn [Z.eqb Pos.eqb]. rewrite !plus_IZR, !minus_IZR.
    replace (pos - (IZR c - 2) - 1) with u by lra. rewrite Hp. field.
Qed.

Lemma Rmax_neg a : a <= 0 -> Rmax 0 a = 0. Proof. apply Rmax_left. Qed.
Lemma Rmax_pos a : 0 <= a -> Rmax 0 a = a. Proof. apply Rmax_right. Qed.
Ltac rabs := repeat match goal with |- context [Rabs ?a] =>
   (rewrite (Rabs_pos_eq a) by lra) || (rewrite (Rabs_left1 a) by lra) end.
Ltac rmax := repeat match goal with |- context [Rmax 0 ?a] =>
   (rewrite (Rmax_pos a) by lra) || (rewrite (Rmax_neg a) by lra) end.

Lemma sz_spline sh pos k : weight_at sh pos k = spline sh (pos - IZR k).
Proof.
  destruct (ceil_offset pos) as (c & u & Hc & Hp & Hu). unfold weight_at.
  destruct sh; cbn [npts Sz first_pt spline]; rewrite Hc.
  - rewrite zsum2. unfold Sz_linear. rewrite Hc. cbn [Z.eqb Pos.eqb].
    destruct (Z.eqb_spec (c - 1 + 0) k) as [E|E]; [|destruct (Z.eqb_spec (c - 1 + 1) k) as [E1|E1]].
    + assert (IZR k = IZR c - 1) by (rewrite <- E, plus_IZR, minus_IZR; lra).
      destruct (Z.eqb_spec (c - 1 + 1) k); [lia|]. rabs. rmax. lra.
    + assert (IZR k = IZR c) by (f_equal; lia). rabs. rmax. lra.
    + destruct (Z_lt_le_dec k (c - 1)) as [Hk|Hk].
      * assert (IZR k <= IZR c - 2) by (rewrite <- minus_IZR; apply IZR_le; lia). rabs. rmax. lra.
      * assert (IZR c + 1 <= IZR k) by (rewrite <- plus_IZR; apply IZR_le; lia). rabs. rmax. lra.
  - rewrite zsum4. unfold Sz_cubic. rewrite Hc. cbn [Z.eqb Pos.eqb]. rewrite minus_IZR.
    replace (pos - (IZR c - 2) - 1) with u by lra.
    destruct (Z_lt_le_dec k (c - 2)) as [Hk|Hk].
    { assert (IZR k <= IZR c - 3) by (rewrite <- minus_IZR; apply IZR_le; lia).
      repeat match goal with |- context [Z.eqb ?a ?b] => destruct (Z.eqb_spec a b); [lia|] end.
      rabs. rmax. field. }
    destruct (Z_lt_le_dec (c + 1) k) as [Hk2|Hk2].
    { assert (IZR c + 2 <= IZR k) by (rewrite <- plus_IZR; apply IZR_le; lia).
      repeat match goal with |- context [Z.eqb ?a ?b] => destruct (Z.eqb_spec a b); [lia|] end.
      rabs. rmax. field. }
    assert (k = c - 2 \/ k = c - 1 \/ k = c \/ k = c + 1)%Z as [->|[->|[->| ->]]] by lia;
      rewrite ?minus_IZR, ?plus_IZR;
      repeat match goal with |- context [Z.eqb ?a ?b] => destruct (Z.eqb_spec a b); [try lia|try lia] end;
      rewrite Hp; rabs; rmax; field.
Qed.

Lemma spline_continuous sh x : continuous (spline sh) x.
Proof.
  assert (Hm : forall (f : R -> R) x, continuous f x -> continuous (fun y => Rmax 0 (f y)) x).
  { intros f y Hf. assert (E : forall t, (f t + Rabs (f t)) / 2 = Rmax 0 (f t)).
    { intros t. destruct (Rle_lt_dec 0 (f t)); [rewrite Rabs_pos_eq, Rmax_pos by lra|rewrite Rabs_left, Rmax_neg by lra]; lra. }
    apply (continuous_ext _ _ _ E). unfold Rdiv. apply @continuous_mult; [|apply continuous_const].
    apply @continuous_plus; [exact Hf|]. apply continuous_comp; [exact Hf|apply continuous_Rabs]. }
  assert (Ha : forall a x, continuous (fun y => Rmax 0 (a - Rabs y)) x).
  { intros a y. apply Hm. apply @continuous_minus; [apply continuous_const|apply continuous_Rabs]. }
  destruct sh; unfold spline; [apply Ha|].
  unfold Rdiv. apply @continuous_mult; [|apply continuous_const].
  apply @continuous_minus.
  - apply (continuous_comp (fun y => Rmax 0 (2 - Rabs y)) (fun t => t ^ 3)); [apply Ha|].
    apply (ex_derive_continuous (fun t : R => t ^ 3)). auto_derive. trivial.
  - apply @continuous_mult; [apply continuous_const|].
    apply (continuous_comp (fun y => Rmax 0 (1 - Rabs y)) (fun t => t ^ 3)); [apply Ha|].
    apply (ex_derive_continuous (fun t : R => t ^ 3)). auto_derive. trivial.
Qed.
Lemma sz_continuous sh k x : continuous (fun pos => weight_at sh pos k) x.
Proof.
  apply (continuous_ext (fun pos => spline sh (pos - IZR k))); [intros y; symmetry; apply sz_spline|].
  apply (continuous_comp (fun pos => pos - IZR k) (spline sh)); [|apply spline_continuous].
  apply @continuous_minus; [apply continuous_id|apply continuous_const].
Qed.
