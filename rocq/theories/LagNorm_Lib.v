(** Integrals over the half-line by primitives, and the norm of the Laguerre polynomials. *)
From Verif Require Import Base Laser_Model Laser_Laguerre Gauss_Lib.
From Coq Require Import Reals Lra Lia Psatz.
From Coquelicot Require Import Coquelicot.
Open Scope R_scope.

Definition int_half (f : R -> R) (l : R) : Prop :=
  is_RInt_gen (V := R_NormedModule) f (at_point 0) (Rbar_locally p_infty) l.

(** ** Functions with a primitive that has a limit *)
Definition prim (f : R -> R) (l : R) : Prop :=
  exists F : R -> R, (forall x, is_derive F x (f x)) /\ F 0 = 0 /\ is_lim F p_infty l.
Lemma prim_ext f g l : (forall x, f x = g x) -> prim f l -> prim g l.
Proof. intros E (F & D & Z & L). exists F. split; [intros x; rewrite <- E; apply D|auto]. Qed.
Lemma prim_0 : prim (fun _ => 0) 0.
Proof. exists (fun _ => 0). split; [intros; apply (is_derive_const (K := R_AbsRing) (V := R_NormedModule))|]. split; [reflexivity|apply is_lim_const]. Qed.
Lemma prim_plus f g a b : prim f a -> prim g b -> prim (fun x => f x + g x) (a + b).
Proof.
  intros (F & D & Z & L) (G & D' & Z' & L'). exists (fun x => F x + G x). split; [|split].
  - intros x. apply (is_derive_plus (V := R_NormedModule) F G); auto.
  - rewrite Z, Z'. ring.
  - apply is_lim_plus'; assumption.
Qed.
Lemma prim_scal k f l : prim f l -> prim (fun x => k * f x) (k * l).
Proof.
  intros (F & D & Z & L). exists (fun x => k * F x). split; [|split].
  - intros x. apply (is_derive_scal F x k), D.
  - rewrite Z. ring.
  - apply (is_lim_scal_l F k p_infty l L).
Qed.
Lemma prim_rsum n (f : nat -> R -> R) (l : nat -> R) : (forall i, prim (f i) (l i)) -> prim (fun x => rsum n (fun i => f i x)) (rsum n l).
Proof. intros H. induction n as [|n IH]; cbn [rsum]; [apply prim_0|]. apply prim_plus; auto. Qed.
(** Change of variable v = k r^2. *)
Lemma prim_square f l k : 0 < k -> prim f l -> prim (fun r => r * f (k * r ^ 2)) (l / (2 * k)).
Proof.
  intros Hk (F & D & Z & L). exists (fun r => / (2 * k) * F (k * r ^ 2)). split; [|split].
  - intros r. replace (r * f (k * r ^ 2)) with (/ (2 * k) * ((2 * k * r) * f (k * r ^ 2))) by (field; lra).
    apply (is_derive_scal (fun r => F (k * r ^ 2)) r (/ (2 * k))).
    apply (is_derive_comp (V := R_NormedModule) F (fun r => k * r ^ 2)); [apply D|]. auto_derive; [exact I|ring].
  - replace (k * 0 ^ 2) with 0 by ring. rewrite Z. ring.
  - replace (l / (2 * k)) with (/ (2 * k) * l) by (unfold Rdiv; ring).
    apply (is_lim_scal_l (fun r => F (k * r ^ 2)) (/ (2 * k)) p_infty l).
    apply (is_lim_comp F (fun r => k * r ^ 2) p_infty l p_infty L); [|exists 0; intros y _ H; discriminate].
    apply (is_lim_le_p_loc (fun r => k * r)).
    + exists 1. intros r Hr. replace (k * r ^ 2) with (k * r * r) by ring. rewrite <- (Rmult_1_r (k * r)) at 1. apply Rmult_le_compat_l; [apply Rmult_le_pos|]; lra.
    + evar_last; [apply is_lim_scal_l, is_lim_id|]. apply is_Rbar_mult_unique, is_Rbar_mult_sym. apply (is_Rbar_mult_p_infty_pos k). exact Hk.
Qed.
Lemma prim_int f l : (forall x, continuous f x) -> prim f l -> int_half f l.
Proof.
  intros Cf (F & D & Z & L). unfold int_half.
  assert (G : is_RInt_gen (V := R_NormedModule) (Derive F) (at_point 0) (Rbar_locally p_infty) (l - 0)).
  { apply (is_RInt_gen_Derive F 0 l).
    - apply filter_forall. intros ab x _. eexists. apply D.
    - apply filter_forall. intros ab x _. apply (continuous_ext f); [intros y; symmetry; apply is_derive_unique, D|apply Cf].
    - intros P [e He]. unfold filtermap, at_point. rewrite Z. apply He, ball_center.
    - exact L. }
  rewrite Rminus_0_r in G. refine (is_RInt_gen_ext _ _ _ _ G). apply filter_forall. intros ab x _. apply is_derive_unique, D.
Qed.
Lemma int_half_ext f g l : (forall x, 0 < x -> f x = g x) -> int_half f l -> int_half g l.
Proof.
  intros E H. refine (is_RInt_gen_ext _ _ _ _ H).
  apply (Filter_prod _ _ _ (fun a => a = 0) (fun b => 0 < b)).
  - reflexivity. - exists 0. auto.
  - intros a b -> Hb x [Hx _]. simpl in Hx. apply E. rewrite Rmin_left in Hx by lra. exact Hx.
Qed.

(** ** x^n exp(-x) *)
Lemma lim_pow_exp n : is_lim (fun x => x ^ n * exp (- x)) p_infty 0.
Proof.
  (* x^(n+1) <= (n+1)! exp x *)
  assert (B : forall n x, 0 <= x -> x ^ n <= factR n * exp x).
  { clear n. induction n as [|n IH].
    - intros x Hx. unfold factR. cbn. rewrite Rmult_1_l. rewrite <- exp_0. destruct Hx as [Hx| <-]; [left; apply exp_increasing, Hx|lra].
    - intros x Hx. set (h := fun x => factR (S n) * exp x - x ^ S n).
      assert (Dh : forall x, is_derive h x (INR (S n) * (factR n * exp x - x ^ n))).
      { intros y. unfold h. auto_derive; [exact I|]. rewrite factR_S. change (match n with O => 1 | S _ => INR n + 1 end) with (INR (S n)). ring. }
      assert (H0 : 0 <= h 0) by (unfold h; rewrite exp_0, pow_i by lia; pose proof (factR_pos (S n)); lra).
      destruct Hx as [Hx| <-]; [|unfold h in H0; lra].
      destruct (MVT_gen h 0 x (fun x => INR (S n) * (factR n * exp x - x ^ n))) as (c & Hc & Ec).
      + intros y _. apply Dh.
      + intros y _. apply derivable_continuous_pt. eexists. apply is_derive_Reals, Dh.
      + rewrite Rmin_left, Rmax_right in Hc by lra. pose proof (IH c ltac:(lra)). assert (0 <= INR (S n)) by apply pos_INR.
        assert (0 <= h x); [|unfold h in *; lra]. assert (0 <= INR (S n) * (factR n * exp c - c ^ n) * (x - 0)); [|lra].
        apply Rmult_le_pos; [apply Rmult_le_pos|]; lra. }
  apply (is_lim_le_le_loc (fun _ => 0) (fun x => factR (S n) * / x)).
  - exists 0. intros x Hx. pose proof (exp_pos (- x)). pose proof (pow_lt x n Hx). split; [nra|].
    pose proof (B (S n) x ltac:(lra)) as Q. apply (Rmult_le_reg_r x); [exact Hx|].
    replace (factR (S n) * / x * x) with (factR (S n)) by (field; lra).
    replace (x ^ n * exp (- x) * x) with (x ^ S n * exp (- x)) by (cbn [pow]; ring).
    apply (Rle_trans _ (factR (S n) * exp x * exp (- x))); [apply Rmult_le_compat_r; lra|].
    rewrite Rmult_assoc, <- exp_plus, Rplus_opp_r, exp_0. lra.
  - apply is_lim_const.
  - replace (Finite 0) with (Rbar_mult (factR (S n)) 0) by (cbn; rewrite Rmult_0_r; reflexivity).
    apply is_lim_scal_l. apply (is_lim_inv (fun x => x) p_infty p_infty); [apply is_lim_id|discriminate].
Qed.
Lemma prim_gamma n : prim (fun x => x ^ n * exp (- x)) (factR n).
Proof.
  induction n as [|n (F & D & Z & L)].
  - exists (fun x => 1 - exp (- x)). split; [|split].
    + intros x. auto_derive; [exact I|]. cbn [pow]. ring.
    + rewrite Ropp_0, exp_0. ring.
    + unfold factR. cbn. evar_last; [apply is_lim_minus'; [apply is_lim_const|]; pose proof (lim_pow_exp 0) as H; eapply is_lim_ext; [|exact H]; intros; cbn [pow]; ring|]. f_equal. ring.
  - exists (fun x => INR (S n) * F x - x ^ S n * exp (- x)). split; [|split].
    + intros x.
      replace (x ^ S n * exp (- x)) with (INR (S n) * (x ^ n * exp (- x)) - (INR (S n) * x ^ n * exp (- x) - x ^ S n * exp (- x))) by ring.
      apply (is_derive_minus (V := R_NormedModule) (fun x => INR (S n) * F x) (fun x => x ^ S n * exp (- x))).
      * apply (is_derive_scal F x), D.
      * auto_derive; [exact I|]. change (match n with O => 1 | S _ => INR n + 1 end) with (INR (S n)). cbn [pow]. ring.
    + rewrite Z, pow_i by lia. ring.
    + rewrite factR_S. replace (INR (S n) * factR n) with (INR (S n) * factR n - 0) by ring.
      apply is_lim_minus'; [apply (is_lim_scal_l F _ p_infty (factR n) L)|apply lim_pow_exp].
Qed.

(** ** Norm and orthogonality *)
Definition alt (p : nat) (f : nat -> R) : R := rsum (S p) (fun i => (-1) ^ i * bin p i * f i).
Lemma alt_S p f : alt (S p) f = alt p (fun i => f i - f (S i)).
Proof.
  unfold alt. rewrite rsum_first. cbn [bin pow].
  rewrite (rsum_ext (S p) (fun i => -1 * (-1) ^ i * (bin p i + bin p (S i)) * f (S i)) (fun i => (-1) * ((-1) ^ i * bin p i * f (S i)) + (-1) ^ S i * bin p (S i) * f (S i))) by (intros; cbn [pow]; ring).
  rewrite rsum_plus, rsum_scal.
  rewrite (rsum_ext (S p) (fun i => (-1) ^ i * bin p i * (f i - f (S i))) (fun i => (-1) ^ i * bin p i * f i + (-1) * ((-1) ^ i * bin p i * f (S i)))) by (intros; ring).
  rewrite rsum_plus, rsum_scal.
  assert (E : rsum (S (S p)) (fun i => (-1) ^ i * bin p i * f i) = 1 * 1 * f 0%nat + rsum (S p) (fun i => (-1) ^ S i * bin p (S i) * f (S i))) by (rewrite (rsum_first (S p)), bin_0; cbn [pow]; reflexivity).
  assert (T : rsum (S (S p)) (fun i => (-1) ^ i * bin p i * f i) = rsum (S p) (fun i => (-1) ^ i * bin p i * f i)) by (apply rsum_tail; [lia|intros i Hi; rewrite bin_out by lia; ring]).
  rewrite T in E. rewrite E. ring.
Qed.
Definition rise (k x : nat) : R := factR (x + k) / factR x.
Lemma rise_S k x : rise (S k) (S x) - rise (S k) x = INR (S k) * rise k (S x).
Proof.
  unfold rise. replace (S x + S k)%nat with (S (S (x + k))) by lia. replace (x + S k)%nat with (S (x + k)) by lia. replace (S x + k)%nat with (S (x + k)) by lia.
  rewrite !factR_S, !S_INR, plus_INR. pose proof (factR_neq x). pose proof (pos_INR x). field. split; lra.
Qed.
Lemma alt_rise p : forall k a, (k <= p)%nat -> alt p (fun i => rise k (a + i)) = if Nat.eqb k p then (-1) ^ p * factR p else 0.
Proof.
  induction p as [|p IH]; intros k a H.
  - replace k with O by lia. unfold alt, rise, factR. cbn [rsum bin pow Nat.eqb Nat.add fact INR]. rewrite !Nat.add_0_r. field. apply INR_fact_neq_0.
  - rewrite alt_S. destruct k as [|k].
    + cbn [Nat.eqb]. rewrite <- (rsum_zero (S p)). unfold alt. apply rsum_ext. intros i _. unfold rise. rewrite !Nat.add_0_r. field. split; apply factR_neq.
    + cbn [Nat.eqb]. transitivity (- INR (S k) * alt p (fun i => rise k (S a + i))).
      * unfold alt. rewrite <- rsum_scal. apply rsum_ext. intros i _. replace (a + S i)%nat with (S (a + i)) by lia.
        replace (rise (S k) (a + i) - rise (S k) (S (a + i))) with (- (rise (S k) (S (a + i)) - rise (S k) (a + i))) by ring. rewrite rise_S. replace (S a + i)%nat with (S (a + i)) by lia. ring.
      * rewrite IH by lia. destruct (Nat.eqb_spec k p) as [->|]; [|ring]. rewrite factR_S. cbn [pow]. ring.
Qed.
(** Integral of x^(m+k) L_p^m(x) exp(-x). *)
Lemma lag_moment p m k : (k <= p)%nat -> rsum (S p) (fun i => la p m i * factR (m + k + i)) = if Nat.eqb k p then (-1) ^ p * factR (p + m) else 0.
Proof.
  intros H. transitivity (factR (p + m) / factR p * alt p (fun i => rise k (m + i))).
  - unfold alt. rewrite <- rsum_scal. apply rsum_ext. intros i Hi. unfold la, rise. pose proof (bin_fact p i ltac:(lia)) as B.
    replace (bin p i) with (factR p / (factR i * factR (p - i))) by (rewrite <- B; field; split; apply factR_neq).
    replace (m + i + k)%nat with (m + k + i)%nat by lia. field. repeat split; apply factR_neq.
  - rewrite alt_rise by exact H. destruct (Nat.eqb k p); [field; apply factR_neq|ring].
Qed.
Definition lagprod (p q m : nat) : R := rsum (S p) (fun i => rsum (S q) (fun j => la p m i * la q m j * factR (m + i + j))).
Lemma lagprod_sym p q m : lagprod p q m = lagprod q p m.
Proof. unfold lagprod. rewrite rsum_swap. apply rsum_ext. intros j _. apply rsum_ext. intros i _. replace (m + i + j)%nat with (m + j + i)%nat by lia. ring. Qed.
Lemma lagprod_le p q m : (q <= p)%nat -> lagprod p q m = if Nat.eqb p q then factR (p + m) / factR p else 0.
Proof.
  intros H. unfold lagprod. rewrite rsum_swap.
  rewrite (rsum_ext (S q) _ (fun j => la q m j * (if Nat.eqb j p then (-1) ^ p * factR (p + m) else 0))).
  - destruct (Nat.eqb_spec p q) as [<-|N].
    + cbn [rsum]. rewrite (rsum_ext p _ (fun _ => 0)); [rewrite rsum_zero|intros j Hj; destruct (Nat.eqb_spec j p); [lia|ring]].
      rewrite Nat.eqb_refl. unfold la. rewrite Nat.sub_diag. unfold factR at 2. cbn [fact INR]. replace (m + p)%nat with (p + m)%nat by lia.
      assert (E : (-1) ^ p * (-1) ^ p = 1) by (rewrite <- Rpow_mult_distr; replace (-1 * -1) with 1 by ring; apply pow1).
      transitivity ((-1) ^ p * (-1) ^ p * (factR (p + m) / factR p)); [field; split; apply factR_neq|rewrite E; ring].
    + transitivity (rsum (S q) (fun _ => 0)); [|apply rsum_zero]. apply rsum_ext. intros j Hj. destruct (Nat.eqb_spec j p); [lia|ring].
  - intros j Hj. rewrite <- lag_moment by lia. rewrite <- rsum_scal. apply rsum_ext. intros i _. replace (m + i + j)%nat with (m + j + i)%nat by lia. ring.
Qed.
Lemma lagprod_val p q m : lagprod p q m = if Nat.eqb p q then factR (p + m) / factR p else 0.
Proof.
  destruct (Nat.le_gt_cases q p) as [H|H]; [apply lagprod_le, H|]. rewrite lagprod_sym, lagprod_le by lia.
  rewrite Nat.eqb_sym. destruct (Nat.eqb_spec p q); [lia|reflexivity].
Qed.
Lemma rsum_mult n k (f g : nat -> R) : rsum n f * rsum k g = rsum n (fun i => rsum k (fun j => f i * g j)).
Proof. induction n as [|n IH]; cbn [rsum]; [ring|]. rewrite Rmult_plus_distr_r, IH, rsum_scal. reflexivity. Qed.
Theorem laguerre_norm p q m :
  prim (fun v => v ^ m * genlaguerre p m v * genlaguerre q m v * exp (- v)) (if Nat.eqb p q then factR (p + m) / factR p else 0).
Proof.
  rewrite <- lagprod_val. unfold lagprod.
  apply (prim_ext (fun v => rsum (S p) (fun i => rsum (S q) (fun j => la p m i * la q m j * (v ^ (m + i + j) * exp (- v)))))).
  - intros v. rewrite !genlaguerre_la.
    transitivity (v ^ m * exp (- v) * (rsum (S p) (fun i => la p m i * v ^ i) * rsum (S q) (fun j => la q m j * v ^ j))); [|ring].
    rewrite rsum_mult, <- rsum_scal. apply rsum_ext. intros i _. rewrite <- rsum_scal. apply rsum_ext. intros j _. rewrite !pow_add. ring.
  - apply (prim_rsum (S p) (fun i v => rsum (S q) (fun j => la p m i * la q m j * (v ^ (m + i + j) * exp (- v))))). intros i.
    apply (prim_rsum (S q) (fun j v => la p m i * la q m j * (v ^ (m + i + j) * exp (- v)))). intros j. apply prim_scal, prim_gamma.
Qed.
