(** Laguerre polynomials: differential equation and recurrence. *)
From Verif Require Import Base Laser_Model.
From Coq Require Import Reals Lra Lia Binomial.
From Coquelicot Require Import Coquelicot.
Open Scope R_scope.

(** ** Finite sums *)
Lemma rsum_ext n (f g : nat -> R) : (forall k, (k < n)%nat -> f k = g k) -> rsum n f = rsum n g.
Proof. induction n as [|n IH]; intros H; cbn [rsum]; auto. rewrite IH, H; auto. Qed.
Lemma rsum_scal n a (f : nat -> R) : rsum n (fun k => a * f k) = a * rsum n f.
Proof. induction n as [|n IH]; cbn [rsum]; [ring|]. rewrite IH. ring. Qed.
Lemma rsum_plus n (f g : nat -> R) : rsum n (fun k => f k + g k) = rsum n f + rsum n g.
Proof. induction n as [|n IH]; cbn [rsum]; [ring|]. rewrite IH. ring. Qed.
Lemma rsum_zero n : rsum n (fun _ => 0) = 0.
Proof. induction n as [|n IH]; cbn [rsum]; auto. rewrite IH. ring. Qed.
Lemma rsum_split n m (f : nat -> R) : rsum (n + m) f = rsum n f + rsum m (fun i => f (n + i)%nat).
Proof. induction m as [|m IH]; [rewrite Nat.add_0_r; cbn [rsum]; ring|]. rewrite Nat.add_succ_r. cbn [rsum]. rewrite IH. ring. Qed.
Lemma rsum_first n (f : nat -> R) : rsum (S n) f = f O + rsum n (fun i => f (S i)).
Proof. change (S n) with (1 + n)%nat. rewrite rsum_split. cbn [rsum]. ring_simplify. reflexivity. Qed.
Lemma rsum_tail n m (f : nat -> R) : (n <= m)%nat -> (forall i, (n <= i < m)%nat -> f i = 0) -> rsum m f = rsum n f.
Proof.
  intros H Z. replace m with (n + (m - n))%nat by lia. rewrite rsum_split.
  rewrite (rsum_ext (m - n) _ (fun _ => 0)); [rewrite rsum_zero; ring|]. intros k Hk. apply Z. lia.
Qed.
Lemma rsum_swap n m (f : nat -> nat -> R) : rsum n (fun i => rsum m (fun j => f i j)) = rsum m (fun j => rsum n (fun i => f i j)).
Proof.
  induction n as [|n IH]; cbn [rsum].
  - rewrite rsum_zero. reflexivity.
  - rewrite IH, <- rsum_plus. reflexivity.
Qed.

Lemma factR_pos n : 0 < factR n.
Proof. unfold factR. apply INR_fact_lt_0. Qed.
Lemma factR_neq n : factR n <> 0.
Proof. pose proof (factR_pos n). lra. Qed.
Lemma factR_S n : factR (S n) = INR (S n) * factR n.
Proof. unfold factR. rewrite fact_simpl, mult_INR. reflexivity. Qed.

(** ** Derivatives and the differential equation *)
Definition la (p m i : nat) : R := (-1) ^ i * (factR (p + m) / (factR (p - i) * factR (m + i) * factR i)).
Definition lag1 (p m : nat) (x : R) : R := rsum (S p) (fun i => la p m i * (INR i * x ^ pred i)).
Definition lag2 (p m : nat) (x : R) : R := rsum (S p) (fun i => la p m i * (INR i * (INR (pred i) * x ^ pred (pred i)))).
Lemma genlaguerre_la p m x : genlaguerre p m x = rsum (S p) (fun i => la p m i * x ^ i).
Proof. reflexivity. Qed.
Lemma is_derive_rsum n (f g : nat -> R -> R) x : (forall i, is_derive (f i) x (g i x)) -> is_derive (fun x => rsum n (fun i => f i x)) x (rsum n (fun i => g i x)).
Proof.
  intros H. induction n as [|n IH]; cbn [rsum].
  - apply (is_derive_const (K := R_AbsRing) (V := R_NormedModule)).
  - apply (is_derive_plus (K := R_AbsRing) (V := R_NormedModule)); [exact IH|apply H].
Qed.
Lemma is_derive_monomial a n x : is_derive (fun x => a * x ^ n) x (a * (INR n * x ^ pred n)).
Proof. auto_derive; [exact I|ring]. Qed.
Lemma lag_d1 p m x : is_derive (genlaguerre p m) x (lag1 p m x).
Proof. apply (is_derive_rsum (S p) (fun i x => la p m i * x ^ i) (fun i x => la p m i * (INR i * x ^ pred i))). intros i. apply is_derive_monomial. Qed.
Lemma lag_d2 p m x : is_derive (lag1 p m) x (lag2 p m x).
Proof.
  apply (is_derive_rsum (S p) (fun i x => la p m i * (INR i * x ^ pred i)) (fun i x => la p m i * (INR i * (INR (pred i) * x ^ pred (pred i))))).
  intros i. auto_derive; [exact I|ring].
Qed.
Lemma la_S p m i : (i < p)%nat -> INR (S i) * (INR (S i) + INR m) * la p m (S i) = - (INR p - INR i) * la p m i.
Proof.
  intros H. unfold la. replace (p - i)%nat with (S (p - S i)) by lia. rewrite Nat.add_succ_r, !factR_S.
  assert (E : INR (S (p - S i)) = INR p - INR i) by (rewrite <- minus_INR by lia; f_equal; lia). rewrite E.
  assert (N : INR p - INR i <> 0) by (rewrite <- E; apply not_0_INR; lia).
  assert (M : INR (S (m + i)) = INR (S i) + INR m) by (rewrite <- plus_INR; f_equal; lia). rewrite M.
  assert (P1 : INR (S i) <> 0) by (apply not_0_INR; lia). assert (P2 : INR (S i) + INR m <> 0) by (rewrite <- M; apply not_0_INR; lia).
  cbn [pow]. field. repeat split; auto; apply factR_neq.
Qed.
Theorem laguerre_ode p m x : x * lag2 p m x + (INR m + 1 - x) * lag1 p m x + INR p * genlaguerre p m x = 0.
Proof.
  rewrite genlaguerre_la. unfold lag1, lag2. rewrite <- !rsum_scal, <- !rsum_plus.
  set (T := fun i => la p m i * (INR i * (INR i + INR m)) * x ^ pred i).
  rewrite (rsum_ext (S p) _ (fun i => T i + (INR p - INR i) * la p m i * x ^ i)).
  - assert (P : forall n, (n <= p)%nat -> rsum n (fun i => T i + (INR p - INR i) * la p m i * x ^ i) = - T n).
    { induction n as [|n IH]; intros H; cbn [rsum].
      - unfold T. cbn [INR]. ring.
      - rewrite IH by lia. unfold T at 2 3. cbn [pred]. pose proof (la_S p m n ltac:(lia)) as E.
        transitivity ((INR p - INR n) * la p m n * x ^ n); [unfold T; ring|].
        transitivity (- (INR (S n) * (INR (S n) + INR m) * la p m (S n)) * x ^ n); [rewrite E; ring|ring]. }
    cbn [rsum]. rewrite P by lia. ring.
  - intros i _. unfold T. destruct i as [|[|i]]; [cbn [INR pred pow]; ring|cbn [INR pred pow]; ring|].
    cbn [pred]. rewrite !S_INR. cbn [pow]. ring.
Qed.

(** ** Binomial coefficients *)
Fixpoint bin (n k : nat) : R :=
  match n, k with
  | _, O => 1
  | O, S _ => 0
  | S n, S k => bin n k + bin n (S k)
  end.
Lemma bin_0 n : bin n 0 = 1.
Proof. destruct n; reflexivity. Qed.
Lemma bin_out n : forall k, (n < k)%nat -> bin n k = 0.
Proof. induction n as [|n IH]; intros [|k] H; try lia; cbn [bin]; [reflexivity|]. rewrite !IH by lia. ring. Qed.
Lemma bin_fact n : forall k, (k <= n)%nat -> bin n k * (factR k * factR (n - k)) = factR n.
Proof.
  induction n as [|n IH]; intros [|k] H; try lia.
  - cbn [bin Nat.sub]. unfold factR. cbn. ring.
  - rewrite bin_0, Nat.sub_0_r. unfold factR. cbn [fact]. simpl (INR 1). ring.
  - cbn [bin]. destruct (Nat.eq_dec k n) as [->|N].
    + rewrite (bin_out n (S n)) by lia. rewrite Nat.sub_diag. pose proof (IH n ltac:(lia)) as E. rewrite Nat.sub_diag in E.
      rewrite !factR_S. rewrite <- E at 2. unfold factR at 2 4. cbn [fact]. simpl (INR 1). ring.
    + pose proof (IH k ltac:(lia)) as E1. pose proof (IH (S k) ltac:(lia)) as E2. replace (S n - S k)%nat with (n - k)%nat by lia.
      replace (n - k)%nat with (S (n - S k)) in * by lia. rewrite !factR_S in *.
      assert (EN : INR (S (n - S k)) = INR n - INR k) by (rewrite <- minus_INR by lia; f_equal; lia). rewrite EN in *. rewrite !S_INR in *.
      transitivity ((INR k + 1) * (bin n k * (factR k * ((INR n - INR k) * factR (n - S k)))) + (INR n - INR k) * (bin n (S k) * ((INR k + 1) * factR k * factR (n - S k)))); [ring|].
      rewrite E1, E2. ring.
Qed.
Lemma bin_absorb n : forall k, (INR n + 1 - INR k) * bin (S n) k = (INR n + 1) * bin n k.
Proof.
  induction n as [|n IH]; intros [|k].
  - rewrite !bin_0. cbn [INR]. ring.
  - cbn [bin]. destruct k; cbn [bin INR]; ring.
  - rewrite !bin_0. cbn [INR]. ring.
  - pose proof (IH k) as A. pose proof (IH (S k)) as B. rewrite S_INR in *.
    assert (E : bin (S n) (S k) = bin n k + bin n (S k)) by reflexivity.
    change (bin (S (S n)) (S k)) with (bin (S n) k + bin (S n) (S k)). rewrite S_INR.
    transitivity ((INR n + 1 - INR k) * bin (S n) k + (INR n + 1 - INR k) * bin (S n) (S k)); [ring|]. rewrite A.
    replace (bin n k) with (bin (S n) (S k) - bin n (S k)) by (rewrite E; ring).
    transitivity ((INR n + 1) * bin (S n) (S k) - (INR n + 1) * bin n (S k) + (INR n + 1 - INR k) * bin (S n) (S k)); [ring|]. rewrite <- B. ring.
Qed.
Lemma binom_bin n k : (k <= n)%nat -> binom n k = bin n k.
Proof.
  intros H. unfold binom, Binomial.C. pose proof (bin_fact n k H) as E. unfold factR in E. rewrite <- E.
  field. split; apply INR_fact_neq_0.
Qed.
(** The sum of a row. *)
Lemma bin_row n : rsum (S n) (bin n) = 2 ^ n.
Proof.
  induction n as [|n IH]; [cbn; ring|]. rewrite rsum_first. cbn [bin].
  rewrite rsum_plus, IH.
  assert (E : 1 + rsum (S n) (fun i => bin n (S i)) = rsum (S (S n)) (bin n)) by (rewrite (rsum_first (S n)), bin_0; reflexivity).
  assert (F : rsum (S (S n)) (bin n) = rsum (S n) (bin n)) by (apply rsum_tail; [lia|intros; apply bin_out; lia]).
  rewrite F, IH in E. cbn [pow]. lra.
Qed.

(** ** The recurrence of the code *)
Definition lb (n i : nat) : R := (-1) ^ i * (bin n i / factR i).
Lemma lag_lb n M x : (n < M)%nat -> genlaguerre n 0 x = rsum M (fun i => lb n i * x ^ i).
Proof.
  intros H. rewrite genlaguerre_la. rewrite (rsum_tail (S n) M); [|lia|].
  - apply rsum_ext. intros i Hi. unfold la, lb. f_equal. f_equal. rewrite Nat.add_0_r. cbn [Nat.add].
    rewrite <- (bin_fact n i) by lia. field. repeat split; apply factR_neq.
  - intros i Hi. unfold lb. rewrite bin_out by lia. unfold Rdiv. ring.
Qed.
Lemma bin_three n i : (INR n + 2) * bin (S (S n)) i = (2 * INR n + 3) * bin (S n) i + INR i * (match i with O => 0 | S j => bin (S n) j end) - (INR n + 1) * bin n i.
Proof.
  destruct i as [|j]; [rewrite !bin_0; cbn [INR]; ring|].
  change (bin (S (S n)) (S j)) with (bin (S n) j + bin (S n) (S j)). pose proof (bin_absorb n j) as A.
  assert (E : bin n (S j) = bin (S n) (S j) - bin n j) by (cbn [bin]; ring). rewrite E, S_INR.
  transitivity ((2 * INR n + 3) * bin (S n) (S j) + (INR j + 1) * bin (S n) j - (INR n + 1) * bin (S n) (S j) + (INR n + 1 - INR j) * bin (S n) j); [ring|].
  rewrite A. ring.
Qed.
Lemma lag_three n x : (INR n + 2) * genlaguerre (S (S n)) 0 x = (2 * INR n + 3 - x) * genlaguerre (S n) 0 x - (INR n + 1) * genlaguerre n 0 x.
Proof.
  rewrite (lag_lb (S (S n)) (S (S (S n)))), (lag_lb n (S (S (S n)))) by lia.
  replace ((2 * INR n + 3 - x) * genlaguerre (S n) 0 x) with ((2 * INR n + 3) * genlaguerre (S n) 0 x - x * genlaguerre (S n) 0 x) by ring.
  rewrite (lag_lb (S n) (S (S (S n)))) at 1 by lia. rewrite (lag_lb (S n) (S (S n))) by lia.
  assert (Sh : x * rsum (S (S n)) (fun i => lb (S n) i * x ^ i) = rsum (S (S (S n))) (fun i => match i with O => 0 | S j => lb (S n) j * x ^ S j end)).
  { rewrite (rsum_first (S (S n))), <- rsum_scal, Rplus_0_l. apply rsum_ext. intros; cbn [pow]; ring. }
  rewrite Sh. unfold Rminus. replace (- rsum (S (S (S n))) (fun i => match i with O => 0 | S j => lb (S n) j * x ^ S j end)) with (-1 * rsum (S (S (S n))) (fun i => match i with O => 0 | S j => lb (S n) j * x ^ S j end)) by ring.
  replace (- ((INR n + 1) * rsum (S (S (S n))) (fun i => lb n i * x ^ i))) with (- (INR n + 1) * rsum (S (S (S n))) (fun i => lb n i * x ^ i)) by ring.
  rewrite <- !rsum_scal, <- !rsum_plus. apply rsum_ext. intros i _. unfold lb. pose proof (bin_three n i) as B. pose proof (factR_neq i) as F.
  transitivity ((-1) ^ i * ((INR n + 2) * bin (S (S n)) i / factR i) * x ^ i); [field; exact F|]. rewrite B.
  destruct i as [|j]; [field; exact F|]. rewrite factR_S in *. cbn [pow]. pose proof (factR_neq j). pose proof (not_0_INR (S j) ltac:(lia)). field. auto.
Qed.
Lemma laguerre_rec_S x n : laguerre_rec x (S (S n)) = ((((2 * INR (S (S n)) - 1) - x) * fst (laguerre_rec x (S n)) - (INR (S (S n)) - 1) * snd (laguerre_rec x (S n))) / INR (S (S n)), fst (laguerre_rec x (S n))).
Proof. change (laguerre_rec x (S (S n))) with (let '(L, L1) := laguerre_rec x (S n) in ((((2 * INR (S (S n)) - 1) - x) * L - (INR (S (S n)) - 1) * L1) / INR (S (S n)), L)). destruct (laguerre_rec x (S n)). reflexivity. Qed.
Lemma laguerre_rec_ok x n : laguerre_rec x (S n) = (genlaguerre (S n) 0 x, genlaguerre n 0 x).
Proof.
  induction n as [|n IH].
  - cbn [laguerre_rec]. rewrite (lag_lb 1 2), (lag_lb 0 1) by lia. cbn [rsum]. unfold lb. cbn. unfold factR. cbn. f_equal; field.
  - rewrite laguerre_rec_S, IH. cbn [fst snd]. f_equal. pose proof (lag_three n x) as E. pose proof (pos_INR n).
    rewrite !S_INR in *. apply (Rmult_eq_reg_l (INR n + 2)); [|lra]. rewrite E. field. lra.
Qed.
Lemma laguerre_rec_fst x n : fst (laguerre_rec x n) = genlaguerre n 0 x.
Proof. destruct n as [|n]; [cbn [laguerre_rec fst]; rewrite (lag_lb 0 1) by lia; unfold lb, factR; cbn; field|]. rewrite laguerre_rec_ok. reflexivity. Qed.
