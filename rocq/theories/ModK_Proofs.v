From Verif Require Import Base ModK_Model ModK_Spec.
From Coq Require Import Reals Lra Lia Binomial.
From Coquelicot Require Import Coquelicot.
Import ListNotations.
Open Scope R_scope.

Definition sumn (f : nat -> R) (l : list nat) : R := fold_right (fun n s => f n + s) 0 l.
Lemma sumn_cons f a l : sumn f (a :: l) = f a + sumn f l.
Proof. reflexivity. Qed.
Lemma sumn_nil f : sumn f [] = 0.
Proof. reflexivity. Qed.
Lemma sumn_ext f g l : (forall n, In n l -> f n = g n) -> sumn f l = sumn g l.
Proof. induction l as [|a l IH]; intros H; [reflexivity|]. rewrite !sumn_cons, (H a), IH; auto; [intros; apply H; right; auto|left; auto]. Qed.
Lemma sumn_plus f g l : sumn (fun n => f n + g n) l = sumn f l + sumn g l.
Proof. induction l as [|a l IH]; [rewrite !sumn_nil; ring|]. rewrite !sumn_cons, IH. ring. Qed.
Lemma sumn_scal c f l : sumn (fun n => c * f n) l = c * sumn f l.
Proof. induction l as [|a l IH]; [rewrite !sumn_nil; ring|]. rewrite !sumn_cons, IH. ring. Qed.
Lemma sumn_app f l l' : sumn f (l ++ l') = sumn f l + sumn f l'.
Proof. induction l as [|a l IH]; cbn [app]; [rewrite sumn_nil; ring|]. rewrite !sumn_cons, IH. ring. Qed.
Lemma sumn_map f (h : nat -> nat) l : sumn f (map h l) = sumn (fun n => f (h n)) l.
Proof. induction l as [|a l IH]; cbn [map]; [reflexivity|]. rewrite !sumn_cons, IH. reflexivity. Qed.

(** ** Finite differences of polynomials *)
Lemma poly_add l : forall l', exists q, length q = Nat.max (length l) (length l') /\ forall x, polyn q x = polyn l x + polyn l' x.
Proof.
  induction l as [|a l IH]; intros l'.
  - exists l'. split; [reflexivity|]. intros; cbn [polyn]; ring.
  - destruct l' as [|b l']; [exists (a :: l); split; [reflexivity|intros; cbn [polyn]; ring]|].
    destruct (IH l') as (q & E & H). exists (a + b :: q). split; [cbn [length]; rewrite E; lia|]. intros; cbn [polyn]. rewrite H. ring.
Qed.
Lemma poly_scal c l : exists q, length q = length l /\ forall x, polyn q x = c * polyn l x.
Proof.
  induction l as [|a l (q & E & H)]; [exists []; split; [reflexivity|intros; cbn [polyn]; ring]|].
  exists (c * a :: q). split; [cbn [length]; lia|]. intros; cbn [polyn]; rewrite H; ring.
Qed.
Lemma poly_shift h l : exists q, length q = length l /\ forall x, polyn q x = polyn l (x + h).
Proof.
  induction l as [|a l (q & E & H)]; [exists []; auto|].
  (* a + (x+h) q(x) *)
  destruct (poly_scal h q) as (r & Er & Hr). destruct (poly_add (a :: q) r) as (t & Et & Ht).
  exists t. split; [rewrite Et; cbn [length]; rewrite Er, E; lia|]. intros x. rewrite Ht. cbn [polyn]. rewrite Hr, H. ring.
Qed.
Lemma poly_diff n : forall l, length l = S n -> exists q, length q = n /\ forall x, polyn q x = polyn l x - polyn l (x + 1).
Proof.
  induction n as [|n IH]; intros l Hl.
  - destruct l as [|a [|b l]]; try discriminate. exists []. split; [reflexivity|]. intros; cbn [polyn]; ring.
  - destruct l as [|a l]; [discriminate|]. injection Hl as Hl. destruct (IH l Hl) as (q & E & H).
    destruct (poly_shift 1 l) as (s & Es & Hs). destruct (poly_scal (-1) s) as (s' & Es' & Hs').
    destruct (poly_add (0 :: q) s') as (t & Et & Ht). exists t. split; [rewrite Et; cbn [length]; lia|].
    intros x. rewrite Ht. cbn [polyn]. rewrite Hs', Hs, H. ring.
Qed.

Definition alt (n : nat) : R := (-1) ^ n.
Definition fdiff (N : nat) (f : nat -> R) : R := sumn (fun i => alt i * Binomial.C N i * f i) (seq 0 (S N)).
Lemma C_0 n : Binomial.C n 0 = 1.
Proof. unfold Binomial.C. rewrite Nat.sub_0_r. cbn [fact]. replace (INR 1) with 1 by reflexivity. field. apply INR_fact_neq_0. Qed.
Lemma C_n n : Binomial.C n n = 1.
Proof. unfold Binomial.C. rewrite Nat.sub_diag. cbn [fact]. replace (INR 1) with 1 by reflexivity. field. apply INR_fact_neq_0. Qed.
Lemma fdiff_S N f : fdiff (S N) f = fdiff N (fun i => f i - f (S i)).
Proof.
  unfold fdiff. change (seq 0 (S (S N))) with (0%nat :: seq 1 (S N)).
  assert (E1 : sumn (fun i => alt i * Binomial.C (S N) i * f i) (0%nat :: seq 1 (S N)) =
     f 0%nat + sumn (fun i => alt (S i) * Binomial.C (S N) (S i) * f (S i)) (seq 0 (S N))).
  { rewrite sumn_cons, C_0. rewrite <- seq_shift, sumn_map. unfold alt at 1; cbn [pow]. ring. }
  rewrite E1. clear E1. rewrite (seq_S N 0) at 1. rewrite sumn_app. cbn [Nat.add]. rewrite sumn_cons, sumn_nil, C_n.
  rewrite (sumn_ext _ (fun i => alt (S i) * Binomial.C N i * f (S i) + alt (S i) * Binomial.C N (S i) * f (S i)) (seq 0 N)).
  2:{ intros i Hi. apply in_seq in Hi. rewrite <- pascal by lia. ring. }
  rewrite sumn_plus.
  rewrite (sumn_ext (fun i => alt i * Binomial.C N i * (f i - f (S i))) (fun i => alt i * Binomial.C N i * f i + alt (S i) * Binomial.C N i * f (S i)) (seq 0 (S N))).
  2:{ intros i _. unfold alt; cbn [pow]. ring. }
  rewrite sumn_plus.
  assert (E2 : sumn (fun i => alt (S i) * Binomial.C N i * f (S i)) (seq 0 (S N)) =
     sumn (fun i => alt (S i) * Binomial.C N i * f (S i)) (seq 0 N) + alt (S N) * f (S N)).
  { rewrite (seq_S N 0), sumn_app. cbn [Nat.add]. rewrite sumn_cons, sumn_nil, C_n. ring. }
  assert (E3 : sumn (fun i => alt i * Binomial.C N i * f i) (seq 0 (S N)) =
     f 0%nat + sumn (fun i => alt (S i) * Binomial.C N (S i) * f (S i)) (seq 0 N)).
  { change (seq 0 (S N)) with (0%nat :: seq 1 N). rewrite sumn_cons, C_0.
    rewrite <- seq_shift, sumn_map. unfold alt at 1; cbn [pow]. ring. }
  rewrite E2, E3. ring.
Qed.
Lemma fdiff_poly N : forall l, (length l <= N)%nat -> fdiff N (fun i => polyn l (INR i)) = 0.
Proof.
  induction N as [|N IH]; intros l Hl.
  - destruct l; [|cbn in Hl; lia]. unfold fdiff. cbn. ring.
  - rewrite fdiff_S. destruct (Nat.eq_dec (length l) (S N)) as [E|E].
    + destruct (poly_diff N l E) as (q & Eq & Hq). rewrite <- (IH q ltac:(lia)). unfold fdiff. apply sumn_ext. intros i _. rewrite Hq, S_INR. reflexivity.
    + destruct (poly_shift 1 l) as (s & Es & Hs). destruct (poly_scal (-1) s) as (s' & Es' & Hs').
      destruct (poly_add l s') as (t & Et & Ht). rewrite <- (IH t ltac:(lia)). unfold fdiff. apply sumn_ext. intros i _. rewrite Ht, Hs', Hs, S_INR. ring.
Qed.

(** ** The stencil coefficients *)
Lemma pascal_step2_sym m n : (n <= m)%nat -> Binomial.C (2 * m) (m - n) = Binomial.C (2 * m) (m + n).
Proof. intros H. unfold Binomial.C. replace (2 * m - (m - n))%nat with (m + n)%nat by lia. replace (2 * m - (m + n))%nat with (m - n)%nat by lia. f_equal. ring. Qed.
Lemma coef_closed m n : (n <= m)%nat -> stencil_coef m n = - 2 * alt n * Binomial.C (2 * m) (m + n) / Binomial.C (2 * m) m.
Proof.
  intros Hn. assert (P : Binomial.C (2 * m) m <> 0).
  { unfold Binomial.C. apply Rmult_integral_contrapositive. split; [apply INR_fact_neq_0|]. apply Rinv_neq_0_compat. apply Rmult_integral_contrapositive; split; apply INR_fact_neq_0. }
  induction n as [|n IH].
  - rewrite Nat.add_0_r. unfold alt; cbn [stencil_coef pow]. field. exact P.
  - cbn [stencil_coef]. rewrite IH by lia.
    assert (R : Binomial.C (2 * m) (m + S n) * (INR m + INR (S n)) = (INR m + 1 - INR (S n)) * Binomial.C (2 * m) (m + n)).
    { unfold Binomial.C. replace (2 * m - (m + S n))%nat with (m - S n)%nat by lia. replace (2 * m - (m + n))%nat with (S (m - S n)) by lia.
      replace (m + S n)%nat with (S (m + n)) by lia.
      assert (F1 : INR (fact (S (m + n))) = (INR m + INR (S n)) * INR (fact (m + n))).
      { change (fact (S (m + n))) with (S (m + n) * fact (m + n))%nat. rewrite mult_INR, !S_INR, plus_INR. ring. }
      assert (F2 : INR (fact (S (m - S n))) = (INR m + 1 - INR (S n)) * INR (fact (m - S n))).
      { change (fact (S (m - S n))) with (S (m - S n) * fact (m - S n))%nat. rewrite mult_INR. rewrite (S_INR (m - S n)), minus_INR by lia. ring. }
      rewrite F1, F2. pose proof (INR_fact_neq_0 (m + n)). pose proof (INR_fact_neq_0 (m - S n)).
      assert (0 < INR m + INR (S n)) by (rewrite S_INR; pose proof (pos_INR m); pose proof (pos_INR n); lra).
      assert (0 < INR m + 1 - INR (S n)). { assert (INR (S n) <= INR m) by (apply le_INR; lia). lra. }
      field. repeat split; auto; lra. }
    assert (0 < INR m + INR (S n)) by (rewrite S_INR; pose proof (pos_INR m); pose proof (pos_INR n); lra).
    apply (Rmult_eq_reg_r ((INR m + INR (S n)) * Binomial.C (2 * m) m)); [|apply Rmult_integral_contrapositive; split; [lra|exact P]].
    transitivity (- (INR m + 1 - INR (S n)) * (- 2 * alt n * Binomial.C (2 * m) (m + n))); [field; repeat split; first [lra|exact P]|].
    transitivity (- 2 * alt (S n) * (Binomial.C (2 * m) (m + S n) * (INR m + INR (S n)))); [|field; exact P].
    rewrite R. unfold alt; cbn [pow]. ring.
Qed.

Lemma sumn_rev_seq f m : sumn f (seq 0 m) = sumn (fun n => f (m - n)%nat) (seq 1 m).
Proof.
  induction m as [|m IH]; [reflexivity|]. rewrite (seq_S m 0), sumn_app. cbn [Nat.add].
  change (seq 1 (S m)) with (1%nat :: seq 2 m). rewrite !sumn_cons, sumn_nil, IH. replace (S m - 1)%nat with m by lia.
  rewrite <- (seq_shift m 1), sumn_map. cbn [Nat.sub]. ring.
Qed.
Lemma alt_add a b : alt (a + b) = alt a * alt b.
Proof. apply pow_add. Qed.
Lemma alt_sq a : alt a * alt a = 1.
Proof. unfold alt. rewrite <- Rpow_mult_distr. replace (-1 * -1) with 1 by ring. apply pow1. Qed.

Definition odd_moment (m : nat) (j : nat) : R := sumn (fun n => stencil_coef m n * INR n ^ (2 * j)) (seq 1 m).
Lemma monomial_shift h j : exists q, length q = S j /\ forall x, polyn q x = (x + h) ^ j.
Proof.
  destruct (poly_shift h (repeat 0 j ++ 1 :: nil)) as (q & E & H). exists q. split; [rewrite E, app_length, repeat_length; cbn; lia|].
  intros x. rewrite H. clear. induction j as [|j IH]; cbn [repeat app polyn pow]; [ring|]. rewrite IH. ring.
Qed.
Lemma C_pos n k : 0 < Binomial.C n k.
Proof. unfold Binomial.C. apply Rdiv_lt_0_compat; [apply INR_fact_lt_0|]. apply Rmult_lt_0_compat; apply INR_fact_lt_0. Qed.
Lemma moments m j : (j < m)%nat -> odd_moment m j = if Nat.eqb j 0 then 1 else 0.
Proof.
  intros Hj. destruct (monomial_shift (- INR m) (2 * j)) as (q & Eq & Hq).
  assert (Z : fdiff (2 * m) (fun i => polyn q (INR i)) = 0) by (apply fdiff_poly; lia).
  unfold fdiff in Z. replace (S (2 * m)) with (m + S m)%nat in Z by lia. rewrite seq_app, sumn_app in Z. cbn [Nat.add] in Z.
  change (seq m (S m)) with (m :: seq (S m) m) in Z. rewrite sumn_cons in Z.
  rewrite sumn_rev_seq in Z.
  assert (E2 : seq (S m) m = map (fun n => (m + n)%nat) (seq 1 m)).
  { rewrite <- (Nat.add_1_r m) at 1. clear. revert m. assert (G : forall k a b, seq (a + b) k = map (fun n => (a + n)%nat) (seq b k)).
    { induction k as [|k IH]; intros; cbn [seq map]; [reflexivity|]. f_equal. rewrite <- IH. f_equal. lia. } intros; apply G. }
  rewrite E2, sumn_map in Z.
  set (c0 := Binomial.C (2 * m) m) in *. assert (P : 0 < c0) by apply C_pos.
  assert (T : sumn (fun n => alt n * Binomial.C (2 * m) (m + n) * INR n ^ (2 * j)) (seq 1 m) = - c0 / 2 * odd_moment m j).
  { unfold odd_moment. rewrite <- sumn_scal. apply sumn_ext. intros n Hn. apply in_seq in Hn. rewrite coef_closed by lia. fold c0. field. lra. }
  rewrite (sumn_ext _ (fun n => alt m * (alt n * Binomial.C (2 * m) (m + n) * INR n ^ (2 * j))) (seq 1 m)) in Z.
  2:{ intros n Hn. apply in_seq in Hn. rewrite Hq, minus_INR by lia. replace (INR m - INR n + - INR m) with (- INR n) by ring.
      rewrite pow_mult. replace ((- INR n) ^ 2) with (INR n ^ 2) by ring. rewrite <- pow_mult.
      rewrite (pascal_step2_sym m n) by lia. replace (alt (m - n)) with (alt m * alt n); [ring|].
      replace m with ((m - n) + n)%nat at 1 by lia. rewrite alt_add, Rmult_assoc, alt_sq. ring. }
  rewrite (sumn_ext (fun n => alt (m + n) * Binomial.C (2 * m) (m + n) * polyn q (INR (m + n))) (fun n => alt m * (alt n * Binomial.C (2 * m) (m + n) * INR n ^ (2 * j))) (seq 1 m)) in Z.
  2:{ intros n Hn. rewrite Hq, plus_INR. replace (INR m + INR n + - INR m) with (INR n) by ring. rewrite alt_add. ring. }
  rewrite sumn_scal, T, Hq in Z. replace (INR m + - INR m) with 0 in Z by ring.
  assert (A : alt m <> 0). { intros E. pose proof (alt_sq m) as S. rewrite E in S. lra. }
  assert (Z' : alt m * (c0 * (0 ^ (2 * j) - odd_moment m j)) = 0) by (etransitivity; [|exact Z]; unfold Rdiv; field).
  apply Rmult_integral in Z'. destruct Z' as [Z'|Z']; [contradiction|]. apply Rmult_integral in Z'. destruct Z' as [Z'|Z']; [lra|].
  destruct j as [|j]; cbn [Nat.eqb Nat.mul pow] in *; [cbn in Z'; lra|]. rewrite pow_i in Z' by lia. lra.
Qed.

(** ** The stencil on polynomials *)
Lemma stencil_sumn a m dz f x : stencil a m dz f x = sumn (fun n => a n * ((f (x + INR n * dz) - f (x - INR n * dz)) / (2 * INR n * dz))) (seq 1 m).
Proof. reflexivity. Qed.
(** odd coefficient sums: for a polynomial l, sum_n a_n (l(t_n) - l(-t_n))/(2 t_n), t_n = n dz, is the coefficient of degree 1 *)
Fixpoint odd_part (l : list R) (t : R) : R := match l with a :: b :: l => b + t * t * odd_part l t | _ => 0 end.
Lemma polyn_odd : forall n l t, (length l <= n)%nat -> polyn l t - polyn l (- t) = 2 * t * odd_part l t.
Proof.
  induction n as [|n IH]; intros l t Hl; destruct l as [|a [|b l]]; cbn [polyn odd_part length] in *; try ring; try lia.
  specialize (IH l t ltac:(lia)). apply (f_equal (fun x => t * t * x)) in IH.
  transitivity (2 * t * b + t * t * (polyn l t - polyn l (- t))); [ring|rewrite IH; ring].
Qed.
Fixpoint odds (l : list R) : list R := match l with a :: b :: l => b :: odds l | _ => [] end.
Lemma odd_part_sum : forall n l t, (length l <= n)%nat -> odd_part l t = polyn (odds l) (t * t).
Proof. induction n as [|n IH]; intros l t Hl; destruct l as [|a [|b l]]; cbn [polyn odd_part odds length] in *; try ring; try lia. rewrite (IH l) by lia. ring. Qed.
Lemma odds_length : forall n l, (length l <= n)%nat -> (2 * length (odds l) <= length l)%nat.
Proof. induction n as [|n IH]; intros l Hl; destruct l as [|a [|b l]]; cbn [odds length] in *; try lia. specialize (IH l ltac:(lia)). lia. Qed.

Lemma sum_poly_sq m dz l : forall j, (j + length l <= m)%nat ->
  sumn (fun n => stencil_coef m n * (INR n ^ (2 * j) * polyn l ((INR n * dz) * (INR n * dz)))) (seq 1 m) =
  match j with O => hd 0 l | _ => 0 end.
Proof.
  induction l as [|a l IH]; intros j Hj.
  - rewrite (sumn_ext _ (fun n => 0 * 0)) by (intros; cbn [polyn]; ring). rewrite sumn_scal. destruct j; cbn [hd]; ring.
  - cbn [length] in Hj. rewrite (sumn_ext _ (fun n => a * (stencil_coef m n * INR n ^ (2 * j)) + dz * dz * (stencil_coef m n * (INR n ^ (2 * S j) * polyn l ((INR n * dz) * (INR n * dz)))))).
    2:{ intros n _. cbn [polyn]. replace (2 * S j)%nat with (S (S (2 * j))) by lia. cbn [pow]. ring. }
    rewrite sumn_plus, !sumn_scal, IH by lia. fold (odd_moment m j). rewrite moments by lia. destruct j; cbn [Nat.eqb hd]; ring.
Qed.

Lemma stencil_poly m dz l x : dz <> 0 -> (length l <= 2 * m + 1)%nat ->
  exists q, (forall t : R, polyn q t = polyn l (t + x)) /\ stencil (stencil_coef m) m dz (polyn l) x = nth 1 q 0.
Proof.
  intros Hdz Hl. destruct (poly_shift x l) as (q & Eq & Hq). exists q. split; [exact Hq|].
  rewrite stencil_sumn.
  rewrite (sumn_ext _ (fun n => stencil_coef m n * (INR n ^ (2 * 0) * polyn (odds q) ((INR n * dz) * (INR n * dz))))).
  - pose proof (odds_length _ q (le_n _)) as Ho. rewrite sum_poly_sq by lia. clear. destruct q as [|a [|b q]]; reflexivity.
  - intros n Hn. apply in_seq in Hn. assert (INR n <> 0) by (apply not_0_INR; lia).
    replace (polyn l (x + INR n * dz)) with (polyn q (INR n * dz)) by (rewrite Hq; f_equal; ring).
    replace (polyn l (x - INR n * dz)) with (polyn q (- (INR n * dz))) by (rewrite Hq; f_equal; ring).
    rewrite (polyn_odd _ q _ (le_n _)), (odd_part_sum _ q _ (le_n _)). change (INR n ^ (2 * 0)) with 1. field. split; auto.
Qed.
Lemma polyn_ex_derive l : forall x, ex_derive (polyn l) x.
Proof.
  induction l as [|a l IH]; intros x; cbn [polyn]; [apply ex_derive_const|].
  apply (ex_derive_plus (fun _ => a) (fun x => x * polyn l x)); [apply ex_derive_const|]. apply (ex_derive_mult (fun x => x) (polyn l)); [apply ex_derive_id|apply IH].
Qed.
Lemma polyn_derive_0 q : is_derive (polyn q) 0 (nth 1 q 0).
Proof.
  destruct q as [|a [|b q]]; cbn [polyn nth].
  - apply (is_derive_const 0).
  - apply (is_derive_ext (fun _ : R => a)); [intros t; change (a = a + t * 0); ring|]. apply (is_derive_const a).
  - destruct (polyn_ex_derive (b :: q) 0) as (d & Hd). cbn [polyn] in Hd.
    evar_last. { apply (is_derive_plus (fun _ => a) (fun x => x * (b + x * polyn q x))); [apply is_derive_const|].
      apply (is_derive_mult (fun x => x) (fun x => b + x * polyn q x)); [apply is_derive_id|exact Hd|]. intros; apply Rmult_comm. }
    unfold plus, zero, one, mult; cbn. ring.
Qed.
Lemma stencil_exact m dz l x : dz <> 0 -> (length l <= 2 * m + 1)%nat ->
  is_derive (polyn l) x (stencil (stencil_coef m) m dz (polyn l) x).
Proof.
  intros Hdz Hl. destruct (stencil_poly m dz l x Hdz Hl) as (q & Hq & ->).
  apply (is_derive_ext (fun y => polyn q (y - x))); [intros t; rewrite Hq; f_equal; ring|].
  evar_last. { apply (is_derive_comp (polyn q) (fun y => y - x)).
    - replace (x - x) with 0 by ring. apply polyn_derive_0.
    - apply (is_derive_minus (fun y => y) (fun _ => x)); [apply is_derive_id|apply is_derive_const]. }
  unfold minus, plus, opp, scal, mult, zero, one; cbn. unfold mult; cbn. ring.
Qed.

(** ** The symbol *)
Lemma modified_k_sumn m dz k : modified_k m dz k = sumn (fun n => sin (k * INR n * dz) / (INR n * dz) * stencil_coef m n) (seq 1 m).
Proof. reflexivity. Qed.
Lemma symbol_cos m dz k x : dz <> 0 -> stencil (stencil_coef m) m dz (fun y => cos (k * y)) x = - modified_k m dz k * sin (k * x).
Proof.
  intros Hdz. rewrite stencil_sumn, modified_k_sumn. replace (- sumn (fun n => sin (k * INR n * dz) / (INR n * dz) * stencil_coef m n) (seq 1 m) * sin (k * x)) with
   ((- sin (k * x)) * sumn (fun n => sin (k * INR n * dz) / (INR n * dz) * stencil_coef m n) (seq 1 m)) by ring. rewrite <- sumn_scal. apply sumn_ext. intros n Hn.
  apply in_seq in Hn. assert (INR n <> 0) by (apply not_0_INR; lia).
  replace (k * (x + INR n * dz)) with (k * x + k * INR n * dz) by ring. replace (k * (x - INR n * dz)) with (k * x - k * INR n * dz) by ring.
  rewrite cos_plus, cos_minus. field. auto.
Qed.
Lemma symbol_sin m dz k x : dz <> 0 -> stencil (stencil_coef m) m dz (fun y => sin (k * y)) x = modified_k m dz k * cos (k * x).
Proof.
  intros Hdz. rewrite stencil_sumn, modified_k_sumn, (Rmult_comm (sumn _ _)). rewrite <- sumn_scal. apply sumn_ext. intros n Hn.
  apply in_seq in Hn. assert (INR n <> 0) by (apply not_0_INR; lia).
  replace (k * (x + INR n * dz)) with (k * x + k * INR n * dz) by ring. replace (k * (x - INR n * dz)) with (k * x - k * INR n * dz) by ring.
  rewrite sin_plus, sin_minus. field. auto.
Qed.
Lemma modified_k_odd m dz k : modified_k m dz (- k) = - modified_k m dz k.
Proof.
  rewrite !modified_k_sumn. replace (- sumn (fun n => sin (k * INR n * dz) / (INR n * dz) * stencil_coef m n) (seq 1 m)) with
    (-1 * sumn (fun n => sin (k * INR n * dz) / (INR n * dz) * stencil_coef m n) (seq 1 m)) by ring. rewrite <- sumn_scal. apply sumn_ext. intros n _.
  replace (- k * INR n * dz) with (- (k * INR n * dz)) by ring. rewrite sin_neg. unfold Rdiv. ring.
Qed.
Lemma modified_k_0 m dz : modified_k m dz 0 = 0.
Proof. pose proof (modified_k_odd m dz 0) as H. rewrite Ropp_0 in H. lra. Qed.
