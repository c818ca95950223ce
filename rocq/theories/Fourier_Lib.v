(** Complex exponentials, finite sums and the discrete Fourier transform (mathematics only;
    no code is modelled here).  [dft]/[idft] are what fourier.py:104-168 computes along axis 0
    (pyfftw, MKL or cufft; the inverse is normalised by 1/N). *)
From Verif Require Import Base.
From Coq Require Import Reals Lra.
From Coquelicot Require Import Coquelicot.
Open Scope C_scope.

Definition cis (t : R) : C := (cos t, sin t).

Lemma cis_0 : cis 0 = 1.
Proof. unfold cis. rewrite cos_0, sin_0. reflexivity. Qed.
Lemma cis_add a b : cis (a + b) = cis a * cis b.
Proof.
  unfold cis, Cmult; simpl. rewrite cos_plus, sin_plus. f_equal; ring.
Qed.
Lemma cis_neg a : cis (- a) = Cconj (cis a).
Proof. unfold cis, Cconj; simpl. rewrite cos_neg, sin_neg. reflexivity. Qed.
Lemma cis_conj_mul a : cis a * Cconj (cis a) = 1.
Proof. rewrite <- cis_neg, <- cis_add. replace (a + - a)%R with 0%R by ring. apply cis_0. Qed.
Lemma cis_period_nat t n : cis (t + 2 * PI * INR n) = cis t.
Proof.
  unfold cis. replace (t + 2 * PI * INR n)%R with (t + 2 * INR n * PI)%R by ring.
  rewrite cos_period, sin_period. reflexivity.
Qed.
Lemma cis_period t z : cis (t + 2 * PI * IZR z) = cis t.
Proof.
  destruct (Z_le_dec 0 z).
  - rewrite <- (Z2Nat.id z) by auto. rewrite <- INR_IZR_INZ. apply cis_period_nat.
  - replace z with (- (- z))%Z by lia. rewrite <- (Z2Nat.id (- z)) by lia.
    rewrite opp_IZR, <- INR_IZR_INZ. set (m := Z.to_nat (- z)).
    rewrite <- (cis_period_nat (t + 2 * PI * - INR m) m). f_equal. ring.
Qed.
Lemma cis_nonzero a : cis a <> RtoC 0.
Proof.
  intros H. pose proof (cis_conj_mul a) as E. rewrite H in E. rewrite Cmult_0_l in E.
  injection E. lra.
Qed.
Lemma Cmod_cis a : Cmod (cis a) = 1%R.
Proof.
  unfold Cmod, cis; simpl. rewrite !Rmult_1_r.
  pose proof (sin2_cos2 a) as H. unfold Rsqr in H. rewrite Rplus_comm, H. apply sqrt_1.
Qed.

(** Finite sums. *)
Fixpoint csum (n : nat) (f : nat -> C) : C :=
  match n with O => 0 | S n => csum n f + f n end.

Lemma csum_ext n (f g : nat -> C) : (forall k, (k < n)%nat -> f k = g k) -> csum n f = csum n g.
Proof.
  induction n as [|n IH]; intros H; simpl; auto. rewrite IH, H; auto.
Qed.
Lemma csum_scal n (a : C) (f : nat -> C) : csum n (fun k => a * f k) = a * csum n f.
Proof. induction n as [|n IH]; simpl; [ring|]. rewrite IH. ring. Qed.
Lemma csum_scal_r n (a : C) (f : nat -> C) : csum n (fun k => f k * a) = csum n f * a.
Proof. induction n as [|n IH]; simpl; [ring|]. rewrite IH. ring. Qed.
Lemma csum_plus n (f g : nat -> C) : csum n (fun k => f k + g k) = csum n f + csum n g.
Proof. induction n as [|n IH]; simpl; [ring|]. rewrite IH. ring. Qed.
Lemma csum_zero n : csum n (fun _ => 0) = 0.
Proof. induction n as [|n IH]; simpl; auto. rewrite IH. ring. Qed.
Lemma csum_swap n m (f : nat -> nat -> C) : csum n (fun i => csum m (fun j => f i j)) = csum m (fun j => csum n (fun i => f i j)).
Proof.
  induction n as [|n IH]; simpl.
  - rewrite csum_zero. reflexivity.
  - rewrite IH, <- csum_plus. reflexivity.
Qed.
Lemma csum_single n (f : nat -> C) k : (k < n)%nat -> (forall j, (j < n)%nat -> j <> k -> f j = 0) -> csum n f = f k.
Proof.
  intros Hk. induction n as [|n IH]; [lia|]. intros H. simpl.
  destruct (Nat.eq_dec k n) as [->|N].
  - rewrite (csum_ext n f (fun _ => 0)); [rewrite csum_zero; ring|]. intros; apply H; lia.
  - rewrite IH; [|lia|intros; apply H; lia]. rewrite (H n); [ring|lia|lia].
Qed.
Lemma csum_const n (a : C) : csum n (fun _ => a) = RtoC (INR n) * a.
Proof.
  induction n as [|n IH]; simpl csum; [simpl; ring|]. rewrite IH, S_INR, RtoC_plus. ring.
Qed.
Lemma csum_conj n (f : nat -> C) : Cconj (csum n f) = csum n (fun k => Cconj (f k)).
Proof.
  induction n as [|n IH]; simpl.
  - unfold Cconj; simpl. rewrite Ropp_0. reflexivity.
  - rewrite <- IH. unfold Cconj, Cplus; simpl. f_equal. ring.
Qed.

(** Powers and the geometric sum. *)
Fixpoint cpow (z : C) (n : nat) : C := match n with O => 1 | S n => cpow z n * z end.
Lemma cpow_cis t n : cpow (cis t) n = cis (t * INR n).
Proof.
  induction n as [|n IH]; cbn [cpow].
  - simpl. rewrite Rmult_0_r, cis_0. reflexivity.
  - rewrite IH, <- cis_add, S_INR. f_equal. ring.
Qed.
Lemma geom (z : C) n : (z - 1) * csum n (cpow z) = cpow z n - 1.
Proof. induction n as [|n IH]; simpl; [ring|]. rewrite Cmult_plus_distr_l, IH. ring. Qed.

Lemma cis_eq_1 (N : nat) d : (0 < N)%nat -> (0 < d < Z.of_nat N)%Z -> cis (2 * PI * IZR d / INR N) <> 1.
Proof.
  intros HN Hd H. assert (P : (0 < INR N)%R) by (apply lt_0_INR; auto).
  injection H as Hc Hs.
  set (x := (PI * IZR d / INR N)%R).
  assert (E : (2 * PI * IZR d / INR N = 2 * x)%R) by (unfold x; field; lra).
  rewrite E in Hc. rewrite cos_2a_sin in Hc.
  assert (S0 : (0 < sin x)%R).
  { pose proof PI_RGT_0 as PP. destruct Hd as [H1 H2]. apply IZR_lt in H1, H2. rewrite <- INR_IZR_INZ in H2.
    apply sin_gt_0; unfold x.
    - apply Rdiv_lt_0_compat; auto. apply Rmult_lt_0_compat; auto.
    - apply Rmult_lt_reg_r with (INR N); auto. unfold Rdiv. rewrite Rmult_assoc, Rinv_l by lra.
      rewrite Rmult_1_r. apply Rmult_lt_compat_l; auto. }
  assert (0 < sin x * sin x)%R by (apply Rmult_lt_0_compat; auto). lra.
Qed.

Lemma cis_mod (N : nat) d : (0 < N)%nat ->
  cis (2 * PI * IZR d / INR N) = cis (2 * PI * IZR (d mod Z.of_nat N) / INR N).
Proof.
  intros HN. assert (P : (0 < INR N)%R) by (apply lt_0_INR; auto).
  rewrite (Z.div_mod d (Z.of_nat N)) at 1 by lia.
  rewrite plus_IZR, mult_IZR, <- (INR_IZR_INZ N).
  replace (2 * PI * (INR N * IZR (d / Z.of_nat N) + IZR (d mod Z.of_nat N)) / INR N)%R with
    (2 * PI * IZR (d mod Z.of_nat N) / INR N + 2 * PI * IZR (d / Z.of_nat N))%R by (field; lra).
  apply cis_period.
Qed.

(** Orthogonality of the Fourier vectors. *)
Lemma orthogonality (N : nat) d : (0 < N)%nat ->
  csum N (fun k => cis (2 * PI * IZR d * INR k / INR N)) =
  if (d mod Z.of_nat N =? 0)%Z then RtoC (INR N) else 0.
Proof.
  intros HN. assert (P : (0 < INR N)%R) by (apply lt_0_INR; auto).
  set (w := cis (2 * PI * IZR d / INR N)).
  assert (E : forall k, cis (2 * PI * IZR d * INR k / INR N) = cpow w k).
  { intros k. unfold w. rewrite cpow_cis. f_equal. field; lra. }
  rewrite (csum_ext N _ (cpow w)) by (intros; apply E).
  destruct (Z.eqb_spec (d mod Z.of_nat N) 0) as [Z0|Z0].
  - assert (W : w = 1).
    { unfold w. rewrite cis_mod, Z0 by auto. replace (2 * PI * 0 / INR N)%R with 0%R by (field; lra). apply cis_0. }
    rewrite (csum_ext N _ (fun _ => 1)); [rewrite csum_const; ring|].
    intros k _. rewrite W. clear. induction k; simpl; auto. rewrite IHk. ring.
  - assert (W : w <> 1).
    { unfold w. rewrite cis_mod by auto. apply cis_eq_1; auto.
      pose proof (Z.mod_pos_bound d (Z.of_nat N) ltac:(lia)). lia. }
    pose proof (geom w N) as G.
    assert (X : cpow w N = 1).
    { unfold w. rewrite cpow_cis. replace (2 * PI * IZR d / INR N * INR N)%R with (0 + 2 * PI * IZR d)%R by (field; lra).
      rewrite cis_period. apply cis_0. }
    rewrite X in G. replace (1 - 1) with (RtoC 0) in G by ring.
    assert (w - 1 <> 0). { intros C. apply W. replace w with ((w - 1) + 1) by ring. rewrite C. ring. }
    rewrite <- (Cmult_1_l (csum N (cpow w))). rewrite <- (Cinv_l (w - 1)) by auto.
    rewrite <- Cmult_assoc, G. ring.
Qed.

(** Discrete Fourier transform along one axis of length N. *)
Definition dft (N : nat) (f : nat -> C) (k : nat) : C :=
  csum N (fun j => f j * cis (- (2 * PI * INR j * INR k / INR N))).
Definition idft (N : nat) (F : nat -> C) (j : nat) : C :=
  csum N (fun k => F k * cis (2 * PI * INR j * INR k / INR N)) / RtoC (INR N).

Lemma INR_C_nonzero N : (0 < N)%nat -> RtoC (INR N) <> 0.
Proof. intros H C. injection C as C. apply lt_0_INR in H. lra. Qed.

Lemma idft_dft N (f : nat -> C) j : (j < N)%nat -> idft N (dft N f) j = f j.
Proof.
  intros Hj. assert (HN : (0 < N)%nat) by lia. unfold idft, dft.
  assert (P : (0 < INR N)%R) by (apply lt_0_INR; auto).
  rewrite (csum_ext N _ (fun k => csum N (fun i => f i * cis (2 * PI * IZR (Z.of_nat j - Z.of_nat i) * INR k / INR N)))).
  2:{ intros k _. rewrite <- csum_scal_r. apply csum_ext. intros i _. rewrite <- Cmult_assoc, <- cis_add.
      do 2 f_equal. rewrite minus_IZR, <- !INR_IZR_INZ. field; lra. }
  rewrite csum_swap.
  rewrite (csum_ext N _ (fun i => f i * (if ((Z.of_nat j - Z.of_nat i) mod Z.of_nat N =? 0)%Z then RtoC (INR N) else 0))).
  2:{ intros i _. rewrite csum_scal, orthogonality by auto. reflexivity. }
  rewrite (csum_single N _ j Hj).
  - rewrite Z.sub_diag, Z.mod_0_l by lia. simpl. field. apply INR_C_nonzero; auto.
  - intros i Hi D. destruct (Z.eqb_spec ((Z.of_nat j - Z.of_nat i) mod Z.of_nat N) 0) as [E|E]; [|ring].
    exfalso. apply Z.mod_divide in E; [|lia]. destruct E as [q E]. assert (q = 0)%Z by nia. lia.
Qed.

Lemma dft_idft N (F : nat -> C) k : (k < N)%nat -> dft N (idft N F) k = F k.
Proof.
  intros Hk. assert (HN : (0 < N)%nat) by lia. unfold idft, dft.
  assert (P : (0 < INR N)%R) by (apply lt_0_INR; auto).
  rewrite (csum_ext N _ (fun j => / RtoC (INR N) * csum N (fun l => F l * cis (2 * PI * IZR (Z.of_nat l - Z.of_nat k) * INR j / INR N)))).
  2:{ intros j _. unfold Cdiv. rewrite <- Cmult_assoc, (Cmult_comm (/ _)), Cmult_assoc, Cmult_comm.
      f_equal. rewrite <- csum_scal_r. apply csum_ext. intros i _. rewrite <- Cmult_assoc, <- cis_add.
      do 2 f_equal. rewrite minus_IZR, <- !INR_IZR_INZ. field; lra. }
  rewrite csum_scal, csum_swap.
  rewrite (csum_ext N _ (fun i => F i * (if ((Z.of_nat i - Z.of_nat k) mod Z.of_nat N =? 0)%Z then RtoC (INR N) else 0))).
  2:{ intros i _. rewrite csum_scal, orthogonality by auto. reflexivity. }
  rewrite (csum_single N _ k Hk).
  - rewrite Z.sub_diag, Z.mod_0_l by lia. simpl. field. apply INR_C_nonzero; auto.
  - intros i Hi D. destruct (Z.eqb_spec ((Z.of_nat i - Z.of_nat k) mod Z.of_nat N) 0) as [E|E]; [|ring].
    exfalso. apply Z.mod_divide in E; [|lia]. destruct E as [q E]. assert (q = 0)%Z by nia. lia.
Qed.
