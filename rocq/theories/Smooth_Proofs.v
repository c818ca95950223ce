From Verif Require Import Base Fourier_Lib Deposit_Spec Deposit_Proofs Hankel_Model Hankel_Spec Hankel_Proofs Psatd_Sources Smooth_Model Smooth_Spec.
From Coq Require Import Reals Lra Lia.
From Coquelicot Require Import Complex.
Open Scope Z_scope.

Lemma powerRZ_nat x n : powerRZ x (Z.of_nat n) = (x ^ n)%R.
Proof. symmetry. apply pow_powerRZ. Qed.
Definition s2 (k d : R) : R := (sin (0.5 * k * d) ^ 2)%R.
Lemma s2_bound k d : (0 <= s2 k d <= 1)%R.
Proof.
  unfold s2. pose proof (sin2_cos2 (0.5 * k * d)) as H. unfold Rsqr in H. pose proof (pow2_ge_0 (sin (0.5 * k * d))). pose proof (pow2_ge_0 (cos (0.5 * k * d))).
  split; [assumption|]. replace (sin (0.5 * k * d) ^ 2)%R with (1 - cos (0.5 * k * d) ^ 2)%R by (rewrite <- H; ring). lra.
Qed.
Lemma pow_le_1 x n : (0 <= x <= 1)%R -> (0 <= x ^ n <= 1)%R.
Proof. intros H. induction n as [|n IH]; cbn [pow]; [lra|]. split; [apply Rmult_le_pos; lra|]. rewrite <- (Rmult_1_r 1). apply Rmult_le_compat; lra. Qed.
Lemma bernoulli s n : (0 <= s)%R -> (1 + INR n * s <= (1 + s) ^ n)%R.
Proof.
  intros Hs. induction n as [|n IH]; [cbn; lra|]. rewrite S_INR. cbn [pow]. apply Rle_trans with ((1 + s) * (1 + INR n * s))%R; [|apply Rmult_le_compat_l; lra].
  assert (0 <= INR n * (s * s))%R by (apply Rmult_le_pos; [apply pos_INR|apply Rmult_le_pos; lra]). lra.
Qed.
Lemma compensated s n : (0 <= s <= 1)%R -> (0 <= (1 - s) ^ n * (1 + INR n * s) <= (1 - s * s) ^ n)%R.
Proof.
  intros Hs. assert (P := pow_le_1 (1 - s) n ltac:(lra)). pose proof (bernoulli s n ltac:(lra)) as B.
  assert (0 <= INR n * s)%R by (apply Rmult_le_pos; [apply pos_INR|lra]). split; [apply Rmult_le_pos; lra|].
  replace (1 - s * s)%R with ((1 - s) * (1 + s))%R by ring. rewrite Rpow_mult_distr. apply Rmult_le_compat_l; lra.
Qed.
Lemma factor_eq n b k d : filter_factor (Z.of_nat n) b k d =
  (if b then (1 - s2 k d) ^ n * (1 + INR n * s2 k d) else (1 - s2 k d) ^ n)%R.
Proof. unfold filter_factor. cbv zeta. rewrite powerRZ_nat. unfold s2. rewrite INR_IZR_INZ. reflexivity. Qed.
Lemma factor_bound n b k d : 0 <= n -> (0 <= filter_factor n b k d <= 1)%R.
Proof.
  intros Hn. rewrite <- (Z2Nat.id n Hn), factor_eq. set (N := Z.to_nat n). pose proof (s2_bound k d) as Hs. destruct b.
  - pose proof (compensated _ N Hs) as Hc. split; [apply Hc|]. eapply Rle_trans; [apply Hc|]. apply pow_le_1. nra.
  - apply pow_le_1. lra.
Qed.
Lemma factor_0 n b d : 0 <= n -> filter_factor n b 0 d = 1%R.
Proof.
  intros Hn. rewrite <- (Z2Nat.id n Hn), factor_eq. assert (E : s2 0 d = 0%R). { unfold s2. replace (0.5 * 0 * d)%R with 0%R by ring. rewrite sin_0. ring. }
  rewrite E. replace (1 - 0)%R with 1%R by ring. rewrite pow1. destruct b; ring.
Qed.
Lemma factor_zero_passes b k d : filter_factor 0 b k d = 1%R.
Proof. change 0 with (Z.of_nat 0). rewrite factor_eq. cbn [pow INR]. destruct b; ring. Qed.
Lemma factor_lt n b k d : 1 <= n -> (0 < 0.5 * k * d < PI)%R -> (filter_factor n b k d < 1)%R.
Proof.
  intros Hn Hk. assert (Sp : (0 < sin (0.5 * k * d))%R) by (apply sin_gt_0; lra).
  assert (S0 : (0 < s2 k d)%R) by (unfold s2; apply pow_lt; exact Sp). pose proof (s2_bound k d) as Hs.
  rewrite <- (Z2Nat.id n ltac:(lia)), factor_eq. destruct (Z.to_nat n) as [|N] eqn:E; [lia|].
  assert (L : forall x, (0 <= x < 1)%R -> (x ^ S N < 1)%R).
  { intros x Hx. cbn [pow]. pose proof (pow_le_1 x N ltac:(lra)). apply Rle_lt_trans with (x * 1)%R; [apply Rmult_le_compat_l; lra|lra]. }
  destruct b; [|apply L; lra]. eapply Rle_lt_trans; [apply compensated; exact Hs|]. apply L. nra.
Qed.

(** ** Charge *)
Lemma column_ifft Nz X ir : 0 < Nz -> lsum (fun iz => ifft Nz X iz ir) (range Nz) = X 0 ir.
Proof. intros H. rewrite <- fft_0. apply fft_ifft. lia. Qed.
Lemma column_spect tr G ir : 0 < t_Nz tr -> column_charge (t_Nz tr) (spect2interp_scal tr G) ir =
  lsum (fun j => Cmult (G 0 j) (RtoC (t_invM0 tr j ir))) (range (t_Nr tr)).
Proof. intros H. unfold column_charge, spect2interp_scal. rewrite column_ifft by exact H. apply dht_sum. lia. Qed.

Lemma kz_true_0 Nz dz : 0 < Nz -> kz_true Nz dz 0 = 0%R.
Proof. intros H. unfold kz_true. replace (2 * 0 <? Nz) with true by (symmetry; apply Z.ltb_lt; lia). unfold Rdiv. ring. Qed.
Lemma filter_kz0 s zeros rmax Nz Nr m dz dr G j : 0 < Nz -> 0 <= n_passes_z s ->
  filter_spect s zeros rmax Nz Nr m dz dr G 0 j = Cmult (RtoC (filter_factor (n_passes_r s) (comp_r s) (kr_of zeros rmax m j) dr)) (G 0 j).
Proof. intros H P. unfold filter_spect, filter_scalar, get_filter_array. cbn [fst snd]. rewrite kz_true_0, factor_0 by assumption. rewrite Rmult_1_l. reflexivity. Qed.

Lemma rsum_pos {A} (f : A -> R) l : l <> [] -> (forall a, In a l -> (0 < f a)%R) -> (0 < rsum f l)%R.
Proof.
  intros Hl H. destruct l as [|a l]; [contradiction|]. clear Hl. revert a H. induction l as [|b l IH]; intros a H.
  - cbn. specialize (H a (or_introl eq_refl)). lra.
  - change (0 < f a + rsum f (b :: l))%R. pose proof (H a (or_introl eq_refl)). pose proof (IH b ltac:(intros; apply H; right; assumption)). lra.
Qed.

Lemma charge_z_only s jn zeros rmax inv pinv Nz Nr m dz dr G ir : 0 < Nz -> 0 <= n_passes_z s -> n_passes_r s = 0 ->
  let tr := make_transformer jn zeros rmax inv pinv Nz Nr m in
  column_charge Nz (spect2interp_scal tr (filter_spect s zeros rmax Nz Nr m dz dr G)) ir = column_charge Nz (spect2interp_scal tr G) ir.
Proof.
  intros Hz P0 Pr tr. change Nz with (t_Nz tr). rewrite !column_spect by exact Hz. apply lsum_ext. intros j _.
  change (t_Nz tr) with Nz. rewrite filter_kz0, Pr, factor_zero_passes by assumption. ring.
Qed.

(** One radial mode. *)
Definition one_mode : Z -> Z -> C := fun iz ir => if (iz =? 0) && (ir =? 0) then RtoC 1 else RtoC 0.
Section Refute.
Context (jn : Z -> R -> R) (zeros : Z -> Z -> R) (rmax : R) (inv pinv : Z -> Z -> Z -> R) (vol : Z -> R) (Nz Nr : Z) (dz : R) (s : smoother).
Let tr := make_transformer jn zeros rmax inv pinv Nz Nr 0.
Let dr := (rmax / IZR Nr)%R.
Hypothesis Hinv : inverses_ok jn zeros rmax inv pinv Nr 0.
Hypotheses (HNz : 0 < Nz) (HNr : 0 < Nr) (Hrmax : (0 < rmax)%R).
Hypotheses (Hj0 : (0 < zeros 0 0 < 2 * PI)%R) (HJ : forall x, (0 <= x < zeros 0 0)%R -> (0 < jn 0 x)%R) (HJ1 : jn 1 (zeros 0 0) <> 0%R).
Hypothesis Hvol : forall ir, 0 <= ir < Nr -> (0 < vol ir)%R.
Hypotheses (Hs : 0 <= n_passes_z s) (Hr : 1 <= n_passes_r s).

Lemma invM_pos ir : 0 <= ir < Nr -> (0 < dht_invM jn zeros rmax Nr 0 0 0 ir)%R.
Proof.
  intros Hir. unfold dht_invM. cbv zeta. rewrite Z.eqb_refl. change (alphas zeros 0 0) with (zeros 0 0).
  assert (N0 : (0 < IZR Nr)%R) by (apply IZR_lt; lia). pose proof PI_RGT_0 as Hpi.
  assert (I0 : (0 <= IZR ir)%R) by (apply IZR_le; lia). assert (I1 : (IZR ir + 1 <= IZR Nr)%R) by (rewrite <- plus_IZR; apply IZR_le; lia).
  apply Rdiv_lt_0_compat.
  - apply HJ. replace (2 * PI * (rmax * 1 / IZR Nr * (IZR ir + 1 / 2)) * (1 / (2 * PI * rmax) * zeros 0 0))%R with
      (zeros 0 0 * ((IZR ir + 1 / 2) / IZR Nr))%R by (field; repeat split; lra).
    assert (0 < (IZR ir + 1 / 2) / IZR Nr < 1)%R.
    { split; [apply Rdiv_lt_0_compat; lra|]. apply (Rmult_lt_reg_r (IZR Nr)); [exact N0|]. replace ((IZR ir + 1 / 2) / IZR Nr * IZR Nr)%R with (IZR ir + 1 / 2)%R by (field; lra). lra. }
    split; [apply Rmult_le_pos; lra|]. rewrite <- (Rmult_1_r (zeros 0 0)) at 2. apply Rmult_lt_compat_l; lra.
  - apply Rmult_lt_0_compat; [apply Rmult_lt_0_compat; [lra|apply pow_lt; lra]|]. replace (0 + 1) with 1 by reflexivity.
    rewrite <- Rsqr_pow2. apply Rsqr_pos_lt. exact HJ1.
Qed.
Let q : R := rsum (fun ir => (vol ir * dht_invM jn zeros rmax Nr 0 0 0 ir)%R) (range Nr).
Lemma q_pos : (0 < q)%R.
Proof.
  apply rsum_pos.
  - intros E. apply (f_equal (@length Z)) in E. rewrite length_range in E. cbn in E. lia.
  - intros ir Hir. apply in_range in Hir. apply Rmult_lt_0_compat; [apply Hvol; lia|apply invM_pos; lia].
Qed.
Lemma one_mode_charge (G : Z -> Z -> C) a : G 0 0 = RtoC a -> (forall j, 0 < j < Nr -> G 0 j = RtoC 0) ->
  total_charge vol Nz Nr (spect2interp_scal tr G) = RtoC (a * q).
Proof.
  intros H0 H1. unfold total_charge.
  rewrite (lsum_ext _ (fun ir => RtoC (a * (vol ir * dht_invM jn zeros rmax Nr 0 0 0 ir)))).
  - rewrite lsum_rsum. f_equal. unfold q. clear. induction (range Nr) as [|x l IH]; cbn [rsum fold_right]; [ring|].
    unfold rsum in IH |- *. cbn [fold_right]. rewrite IH. ring.
  - intros ir _. change Nz with (t_Nz tr) at 1. rewrite column_spect by exact HNz. cbn [tr make_transformer t_Nr t_invM0].
    rewrite (lsum_ext _ (fun j => if j =? 0 then RtoC (a * dht_invM jn zeros rmax Nr 0 0 j ir) else RtoC 0)).
    + rewrite (lsum_single Nr 0 (fun j => RtoC (a * dht_invM jn zeros rmax Nr 0 0 j ir))) by lia. rewrite <- RtoC_mult. f_equal. ring.
    + intros j Hj. apply in_range in Hj. destruct (Z.eqb_spec j 0) as [->|Nj]; [rewrite H0, <- RtoC_mult; reflexivity|rewrite H1 by lia; ring].
Qed.
Lemma charge_changes : exists rho,
  let rho' := spect2interp_scal tr (filter_spect s zeros rmax Nz Nr 0 dz dr (interp2spect_scal tr rho)) in
  total_charge vol Nz Nr rho <> RtoC 0 /\ total_charge vol Nz Nr rho' <> total_charge vol Nz Nr rho.
Proof.
  exists (spect2interp_scal tr one_mode). intros rho'. set (f := filter_factor (n_passes_r s) (comp_r s) (kr_of zeros rmax 0 0) dr).
  assert (RT : forall iz ir, 0 <= iz < Nz -> 0 <= ir < Nr -> interp2spect_scal tr (spect2interp_scal tr one_mode) iz ir = one_mode iz ir).
  { intros. unfold tr. rewrite scal_roundtrip by assumption. reflexivity. }
  assert (Q0 : total_charge vol Nz Nr (spect2interp_scal tr one_mode) = RtoC (1 * q)).
  { apply one_mode_charge; [reflexivity|]. intros j Hj. unfold one_mode. replace (j =? 0) with false by (symmetry; apply Z.eqb_neq; lia). reflexivity. }
  assert (Q1 : total_charge vol Nz Nr rho' = RtoC (f * q)).
  { apply one_mode_charge.
    - rewrite filter_kz0 by assumption. rewrite RT by lia. fold f. cbn. ring.
    - intros j Hj. rewrite filter_kz0 by assumption. rewrite RT by lia. unfold one_mode. replace (j =? 0) with false by (symmetry; apply Z.eqb_neq; lia). cbn [andb Z.eqb]. ring. }
  pose proof q_pos as Qp. rewrite Q0, Q1. split; [intros E; injection E; lra|].
  assert (F : (f < 1)%R).
  { apply factor_lt; [exact Hr|]. unfold kr_of, dr. change (alphas zeros 0 0) with (zeros 0 0). pose proof PI_RGT_0 as Hpi.
    assert (N1 : (1 <= IZR Nr)%R) by (apply IZR_le; lia).
    replace (0.5 * (2 * PI * (1 / (2 * PI * rmax) * zeros 0 0)) * (rmax / IZR Nr))%R with (zeros 0 0 / 2 * / IZR Nr)%R by (rewrite half_R; field; lra).
    assert (0 < / IZR Nr <= 1)%R. { split; [apply Rinv_0_lt_compat; lra|]. rewrite <- Rinv_1. apply Rinv_le_contravar; lra. }
    split; [apply Rmult_lt_0_compat; lra|]. apply Rle_lt_trans with (zeros 0 0 / 2 * 1)%R; [apply Rmult_le_compat_l; lra|lra]. }
  intros E. injection E as E. apply Rlt_not_eq in F. apply F. apply (Rmult_eq_reg_r q); lra.
Qed.
End Refute.
