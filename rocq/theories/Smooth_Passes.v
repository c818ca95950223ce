(** The binomial smoother in real space (C39). *)
From Verif Require Import Base Fourier_Lib Deposit_Spec Deposit_Proofs Hankel_Model Hankel_Spec Hankel_Proofs Psatd_Sources Smooth_Model Smooth_Spec Smooth_Proofs.
From Coq Require Import Reals Lra Lia.
From Coquelicot Require Import Complex.
Open Scope Z_scope.

Lemma factor_transfer n b k d : filter_factor (Z.of_nat n) b k d = transfer n b (k * d).
Proof.
  rewrite factor_eq. unfold transfer, s2. replace (0.5 * k * d)%R with (k * d / 2)%R by lra.
  assert (E : (1 - sin (k * d / 2) ^ 2 = cos (k * d / 2) ^ 2)%R). { pose proof (sin2_cos2 (k * d / 2)) as H. unfold Rsqr in H. cbn [pow]. lra. }
  rewrite E. destruct b; ring.
Qed.
(** The factor of one pass at mode j. *)
Definition one_pass (Nz j : Z) : R := (cos (PI * IZR j / IZR Nz) ^ 2)%R.
Lemma cos2_pi x : (cos (x + PI) ^ 2 = cos x ^ 2)%R.
Proof. rewrite neg_cos. ring. Qed.
Lemma kz_phase Nz dz j : 0 < Nz -> (0 < dz)%R -> (cos (kz_true Nz dz j * dz / 2) ^ 2)%R = one_pass Nz j.
Proof.
  intros HN Hd. unfold kz_true, one_pass. assert (0 < IZR Nz)%R by (apply IZR_lt; lia).
  destruct (2 * j <? Nz).
  - do 2 f_equal. field. lra.
  - rewrite <- (cos2_pi (2 * PI * (IZR (j - Nz) / (IZR Nz * dz)) * dz / 2)). do 2 f_equal. rewrite minus_IZR. field. lra.
Qed.
Lemma kz_phase_sin Nz dz j : 0 < Nz -> (0 < dz)%R -> (sin (kz_true Nz dz j * dz / 2) ^ 2)%R = (1 - one_pass Nz j)%R.
Proof. intros HN Hd. rewrite <- (kz_phase Nz dz j HN Hd). pose proof (sin2_cos2 (kz_true Nz dz j * dz / 2)) as H. unfold Rsqr in H. cbn [pow]. lra. Qed.

Lemma ifft_period Nz X i ir q : 0 < Nz -> ifft Nz X (i + q * Nz) ir = ifft Nz X i ir.
Proof.
  intros HN. unfold ifft. f_equal. apply lsum_ext. intros j _. f_equal. assert (IZR Nz <> 0)%R by (apply not_0_IZR; lia).
  replace (2 * PI * IZR ((i + q * Nz) * j) / IZR Nz)%R with (2 * PI * IZR (i * j) / IZR Nz + 2 * PI * IZR (q * j))%R by (rewrite !mult_IZR, plus_IZR, mult_IZR; field; assumption).
  apply cis_period.
Qed.
Lemma ifft_mod Nz X i ir : 0 < Nz -> ifft Nz X (i mod Nz) ir = ifft Nz X i ir.
Proof. intros HN. rewrite (Z.div_mod i Nz) at 2 by lia. rewrite Z.add_comm, Z.mul_comm. symmetry. apply ifft_period. exact HN. Qed.
Lemma ifft_ext Nz X Y iz ir : (forall j, 0 <= j < Nz -> X j ir = Y j ir) -> ifft Nz X iz ir = ifft Nz Y iz ir.
Proof. intros H. unfold ifft. f_equal. apply lsum_ext. intros j Hj. apply in_range in Hj. rewrite H by lia. reflexivity. Qed.
Lemma pass_ext Nz f g : 0 < Nz -> (forall i, 0 <= i < Nz -> f i = g i) -> forall i, 0 <= i < Nz -> pass Nz f i = pass Nz g i.
Proof. intros HN H i Hi. unfold pass. rewrite !H by (try apply Z.mod_pos_bound; lia). reflexivity. Qed.
Lemma passes_ext Nz n f g : 0 < Nz -> (forall i, 0 <= i < Nz -> f i = g i) -> forall i, 0 <= i < Nz -> passes Nz n f i = passes Nz n g i.
Proof. intros HN H. induction n as [|n IH]; [exact H|]. apply pass_ext; assumption. Qed.

Lemma stencil Nz iz j : 0 < Nz ->
  Cplus (Cmult (RtoC (1 / 4)) (cis (2 * PI * IZR ((iz - 1) * j) / IZR Nz))) (Cplus (Cmult (RtoC (1 / 2)) (cis (2 * PI * IZR (iz * j) / IZR Nz)))
     (Cmult (RtoC (1 / 4)) (cis (2 * PI * IZR ((iz + 1) * j) / IZR Nz)))) =
  Cmult (RtoC (one_pass Nz j)) (cis (2 * PI * IZR (iz * j) / IZR Nz)).
Proof.
  intros HN. assert (IZR Nz <> 0)%R by (apply not_0_IZR; lia).
  set (x := (PI * IZR j / IZR Nz)%R). set (y := (2 * PI * IZR (iz * j) / IZR Nz)%R).
  replace (2 * PI * IZR ((iz - 1) * j) / IZR Nz)%R with (y + - (2 * x))%R by (unfold x, y; rewrite !mult_IZR, minus_IZR; field; assumption).
  replace (2 * PI * IZR ((iz + 1) * j) / IZR Nz)%R with (y + 2 * x)%R by (unfold x, y; rewrite !mult_IZR, plus_IZR; field; assumption).
  rewrite !cis_add, cis_neg. unfold one_pass. fold x.
  assert (E : Cplus (cis (2 * x)) (Cconj (cis (2 * x))) = RtoC (4 * cos x ^ 2 - 2)).
  { unfold cis, Cconj, Cplus, RtoC. cbn [fst snd]. f_equal; [|ring]. rewrite cos_2a. pose proof (sin2_cos2 x) as S. unfold Rsqr in S. replace (sin x * sin x)%R with (1 - cos x * cos x)%R by lra. ring. }
  replace (RtoC (cos x ^ 2)) with (Cmult (RtoC (1 / 4)) (Cplus (RtoC (4 * cos x ^ 2 - 2)) (RtoC 2))) by (rewrite <- RtoC_plus, <- RtoC_mult; f_equal; lra).
  rewrite <- E. replace (RtoC (1 / 2)) with (Cmult (RtoC (1 / 4)) (RtoC 2)) by (rewrite <- RtoC_mult; f_equal; lra). ring.
Qed.
Lemma pass_ifft Nz X ir iz : 0 < Nz -> pass Nz (fun i => ifft Nz X i ir) iz = ifft Nz (fun j r => Cmult (RtoC (one_pass Nz j)) (X j r)) iz ir.
Proof.
  intros HN. unfold pass. rewrite !ifft_mod by exact HN. unfold ifft.
  replace (Cplus _ _) with (Cmult (RtoC (1 / IZR Nz))
    (lsum (fun j => Cmult (Cplus (Cmult (RtoC (1 / 4)) (cis (2 * PI * IZR ((iz - 1) * j) / IZR Nz))) (Cplus (Cmult (RtoC (1 / 2)) (cis (2 * PI * IZR (iz * j) / IZR Nz)))
     (Cmult (RtoC (1 / 4)) (cis (2 * PI * IZR ((iz + 1) * j) / IZR Nz))))) (X j ir)) (range Nz))).
  - f_equal. apply lsum_ext. intros j _. rewrite stencil by exact HN. ring.
  - rewrite (lsum_ext _ (fun j => Cplus (Cmult (RtoC (1 / 4)) (Cmult (cis (2 * PI * IZR ((iz - 1) * j) / IZR Nz)) (X j ir)))
      (Cplus (Cmult (RtoC (1 / 2)) (Cmult (cis (2 * PI * IZR (iz * j) / IZR Nz)) (X j ir))) (Cmult (RtoC (1 / 4)) (Cmult (cis (2 * PI * IZR ((iz + 1) * j) / IZR Nz)) (X j ir)))))).
    + rewrite !lsum_plus, !lsum_scal. ring.
    + intros j _. ring.
Qed.
Lemma passes_ifft Nz n X ir iz : 0 < Nz -> 0 <= iz < Nz -> passes Nz n (fun i => ifft Nz X i ir) iz = ifft Nz (fun j r => Cmult (RtoC (one_pass Nz j ^ n)) (X j r)) iz ir.
Proof.
  intros HN. revert iz. induction n as [|n IH]; intros iz Hi.
  - cbn [passes Nat.iter pow]. apply ifft_ext. intros j _. ring.
  - change (passes Nz (S n) (fun i => ifft Nz X i ir) iz) with (pass Nz (passes Nz n (fun i => ifft Nz X i ir)) iz).
    rewrite (pass_ext Nz _ (fun i => ifft Nz (fun j r => Cmult (RtoC (one_pass Nz j ^ n)) (X j r)) i ir)) by assumption.
    rewrite pass_ifft by exact HN. apply ifft_ext. intros j _. cbn [pow]. rewrite RtoC_mult. ring.
Qed.
Lemma ifft_plus Nz X Y iz ir : ifft Nz (fun j r => Cplus (X j r) (Y j r)) iz ir = Cplus (ifft Nz X iz ir) (ifft Nz Y iz ir).
Proof.
  unfold ifft. rewrite (lsum_ext _ (fun j => Cplus (Cmult (cis (2 * PI * IZR (iz * j) / IZR Nz)) (X j ir)) (Cmult (cis (2 * PI * IZR (iz * j) / IZR Nz)) (Y j ir)))) by (intros; ring).
  rewrite lsum_plus. ring.
Qed.
Lemma ifft_scal Nz a X iz ir : ifft Nz (fun j r => Cmult a (X j r)) iz ir = Cmult a (ifft Nz X iz ir).
Proof.
  unfold ifft. rewrite (lsum_ext _ (fun j => Cmult a (Cmult (cis (2 * PI * IZR (iz * j) / IZR Nz)) (X j ir)))) by (intros; ring).
  rewrite lsum_scal. ring.
Qed.
Lemma smooth_ifft Nz dz n b X ir iz : 0 < Nz -> (0 < dz)%R -> 0 <= iz < Nz ->
  smooth_z Nz n b (fun i => ifft Nz X i ir) iz = ifft Nz (fun j r => Cmult (RtoC (transfer n b (kz_true Nz dz j * dz))) (X j r)) iz ir.
Proof.
  intros HN Hd Hi. unfold smooth_z, transfer. destruct b.
  - unfold compensate. rewrite (pass_ext Nz _ (fun i => ifft Nz (fun j r => Cmult (RtoC (one_pass Nz j ^ n)) (X j r)) i ir)) by (intros; try assumption; apply passes_ifft; assumption).
    rewrite pass_ifft, passes_ifft by assumption. unfold Cminus.
    replace (Copp (ifft Nz (fun j r => Cmult (RtoC (one_pass Nz j)) (Cmult (RtoC (one_pass Nz j ^ n)) (X j r))) iz ir)) with
      (Cmult (RtoC (- (1))) (ifft Nz (fun j r => Cmult (RtoC (one_pass Nz j)) (Cmult (RtoC (one_pass Nz j ^ n)) (X j r))) iz ir)) by (rewrite RtoC_opp; ring).
    rewrite <- ifft_scal, <- ifft_plus, <- ifft_scal, <- ifft_plus. apply ifft_ext. intros j _.
    rewrite kz_phase, kz_phase_sin by assumption. rewrite !RtoC_mult, RtoC_plus, RtoC_mult, RtoC_minus, RtoC_opp. ring.
  - rewrite passes_ifft by assumption. apply ifft_ext. intros j _. rewrite kz_phase by assumption. rewrite Rmult_1_r. reflexivity.
Qed.
Lemma dht_scal Nz Nr M (a : Z -> C) G iz ir : 0 <= iz < Nz -> dht Nz Nr M (fun i j => Cmult (a i) (G i j)) iz ir = Cmult (a iz) (dht Nz Nr M G iz ir).
Proof. intros H. rewrite !dht_sum by exact H. rewrite <- lsum_scal. apply lsum_ext. intros j _. ring. Qed.

Lemma smoothed_field nz nr bz br jn zeros rmax inv pinv Nz Nr m dz dr G iz ir : 0 < Nz -> (0 < dz)%R -> 0 <= iz < Nz ->
  let tr := make_transformer jn zeros rmax inv pinv Nz Nr m in
  spect2interp_scal tr (filter_spect {| n_passes_z := Z.of_nat nz; n_passes_r := Z.of_nat nr; comp_z := bz; comp_r := br |} zeros rmax Nz Nr m dz dr G) iz ir =
  smooth_z Nz nz bz (fun i => spect2interp_scal tr (fun i j => Cmult (RtoC (transfer nr br (kr_of zeros rmax m j * dr))) (G i j)) i ir) iz.
Proof.
  intros HN Hd Hi tr. unfold spect2interp_scal. change (t_Nz tr) with Nz. rewrite (smooth_ifft Nz dz) by assumption. apply ifft_ext. intros j Hj.
  rewrite <- (dht_scal Nz (t_Nr tr) (t_invM0 tr) (fun j => RtoC (transfer nz bz (kz_true Nz dz j * dz)))) by exact Hj. rewrite !dht_sum by exact Hj. apply lsum_ext. intros q _. f_equal.
  unfold filter_spect, filter_scalar, get_filter_array. cbn [fst snd n_passes_z n_passes_r comp_z comp_r]. rewrite !factor_transfer, RtoC_mult. ring.
Qed.
