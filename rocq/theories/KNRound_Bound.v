(** Proofs for C68: error bound and witnesses. *)
From Verif Require Import Base Compton_Model KN_Spec KN_Proofs KNRound_Model KNRound_Spec KNRound_Proofs.
From Coq Require Import Reals Lra Psatz.
From Flocq Require Import Core.Core Relative.
From Coquelicot Require Import Coquelicot.
Open Scope R_scope.

Local Instance prec53 : Prec_gt_0 53 := eq_refl.
Local Instance valid64 : Valid_exp (FLT_exp (-1074) 53) := FLT_exp_valid (-1074) 53.

(** ** The exact cross-section *)
Lemma sigma_eq k : 0 < k -> sigma_exact k = klein_nishina k.
Proof. intros Hk. unfold sigma_exact. apply is_RInt_unique, kn_total, Hk. Qed.
Lemma kn_thomson k x : 0 < k -> -1 <= x <= 1 -> kn k x <= 1 + x ^ 2.
Proof.
  intros Hk Hx. rewrite <- (f_kn k Hk) by lra. pose proof (factor_pos k Hk x ltac:(lra)) as HF. cbv zeta in *.
  set (w := k * (1 - x)). assert (Hw : 0 <= w) by (unfold w; apply Rmult_le_pos; lra).
  replace (k ^ 2 * (1 - x) ^ 2) with (w ^ 2) by (unfold w; ring). fold w. fold w in HF.
  apply (Rmult_le_reg_r ((1 + w) ^ 3)); [apply pow_lt; lra|]. unfold Rdiv. rewrite Rmult_assoc, Rinv_l by (apply pow_nonzero; lra).
  pose proof (pow2_ge_0 x). assert (0 <= w ^ 3) by (apply pow_le; lra). pose proof (pow2_ge_0 w).
  assert (0 <= x ^ 2 * (2 * w + 3 * w ^ 2 + w ^ 3)) by (apply Rmult_le_pos; lra).
  replace ((1 + x ^ 2) * (1 + w) ^ 3) with ((1 + x ^ 2) * (1 + w) + x ^ 2 * (2 * w + 3 * w ^ 2 + w ^ 3) + (2 * w + 3 * w ^ 2 + w ^ 3)) by ring. lra.
Qed.
Lemma sigma_range k : 0 < k -> 0 < sigma_exact k <= 8 / 3.
Proof.
  intros Hk. split; [apply (total_pos k Hk)|]. unfold sigma_exact.
  apply (is_RInt_le (kn k) (fun x => 1 + x ^ 2) (-1) 1); [lra| | |].
  - apply (RInt_correct (V := R_CompleteNormedModule)), kn_ex; [exact Hk|lra|lra].
  - apply (is_RInt_val _ _ _ (minus (1 + 1 ^ 3 / 3) (-1 + (-1) ^ 3 / 3) : R)).
    + apply (is_RInt_derive (V := R_CompleteNormedModule) (fun x => x + x ^ 3 / 3)).
      * intros x _. auto_derive; [exact I|]. field.
      * intros x _. apply (ex_derive_continuous (K := R_AbsRing) (V := R_NormedModule)). auto_derive. exact I.
    + unfold minus, plus, opp; simpl. field.
  - intros x Hx. apply kn_thomson; lra.
Qed.

(** ** Error bound *)
Lemma near_abs n x xh : 0 < x -> near n x xh -> Rabs (xh - x) <= x * (V ^ n - 1).
Proof.
  intros Hx H. pose proof (near_pos n x xh Hx H) as P. destruct H as [A B]. pose proof (Vn_ge n) as Q. set (w := V ^ n) in *.
  apply Rabs_le. split; [|lra]. assert (x - xh <= x * (w - 1)); [|lra].
  assert (x * (2 - w) <= xh); [|lra]. apply (Rmult_le_reg_r w); [lra|]. apply (Rle_trans _ x); [|lra].
  assert (0 <= x * (w - 1) ^ 2) by (apply Rmult_le_pos; [lra|apply pow2_ge_0]). lra.
Qed.
Lemma v_small : v <= / 1000000.
Proof.
  unfold v. apply Rinv_le_contravar; [lra|]. apply (Rle_trans _ (2 ^ 20)); [lra|]. apply Rle_pow; [lra|lia].
Qed.
Lemma rnd_err x : Rabs (rnd x - x) <= v * Rabs x + v * v * v.
Proof.
  destruct (error_N_FLT radix2 (-1074) 53 prec53 (fun x => negb (Z.even x)) x) as (e & h & He & Hh & _ & E).
  unfold rnd. change ZnearestE with (Znearest (fun x => negb (Z.even x))). rewrite E.
  assert (U : / 2 * bpow radix2 (-53 + 1) = v / 2).
  { unfold v. change (bpow radix2 (-53 + 1)) with (/ IZR (2 ^ Z.of_nat 52)). rewrite <- pow_IZR. unfold Rdiv. apply Rmult_comm. }
  assert (He' : Rabs e <= v / 2) by (rewrite <- U; exact He).
  assert (U2 : / 2 * bpow radix2 (-1074) <= v * v * v).
  { unfold v. change 2 with (IZR 2) at 2 3 4. rewrite pow_IZR. change (/ IZR (2 ^ Z.of_nat 52)) with (bpow radix2 (-52)).
    rewrite <- !bpow_plus. change (/ 2) with (bpow radix2 (-1)). rewrite <- bpow_plus. apply bpow_le. lia. }
  replace (x * (1 + e) + h - x) with (x * e + h) by ring. apply (Rle_trans _ _ _ (Rabs_triang _ _)).
  rewrite Rabs_mult. pose proof (Rabs_pos x). pose proof v_pos.
  assert (Rabs x * Rabs e <= Rabs x * v) by (apply Rmult_le_compat_l; lra). lra.
Qed.
Lemma ln_le a b : 0 < a -> a <= b -> ln a <= ln b.
Proof. intros Ha [H| ->]; [left; apply ln_increasing; assumption|right; reflexivity]. Qed.
Lemma ln_up x : 0 <= x -> ln (1 + x) <= x.
Proof.
  intros Hx. pose proof (exp_ineq1_le x) as H. apply ln_le in H; [|lra]. rewrite ln_exp in H. exact H.
Qed.
Lemma ln_low x : 0 <= x -> x / (1 + x) <= ln (1 + x).
Proof.
  intros Hx. assert (E : ln (/ (1 + x)) <= / (1 + x) - 1).
  { pose proof (exp_ineq1_le (/ (1 + x) - 1)) as X. replace (1 + (/ (1 + x) - 1)) with (/ (1 + x)) in X by ring.
    apply ln_le in X; [|apply Rinv_0_lt_compat; lra]. rewrite ln_exp in X. exact X. }
  rewrite ln_Rinv in E by lra. replace (x / (1 + x)) with (1 - / (1 + x)) by (field; lra). lra.
Qed.
Lemma ln_near_abs n x xh : 0 < x -> near n x xh -> Rabs (ln xh - ln x) <= INR n * v.
Proof.
  intros Hx H. pose proof (near_pos n x xh Hx H) as P. destruct H as [A B].
  assert (Q : 0 < V ^ n) by (apply pow_lt; pose proof V_gt; lra).
  assert (L : ln (V ^ n) <= INR n * v).
  { rewrite ln_pow by (pose proof V_gt; lra). apply Rmult_le_compat_l; [apply pos_INR|]. apply ln_up. pose proof v_pos. lra. }
  apply ln_le in A; [|exact Hx]. rewrite ln_mult in A by assumption. apply ln_le in B; [|exact P]. rewrite ln_mult in B by assumption.
  apply Rabs_le. lra.
Qed.

(** The two terms before the last subtraction, with the rounded argument g of the logarithm. *)
Lemma terms log k (g := rnd (1 + rnd (2 * k))) (N := 2 + k * (2 - k)) : good_log log -> / 2 ^ 40 <= k -> k <= 1 ->
  exists f1 f2, klein_nishina_b64 log k = rnd (f1 - f2) /\
    Rabs (f1 - f2 - (sigma_exact k + N * (ln (1 + 2 * k) - ln g) / k ^ 3)) <= 1336 * (v / k ^ 2) /\
    Rabs (N * (ln (1 + 2 * k) - ln g) / k ^ 3) <= 6 * (v / k ^ 3) /\ 2 <= N <= 3.
Proof.
  intros Hlog H0 H1. pose proof (Kp k H0) as K. destruct (decompose log k Hlog H0 H1) as (f1 & f2 & E & N1 & N2).
  exists f1, f2. split; [exact E|]. rewrite (sigma_eq k K). pose proof (sigma_range k K) as SR. rewrite (sigma_eq k K) in SR.
  pose proof (g_near k H0) as G. pose proof (g_ge k H0) as Gg. pose proof (ln_g_ge k H0) as HL.
  fold g in G, Gg, HL, N2. fold N in N2.
  pose proof (N_range k H0 H1) as HN. fold N in HN.
  set (F1 := 2 * (2 + k * (1 + k) * (8 + k)) / (k ^ 2 * (1 + 2 * k) ^ 2)) in *.
  assert (Ekn : klein_nishina k = F1 - N * ln (1 + 2 * k) / k ^ 3) by reflexivity.
  assert (K2 : 0 < k ^ 2) by (apply pow_lt; lra). assert (K3 : 0 < k ^ 3) by (apply pow_lt; lra).
  pose proof v_pos as Vp. pose proof v_small as Vs.
  set (w := v / k ^ 3). assert (Hw : 0 < w) by (apply Rdiv_lt_0_compat; lra).
  assert (Ew : v = k ^ 3 * w) by (unfold w; field; lra).
  assert (Ew2 : v / k ^ 2 = k * w) by (unfold w; field; lra).
  assert (Vkw : v <= k * w). { rewrite Ew. replace (k ^ 3 * w) with (k ^ 2 * (k * w)) by ring. assert (0 < k * w) by nra. assert (k ^ 2 <= 1) by nra. nra. }
  assert (P40 : 0 < / 2 ^ 40) by (apply Rinv_0_lt_compat, pow_lt; lra).
  (* f1 *)
  assert (PF : 0 < F1 <= 40 / k ^ 2).
  { assert (D : 1 <= (1 + 2 * k) ^ 2) by nra. assert (B : 0 < 2 + k * (1 + k) * (8 + k) <= 20).
    { assert (0 < k * (1 + k)) by nra. assert (k * (1 + k) <= 2) by nra. nra. }
    unfold F1. split; [apply Rdiv_lt_0_compat; [lra|apply Rmult_lt_0_compat; lra]|].
    apply (Rmult_le_reg_r (k ^ 2 * (1 + 2 * k) ^ 2)); [apply Rmult_lt_0_compat; lra|].
    replace (2 * (2 + k * (1 + k) * (8 + k)) / (k ^ 2 * (1 + 2 * k) ^ 2) * (k ^ 2 * (1 + 2 * k) ^ 2)) with (2 * (2 + k * (1 + k) * (8 + k)))
      by (field; split; lra).
    replace (40 / k ^ 2 * (k ^ 2 * (1 + 2 * k) ^ 2)) with (40 * (1 + 2 * k) ^ 2) by (field; lra). lra. }
  assert (A1 : Rabs (f1 - F1) <= 1120 * (k * w)).
  { apply (Rle_trans _ _ _ (near_abs _ _ _ (proj1 PF) N1)). pose proof (Vn_le 14 ltac:(lia)) as X.
    replace (INR 14) with 14 in X by (rewrite INR_IZR_INZ; reflexivity).
    apply (Rle_trans _ (40 / k ^ 2 * (28 * v))); [apply Rmult_le_compat; pose proof (Vn_ge 14); lra|].
    right. rewrite <- Ew2. field. lra. }
  (* f2 *)
  set (M := N * ln g / k ^ 3) in *.
  assert (LG : ln g <= 3 * k).
  { destruct G as [_ G]. pose proof (Vn_le 2 ltac:(lia)) as X. replace (INR 2) with 2 in X by (cbn; ring).
    assert (g <= (1 + 2 * k) * (1 + 2 * 2 * v)) by (apply (Rle_trans _ _ _ G); apply Rmult_le_compat_l; lra).
    assert (Hg : g <= 1 + 3 * k).
    { assert (12 * v <= k); [|nra]. apply (Rle_trans _ (/ 2 ^ 40)); [|exact H0]. unfold v.
      apply (Rmult_le_reg_r (2 ^ 52)); [apply pow_lt; lra|]. rewrite Rmult_assoc, Rinv_l, Rmult_1_r by (apply pow_nonzero; lra).
      replace (2 ^ 52) with (2 ^ 40 * 2 ^ 12) by (rewrite <- pow_add; reflexivity).
      rewrite <- Rmult_assoc, Rinv_l, Rmult_1_l by (apply pow_nonzero; lra). lra. }
    apply (Rle_trans _ (ln (1 + 3 * k))); [apply ln_le; lra|]. apply ln_up. lra. }
  assert (PM : 0 < M <= 9 / k ^ 2).
  { unfold M. split; [apply Rdiv_lt_0_compat; [apply Rmult_lt_0_compat; lra|lra]|].
    apply (Rle_trans _ (3 * (3 * k) / k ^ 3)); [|right; field; lra].
    apply Rmult_le_compat_r; [left; apply Rinv_0_lt_compat; lra|]. apply Rmult_le_compat; lra. }
  assert (A2 : Rabs (f2 - M) <= 216 * (k * w)).
  { apply (Rle_trans _ _ _ (near_abs _ _ _ (proj1 PM) N2)). pose proof (Vn_le 12 ltac:(lia)) as X.
    replace (INR 12) with 12 in X by (rewrite INR_IZR_INZ; reflexivity).
    apply (Rle_trans _ (9 / k ^ 2 * (24 * v))); [apply Rmult_le_compat; pose proof (Vn_ge 12); lra|].
    right. rewrite <- Ew2. field. lra. }
  assert (A3 : Rabs (N * (ln (1 + 2 * k) - ln g) / k ^ 3) <= 6 * w).
  { pose proof (ln_near_abs 2 (1 + 2 * k) g ltac:(lra) G) as X. replace (INR 2) with 2 in X by (cbn; ring).
    rewrite <- Rabs_Ropp. replace (- (N * (ln (1 + 2 * k) - ln g) / k ^ 3)) with (N / k ^ 3 * (ln g - ln (1 + 2 * k))) by (field; lra).
    assert (0 < N / k ^ 3) by (apply Rdiv_lt_0_compat; lra). rewrite Rabs_mult, (Rabs_pos_eq (N / k ^ 3)) by lra.
    apply (Rle_trans _ (N / k ^ 3 * (2 * v))); [apply Rmult_le_compat_l; lra|].
    apply (Rle_trans _ (3 / k ^ 3 * (2 * v))); [|right; unfold w; field; lra].
    apply Rmult_le_compat_r; [lra|]. apply Rmult_le_compat_r; [left; apply Rinv_0_lt_compat; lra|lra]. }
  split; [|split; [exact A3|exact HN]]. rewrite Ew2, Ekn.
  replace (F1 - N * ln (1 + 2 * k) / k ^ 3 + N * (ln (1 + 2 * k) - ln g) / k ^ 3) with (F1 - M) by (unfold M; field; lra).
  apply Rabs_le_inv in A1. apply Rabs_le_inv in A2. apply Rabs_le. lra.
Qed.
Lemma error_bound log k : good_log log -> / 2 ^ 40 <= k -> k <= 1 ->
  Rabs (klein_nishina_b64 log k - sigma_exact k) <= (7 + 1500 * k) * v / k ^ 3.
Proof.
  intros Hlog H0 H1. pose proof (Kp k H0) as K. destruct (terms log k Hlog H0 H1) as (f1 & f2 & E & A1 & A3 & HN).
  rewrite E. pose proof (sigma_range k K) as SR.
  assert (K2 : 0 < k ^ 2) by (apply pow_lt; lra). assert (K3 : 0 < k ^ 3) by (apply pow_lt; lra).
  pose proof v_pos as Vp. pose proof v_small as Vs.
  set (w := v / k ^ 3) in *. assert (Hw : 0 < w) by (apply Rdiv_lt_0_compat; lra).
  assert (Ew : v = k ^ 3 * w) by (unfold w; field; lra).
  assert (Ew2 : v / k ^ 2 = k * w) by (unfold w; field; lra). rewrite Ew2 in A1.
  assert (Vkw : v <= k * w). { rewrite Ew. replace (k ^ 3 * w) with (k ^ 2 * (k * w)) by ring. assert (0 < k * w) by nra. assert (k ^ 2 <= 1) by nra. nra. }
  set (T := _ / k ^ 3) in A1, A3.
  pose proof (rnd_err (f1 - f2)) as R1.
  set (kw := k * w) in *. assert (Hkw : 0 < kw) by (unfold kw; nra).
  apply Rabs_le_inv in A1. apply Rabs_le_inv in A3.
  assert (X : Rabs (f1 - f2) <= 3 + 6 * w + 1336 * kw) by (apply Rabs_le; lra).
  assert (R2 : Rabs (rnd (f1 - f2) - (f1 - f2)) <= / 2 * w + 10 * kw).
  { apply (Rle_trans _ _ _ R1). apply (Rle_trans _ (v * (3 + 6 * w + 1336 * kw) + v)).
    - apply Rplus_le_compat; [apply Rmult_le_compat_l; lra|]. nra.
    - assert (v * w <= / 1000000 * w) by (apply Rmult_le_compat_r; lra).
      assert (v * kw <= / 1000000 * kw) by (apply Rmult_le_compat_r; lra). lra. }
  apply Rabs_le_inv in R2.
  replace ((7 + 1500 * k) * v / k ^ 3) with (7 * w + 1500 * kw) by (unfold kw, w; field; lra).
  apply Rabs_le. lra.
Qed.

(** ** Witnesses: k = 2^-19 + s 3 2^-56 with s = 1 or -1 *)
Definition k_w (s : Z) : R := / 2 ^ 19 + IZR s * 3 / 2 ^ 56.
Lemma k_w_double s : (s = 1 \/ s = -1)%Z -> is_double (k_w s).
Proof.
  intros Hs. unfold is_double. apply generic_format_FLT. exists (Float radix2 (2 ^ 37 + s * 3) (-56)).
  - unfold F2R, k_w. cbn [Fnum Fexp]. rewrite plus_IZR, mult_IZR. change (bpow radix2 (-56)) with (/ IZR (2 ^ Z.of_nat 56)).
    rewrite <- pow_IZR. replace (IZR (2 ^ 37)) with (2 ^ 37) by (rewrite pow_IZR; reflexivity).
    replace (2 ^ 56) with (2 ^ 19 * 2 ^ 37) by (cbn [pow]; ring). field; repeat split; apply pow_nonzero; lra.
  - cbn [Fnum]. destruct Hs as [-> | ->]; reflexivity. - cbn. lia.
Qed.
Lemma inv2 n : / 2 ^ n = bpow radix2 (- Z.of_nat n).
Proof. rewrite bpow_opp. f_equal. rewrite <- IZR_Zpower by lia. apply pow_IZR. Qed.
Lemma k_w_2 s : (s = 1 \/ s = -1)%Z -> rnd (2 * k_w s) = 2 * k_w s.
Proof.
  intros Hs. unfold rnd. apply round_generic; [typeclasses eauto|]. apply generic_format_FLT.
  exists (Float radix2 (2 ^ 37 + s * 3) (-55)).
  - unfold F2R, k_w. cbn [Fnum Fexp]. rewrite plus_IZR, mult_IZR. change (bpow radix2 (-55)) with (/ IZR (2 ^ Z.of_nat 55)).
    rewrite <- pow_IZR. replace (IZR (2 ^ 37)) with (2 ^ 37) by (rewrite pow_IZR; reflexivity).
    replace (2 ^ 56) with (2 * 2 ^ 18 * 2 ^ 37) by (cbn [pow]; ring).
    replace (2 ^ 55) with (2 ^ 18 * 2 ^ 37) by (cbn [pow]; ring).
    replace (2 ^ 19) with (2 * 2 ^ 18) by (cbn [pow]; ring). field; repeat split; apply pow_nonzero; lra.
  - cbn [Fnum]. destruct Hs as [-> | ->]; reflexivity. - cbn. lia.
Qed.
Lemma g_w s : (s = 1 \/ s = -1)%Z -> rnd (1 + rnd (2 * k_w s)) = 1 + / 2 ^ 18.
Proof.
  intros Hs. rewrite (k_w_2 s Hs). set (x := 1 + 2 * k_w s).
  assert (Hx : x = 1 + / 2 ^ 18 + IZR s * 3 / 2 ^ 55).
  { unfold x, k_w. replace (2 ^ 56) with (2 * 2 ^ 55) by (cbn [pow]; ring). replace (2 ^ 19) with (2 * 2 ^ 18) by (cbn [pow]; ring).
    field; repeat split; apply pow_nonzero; lra. }
  assert (B18 : 0 < / 2 ^ 18 <= / 1000). { split; [apply Rinv_0_lt_compat, pow_lt; lra|]. apply Rinv_le_contravar; [lra|]. apply (Rle_trans _ (2 ^ 10)); [lra|apply Rle_pow; [lra|lia]]. }
  assert (B55 : 0 < / 2 ^ 55 <= / 2 ^ 28). { split; [apply Rinv_0_lt_compat, pow_lt; lra|]. apply Rinv_le_contravar; [apply pow_lt; lra|apply Rle_pow; [lra|lia]]. }
  assert (B28 : / 2 ^ 28 = / 2 ^ 18 * / 2 ^ 10). { rewrite <- Rinv_mult. f_equal. rewrite <- pow_add. reflexivity. }
  assert (B10 : / 2 ^ 10 <= / 1000) by (apply Rinv_le_contravar; lra).
  assert (HS : -1 <= IZR s <= 1) by (destruct Hs as [-> | ->]; cbn; lra).
  assert (X12 : 1 <= x < 2). { rewrite Hx. unfold Rdiv. set (q := / 2 ^ 55) in *. set (r := / 2 ^ 18) in *. split; nra. }
  unfold rnd, round, scaled_mantissa, cexp, F2R. cbn [Fnum Fexp].
  rewrite (mag_unique radix2 x 1) by (rewrite Rabs_pos_eq by lra; cbn; lra).
  change (FLT_exp (-1074) 53 1) with (-52)%Z. change (- -52)%Z with 52%Z.
  assert (Z1 : ZnearestE (x * bpow radix2 52) = (2 ^ 52 + 2 ^ 34)%Z).
  { apply Znearest_imp. rewrite plus_IZR.
    replace (x * bpow radix2 52 - (IZR (2 ^ 52) + IZR (2 ^ 34))) with (IZR s * 3 / 8).
    - apply Rabs_def1; lra.
    - change (bpow radix2 52) with (IZR (2 ^ 52)). change (2 ^ 52)%Z with (2 ^ Z.of_nat 52)%Z. change (2 ^ 34)%Z with (2 ^ Z.of_nat 34)%Z.
      rewrite <- !pow_IZR. rewrite Hx. replace (2 ^ 55) with (8 * 2 ^ 52) by (cbn [pow]; ring).
      replace (2 ^ 52) with (2 ^ 18 * 2 ^ 34) by (cbn [pow]; ring). field; repeat split; apply pow_nonzero; lra. }
  rewrite Z1, plus_IZR. change (bpow radix2 (-52)) with (/ IZR (2 ^ 52)). change (2 ^ 52)%Z with (2 ^ Z.of_nat 52)%Z. change (2 ^ 34)%Z with (2 ^ Z.of_nat 34)%Z.
  rewrite <- !pow_IZR. replace (2 ^ 52) with (2 ^ 18 * 2 ^ 34) by (cbn [pow]; ring). field; repeat split; apply pow_nonzero; lra.
Qed.

Lemma k_w_range s : (s = 1 \/ s = -1)%Z -> 999 / 1000 * / 2 ^ 19 <= k_w s <= 1001 / 1000 * / 2 ^ 19.
Proof.
  intros Hs. assert (HS : -1 <= IZR s <= 1) by (destruct Hs as [-> | ->]; cbn; lra). unfold k_w.
  replace (IZR s * 3 / 2 ^ 56) with (IZR s * 3 / 2 ^ 37 * / 2 ^ 19) by (replace (2 ^ 56) with (2 ^ 19 * 2 ^ 37) by (cbn [pow]; ring); field; split; apply pow_nonzero; lra).
  assert (P : 0 < / 2 ^ 19) by (apply Rinv_0_lt_compat, pow_lt; lra).
  assert (Q : 0 < / 2 ^ 37 <= / 10000). { split; [apply Rinv_0_lt_compat, pow_lt; lra|]. apply Rinv_le_contravar; [lra|]. apply (Rle_trans _ (2 ^ 14)); [lra|apply Rle_pow; [lra|lia]]. }
  assert (- / 1000 <= IZR s * 3 / 2 ^ 37 <= / 1000) by (unfold Rdiv; nra). set (r := IZR s * 3 / 2 ^ 37) in *. nra.
Qed.
Lemma double_20 : is_double 20 /\ is_double (-20).
Proof.
  split; unfold is_double; apply generic_format_FLT; [exists (Float radix2 20 0)|exists (Float radix2 (-20) 0)]; try (unfold F2R; cbn; ring); cbn; lia.
Qed.
(** The error made on the logarithm. *)
Lemma log_gap s : (s = 1 \/ s = -1)%Z -> let k := k_w s in let N := 2 + k * (2 - k) in
  let T := N * (ln (1 + 2 * k) - ln (1 + / 2 ^ 18)) / k ^ 3 in (s = 1%Z -> 23 <= T) /\ (s = (-1)%Z -> T <= - 23).
Proof.
  intros Hs k N T. pose proof (k_w_range s Hs) as R1. fold k in R1. set (q := / 2 ^ 19) in *.
  assert (Pq : 0 < q) by (apply Rinv_0_lt_compat, pow_lt; lra).
  assert (Q18 : / 2 ^ 18 = 2 * q) by (unfold q; rewrite (half_pow 18); field; try (apply pow_nonzero; lra)).
  assert (Sq : q <= / 1000). { unfold q. apply Rinv_le_contravar; [lra|]. apply (Rle_trans _ (2 ^ 10)); [lra|apply Rle_pow; [lra|lia]]. }
  set (e := 3 / 2 ^ 55). assert (Pe : 0 < e) by (apply Rdiv_lt_0_compat; [lra|apply pow_lt; lra]).
  assert (Ee : e = 12 * q ^ 3).
  { unfold e, q. replace (2 ^ 55) with (2 ^ 19 * 2 ^ 19 * 2 ^ 17) by (cbn [pow]; ring).
    replace (2 ^ 19) with (4 * 2 ^ 17) by (cbn [pow]; ring). field; try (apply pow_nonzero; lra). }
  assert (Se : e <= / 1000). { rewrite Ee. assert (q ^ 3 <= / 1000 * / 1000 * / 1000); [|lra]. replace (q ^ 3) with (q * q * q) by ring. repeat apply Rmult_le_compat; nra. }
  assert (E2k : 1 + 2 * k = 1 + 2 * q + IZR s * e).
  { unfold k, k_w, e. fold q. replace (2 ^ 56) with (2 * 2 ^ 55) by (cbn [pow]; ring). field; try (apply pow_nonzero; lra). }
  assert (K : 0 < k) by lra. assert (K3 : 0 < k ^ 3) by (apply pow_lt; lra).
  assert (K3u : k ^ 3 <= 101 / 100 * q ^ 3).
  { apply (Rle_trans _ ((1001 / 1000 * q) ^ 3)); [apply pow_incr; lra|]. replace ((1001 / 1000 * q) ^ 3) with ((1001 / 1000) ^ 3 * q ^ 3) by ring.
    apply Rmult_le_compat_r; [apply pow_le; lra|]. lra. }
  assert (HN : 2 <= N) by (unfold N; nra).
  assert (Low : forall d, 0 < d -> 100 / 101 * e <= d -> 23 <= N * d / k ^ 3).
  { intros d Hd He. apply (Rmult_le_reg_r (k ^ 3)); [exact K3|]. unfold Rdiv. rewrite Rmult_assoc, Rinv_l by lra. rewrite Rmult_1_r.
    apply (Rle_trans _ (2 * d)); [|apply Rmult_le_compat_r; lra]. rewrite Ee in He. lra. }
  unfold T. rewrite Q18, E2k. set (g := 1 + 2 * q). assert (Hg : 1 <= g <= 1002 / 1000) by (unfold g; lra).
  split; intros ->.
  - replace (g + 1 * e) with (g * (1 + e / g)) by (field; lra). assert (0 < e / g) by (apply Rdiv_lt_0_compat; lra).
    rewrite ln_mult by lra. replace (ln g + ln (1 + e / g) - ln g) with (ln (1 + e / g)) by ring.
    assert (H2 : 100 / 101 * e <= ln (1 + e / g)).
    { apply (Rle_trans _ (e / g / (1 + e / g))); [|apply ln_low; lra]. replace (e / g / (1 + e / g)) with (/ (g + e) * e) by (field; lra).
      apply Rmult_le_compat_r; [lra|]. replace (100 / 101) with (/ (101 / 100)) by field. apply Rinv_le_contravar; lra. }
    apply Low; [|exact H2]. lra.
  - replace (g + -1 * e) with (g - e) by ring.
    assert (E : ln g = ln (g - e) + ln (1 + e / (g - e))).
    { rewrite <- ln_mult; [f_equal; field; lra|lra|]. assert (0 < e / (g - e)) by (apply Rdiv_lt_0_compat; lra). lra. }
    rewrite E. replace (N * (ln (g - e) - (ln (g - e) + ln (1 + e / (g - e)))) / k ^ 3) with (- (N * ln (1 + e / (g - e)) / k ^ 3)) by (field; lra).
    assert (0 < e / (g - e)) by (apply Rdiv_lt_0_compat; lra).
    assert (H2 : 100 / 101 * e <= ln (1 + e / (g - e))).
    { apply (Rle_trans _ (e / (g - e) / (1 + e / (g - e)))); [|apply ln_low; lra].
      replace (e / (g - e) / (1 + e / (g - e))) with (/ g * e) by (field; lra).
      apply Rmult_le_compat_r; [lra|]. replace (100 / 101) with (/ (101 / 100)) by field. apply Rinv_le_contravar; lra. }
    assert (23 <= N * ln (1 + e / (g - e)) / k ^ 3) by (apply Low; [lra|exact H2]). lra.
Qed.
Lemma witness log s : good_log log -> (s = 1 \/ s = -1)%Z ->
  (s = 1%Z -> 20 <= klein_nishina_b64 log (k_w s)) /\ (s = (-1)%Z -> klein_nishina_b64 log (k_w s) <= -20).
Proof.
  intros Hlog Hs. pose proof (k_w_range s Hs) as R1. set (k := k_w s) in *. set (q := / 2 ^ 19) in *.
  assert (Pq : 0 < q) by (apply Rinv_0_lt_compat, pow_lt; lra).
  assert (Sq : q <= / 1000). { unfold q. apply Rinv_le_contravar; [lra|]. apply (Rle_trans _ (2 ^ 10)); [lra|apply Rle_pow; [lra|lia]]. }
  assert (H0 : / 2 ^ 40 <= k). { apply (Rle_trans _ (/ 2 ^ 20)); [apply Rinv_le_contravar; [apply pow_lt; lra|apply Rle_pow; [lra|lia]]|]. rewrite (half_pow 19). fold q. lra. }
  destruct (terms log k Hlog H0 ltac:(lra)) as (f1 & f2 & E & A1 & _ & _). rewrite E.
  pose proof (sigma_range k ltac:(lra)) as SR.
  assert (G : rnd (1 + rnd (2 * k)) = 1 + / 2 ^ 18) by apply (g_w s Hs). rewrite G in A1.
  pose proof (log_gap s Hs) as LG. cbv zeta in LG. fold k in LG. set (T := _ / k ^ 3) in A1, LG.
  assert (B : 1336 * (v / k ^ 2) <= / 5).
  { assert (v / k ^ 2 <= / 10000); [|lra]. assert (Ev : v = q ^ 2 * / 2 ^ 14).
    { unfold v, q. replace (2 ^ 52) with (2 ^ 19 * 2 ^ 19 * 2 ^ 14) by (cbn [pow]; ring). field; repeat split; apply pow_nonzero; lra. }
    assert (K2 : 998 / 1000 * q ^ 2 <= k ^ 2).
    { apply (Rle_trans _ ((999 / 1000 * q) ^ 2)); [|apply pow_incr; lra]. assert (0 < q ^ 2) by (apply pow_lt; lra). lra. }
    assert (Q2 : 0 < q ^ 2) by (apply pow_lt; lra).
    apply (Rmult_le_reg_r (k ^ 2)); [lra|]. unfold Rdiv. rewrite Rmult_assoc, Rinv_l by lra. rewrite Rmult_1_r, Ev.
    assert (/ 2 ^ 14 <= / 16000) by (apply Rinv_le_contravar; lra). apply (Rle_trans _ (q ^ 2 * / 16000)); [apply Rmult_le_compat_l; lra|]. lra. }
  apply Rabs_le_inv in A1. destruct double_20 as [D1 D2]. split; intros Es.
  - unfold rnd. apply round_ge_generic; [typeclasses eauto|typeclasses eauto|exact D1|]. apply LG in Es. lra.
  - unfold rnd. apply round_le_generic; [typeclasses eauto|typeclasses eauto|exact D2|]. apply LG in Es. lra.
Qed.
