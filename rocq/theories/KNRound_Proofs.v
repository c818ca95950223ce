(** Proofs for C68. *)
From Verif Require Import Base Compton_Model KN_Spec KN_Proofs KNRound_Model KNRound_Spec.
From Coq Require Import Reals Lra Psatz.
From Flocq Require Import Core.Core Relative.
From Coquelicot Require Import Coquelicot.
Open Scope R_scope.

Local Instance prec53 : Prec_gt_0 53 := eq_refl.
Local Instance valid64 : Valid_exp (FLT_exp (-1074) 53) := FLT_exp_valid (-1074) 53.

(** ** Relative errors: xh is x up to n factors 1 + v, v = 2^-52 *)
Definition v := / 2 ^ 52.
Definition V := 1 + v.
Lemma v_pos : 0 < v.
Proof. unfold v. apply Rinv_0_lt_compat, pow_lt. lra. Qed.
Lemma V_gt : 1 < V.
Proof. pose proof v_pos. unfold V. lra. Qed.
Lemma Vn_ge n : 1 <= V ^ n.
Proof. apply pow_R1_Rle. pose proof V_gt. lra. Qed.
Definition near (n : nat) (x xh : R) : Prop := x <= xh * V ^ n /\ xh <= x * V ^ n.
Lemma near_0 x : near 0 x x.
Proof. unfold near. cbn. lra. Qed.
Lemma near_pos n x xh : 0 < x -> near n x xh -> 0 < xh.
Proof.
  intros Hx [A _]. pose proof (Vn_ge n). destruct (Rlt_le_dec 0 xh) as [|C]; [assumption|]. nra.
Qed.
Lemma near_mono n m x xh : (n <= m)%nat -> 0 < x -> near n x xh -> near m x xh.
Proof.
  intros Hnm Hx H. pose proof (near_pos n x xh Hx H) as P. destruct H as [A B].
  assert (V ^ n <= V ^ m) by (apply Rle_pow; [pose proof V_gt; lra|exact Hnm]). split; nra.
Qed.
Lemma near_trans n m x y z : 0 < x -> near n x y -> near m y z -> near (n + m) x z.
Proof.
  intros Hx H1 H2. pose proof (near_pos _ _ _ Hx H1) as Py. pose proof (near_pos _ _ _ Py H2) as Pz.
  destruct H1 as [A B], H2 as [E F]. unfold near. rewrite pow_add.
  pose proof (Vn_ge n) as Q1. pose proof (Vn_ge m) as Q2. split.
  - apply (Rle_trans _ _ _ A). rewrite (Rmult_comm (V ^ n)), <- Rmult_assoc. apply Rmult_le_compat_r; lra.
  - apply (Rle_trans _ _ _ F). rewrite <- Rmult_assoc. apply Rmult_le_compat_r; lra.
Qed.
Lemma near_mult n m x y xh yh : 0 < x -> 0 < y -> near n x xh -> near m y yh -> near (n + m) (x * y) (xh * yh).
Proof.
  intros Hx Hy H1 H2. pose proof (near_pos _ _ _ Hx H1) as Px. pose proof (near_pos _ _ _ Hy H2) as Py.
  destruct H1 as [A B], H2 as [E F]. unfold near. rewrite pow_add. split.
  - replace (xh * yh * (V ^ n * V ^ m)) with ((xh * V ^ n) * (yh * V ^ m)) by ring. apply Rmult_le_compat; lra.
  - replace (x * y * (V ^ n * V ^ m)) with ((x * V ^ n) * (y * V ^ m)) by ring. apply Rmult_le_compat; lra.
Qed.
Lemma near_inv n x xh : 0 < x -> near n x xh -> near n (/ x) (/ xh).
Proof.
  intros Hx H1. pose proof (near_pos _ _ _ Hx H1) as Px. destruct H1 as [A B]. pose proof (Vn_ge n) as Q.
  split.
  - apply (Rmult_le_reg_l (x * xh)); [apply Rmult_lt_0_compat; assumption|].
    replace (x * xh * / x) with xh by (field; lra). replace (x * xh * (/ xh * V ^ n)) with (x * V ^ n) by (field; lra). exact B.
  - apply (Rmult_le_reg_l (x * xh)); [apply Rmult_lt_0_compat; assumption|].
    replace (x * xh * / xh) with x by (field; lra). replace (x * xh * (/ x * V ^ n)) with (xh * V ^ n) by (field; lra). exact A.
Qed.
Lemma near_plus n x y xh yh : near n x xh -> near n y yh -> near n (x + y) (xh + yh).
Proof. unfold near. intros [A B] [E F]. split; lra. Qed.
Lemma near_rnd n x xh : / 2 ^ 1000 <= xh -> near n x xh -> 0 < x -> near (S n) x (rnd xh).
Proof.
  intros Hs H Hx. replace (S n) with (n + 1)%nat by lia. apply (near_trans _ _ _ _ _ Hx H).
  assert (Pxh : 0 < xh) by (apply (near_pos _ _ _ Hx H)).
  destruct (relative_error_N_FLT_ex radix2 (-1074) 53 prec53 (fun x => negb (Z.even x)) xh) as (e & He & E).
  { rewrite Rabs_pos_eq by lra. apply (Rle_trans _ (/ 2 ^ 1000)); [|exact Hs].
    change (/ 2 ^ 1000) with (/ IZR 2 ^ 1000). rewrite pow_IZR.
    change (/ IZR (2 ^ Z.of_nat 1000)) with (bpow radix2 (- 1000)). apply bpow_le. lia. }
  unfold rnd. change ZnearestE with (Znearest (fun x => negb (Z.even x))). rewrite E.
  assert (U : / 2 * bpow radix2 (-53 + 1) = v / 2).
  { unfold v. change (bpow radix2 (-53 + 1)) with (/ IZR (2 ^ Z.of_nat 52)). rewrite <- pow_IZR. unfold Rdiv. apply Rmult_comm. }
  assert (He' : Rabs e <= v / 2) by (rewrite <- U; exact He). clear He. rename He' into He. apply Rabs_le_inv in He. pose proof v_pos as Hv.
  assert (Hv1 : v <= 1). { unfold v. rewrite <- Rinv_1. apply Rinv_le_contravar; [lra|]. apply pow_R1_Rle. lra. }
  unfold near, V. cbn [pow]. rewrite !Rmult_1_r. split.
  - rewrite Rmult_assoc. rewrite <- (Rmult_1_r xh) at 1. apply Rmult_le_compat_l; [lra|]. nra.
  - apply Rmult_le_compat_l; lra.
Qed.

Lemma Vn_le n : (n <= 1000)%nat -> V ^ n <= 1 + 2 * INR n * v.
Proof.
  assert (Hv : 2000 * v <= 1).
  { unfold v. apply (Rmult_le_reg_r (2 ^ 52)); [apply pow_lt; lra|]. rewrite Rmult_assoc, Rinv_l by (apply pow_nonzero; lra).
    rewrite Rmult_1_r, Rmult_1_l. apply (Rle_trans _ (2 ^ 11)); [lra|]. apply Rle_pow; [lra|lia]. }
  pose proof v_pos as Vp. induction n as [|n IH]; intros Hn; [cbn; lra|].
  assert (IH' := IH ltac:(lia)). cbn [pow]. rewrite S_INR. unfold V at 1.
  assert (Hi : INR n <= 1000) by (apply (le_INR n 1000) in Hn || (replace 1000 with (INR 1000) by (rewrite INR_IZR_INZ; reflexivity); apply le_INR; lia); lra).
  pose proof (pos_INR n) as Pi. pose proof (Vn_ge n).
  assert ((1 + v) * V ^ n <= (1 + v) * (1 + 2 * INR n * v)) by (apply Rmult_le_compat_l; lra).
  assert (2 * INR n * v * v <= v * 1); [|lra].
  rewrite (Rmult_comm (2 * INR n * v) v). apply Rmult_le_compat_l; [lra|]. nra.
Qed.
Lemma Vn_2 n : (n <= 100)%nat -> V ^ n <= 2.
Proof.
  intros Hn. pose proof (Vn_le n ltac:(lia)) as H. pose proof v_pos as Vp.
  assert (INR n <= 100) by (replace 100 with (INR 100) by (rewrite INR_IZR_INZ; reflexivity); apply le_INR; exact Hn).
  assert (Hv : v <= / 2 ^ 10) by (unfold v; apply Rinv_le_contravar; [lra|apply Rle_pow; [lra|lia]]).
  assert (/ 2 ^ 10 <= / 1000) by (apply Rinv_le_contravar; lra). pose proof (pos_INR n). nra.
Qed.
Lemma half_pow n : / 2 ^ S n = / 2 ^ n / 2.
Proof. cbn [pow]. field. apply pow_nonzero. lra. Qed.
Lemma near_rnd' n x xh : (n <= 100)%nat -> / 2 ^ 900 <= x -> near n x xh -> near (S n) x (rnd xh).
Proof.
  intros Hn Hx H. assert (P : 0 < / 2 ^ 900) by (apply Rinv_0_lt_compat, pow_lt; lra).
  assert (P2 : / 2 ^ 1000 <= / 2 ^ 901) by (apply Rinv_le_contravar; [apply pow_lt; lra|apply Rle_pow; [lra|lia]]).
  rewrite (half_pow 900) in P2. apply near_rnd; [|exact H|lra].
  pose proof (near_pos n x xh ltac:(lra) H) as Q. destruct H as [A _]. pose proof (Vn_2 n Hn). pose proof (Vn_ge n). nra.
Qed.
Lemma tiny j : (j <= 900)%nat -> / 2 ^ 900 <= / 2 ^ j.
Proof. intros H. apply Rinv_le_contravar; [apply pow_lt; lra|apply Rle_pow; [lra|lia]]. Qed.
Lemma tiny_1 x : / 1000 <= x -> / 2 ^ 900 <= x.
Proof. intros H. apply (Rle_trans _ (/ 2 ^ 10)); [apply tiny; lia|]. apply (Rle_trans _ (/ 1000)); [|exact H]. apply Rinv_le_contravar; lra. Qed.

Section K.
Context (log : R -> R) (k : R).
Hypothesis Hlog : good_log log.
Hypothesis Hk0 : / 2 ^ 40 <= k.
Hypothesis Hk1 : k <= 1.
Lemma Kp : 0 < k.
Proof. apply (Rlt_le_trans _ (/ 2 ^ 40)); [apply Rinv_0_lt_compat, pow_lt; lra|exact Hk0]. Qed.
Lemma kj j : (j <= 20)%nat -> / 2 ^ 900 <= k ^ j.
Proof.
  intros Hj. apply (Rle_trans _ ((/ 2 ^ 40) ^ j)).
  - rewrite pow_inv. rewrite <- pow_mult. apply tiny. lia.
  - apply pow_incr. split; [left; apply Rinv_0_lt_compat, pow_lt; lra|exact Hk0].
Qed.
Let N := 2 + k * (2 - k).
Let F1 := 2 * (2 + k * (1 + k) * (8 + k)) / (k ^ 2 * (1 + 2 * k) ^ 2).
Let g := rnd (1 + rnd (2 * k)).
Lemma N_range : 2 <= N <= 3.
Proof. pose proof Kp. unfold N. nra. Qed.
Lemma g_near : near 2 (1 + 2 * k) g.
Proof.
  pose proof Kp as K. unfold g. apply near_rnd'; [lia|apply tiny_1; lra|]. apply near_plus.
  - apply near_mono with 0%nat; [lia|lra|apply near_0].
  - apply near_rnd'; [lia| |apply near_0]. pose proof (kj 1 ltac:(lia)). lra.
Qed.
Lemma g_ge : 1 + / 2 ^ 39 <= g.
Proof.
  unfold g. assert (A : / 2 ^ 39 <= rnd (2 * k)).
  { unfold rnd. apply round_ge_generic; [typeclasses eauto|typeclasses eauto| |].
    - change (/ 2 ^ 39) with (/ IZR 2 ^ 39). rewrite pow_IZR. change (/ IZR (2 ^ Z.of_nat 39)) with (bpow radix2 (-39)).
      apply generic_format_bpow. unfold FLT_exp. lia.
    - replace (/ 2 ^ 39) with (2 * / 2 ^ 40) by (rewrite (half_pow 39); field; apply pow_nonzero; lra). lra. }
  unfold rnd at 1. apply round_ge_generic; [typeclasses eauto|typeclasses eauto| |lra].
  apply generic_format_FLT. exists (Float radix2 (2 ^ 39 + 1) (-39)).
  - unfold F2R. cbn [Fnum Fexp]. rewrite plus_IZR. change (bpow radix2 (-39)) with (/ IZR (2 ^ 39)).
    change 2 with (IZR 2). rewrite pow_IZR. change (Z.of_nat 39) with 39%Z. field. apply (IZR_neq _ 0). lia.
  - cbn [Fnum]. reflexivity. - cbn. lia.
Qed.
Lemma ln_near : near 5 (ln g) (log g).
Proof.
  pose proof g_ge as G. assert (P39 : 0 < / 2 ^ 39) by (apply Rinv_0_lt_compat, pow_lt; lra).
  assert (L : 0 < ln g) by (rewrite <- ln_1; apply ln_increasing; lra).
  pose proof (Hlog g ltac:(lra)) as H. rewrite (Rabs_pos_eq (ln g)) in H by lra. apply Rabs_le_inv in H.
  assert (E : / 2 ^ 50 = 4 * v).
  { unfold v. replace (2 ^ 52) with (4 * 2 ^ 50) by (cbn [pow]; ring). field; try (apply pow_nonzero; lra). }
  rewrite E in H. pose proof v_pos as Vp.
  assert (Hv : v <= / 2 ^ 10) by (unfold v; apply Rinv_le_contravar; [lra|apply Rle_pow; [lra|lia]]).
  assert (/ 2 ^ 10 <= / 1000) by (apply Rinv_le_contravar; lra).
  assert (V5 : 1 + 5 * v <= V ^ 5).
  { unfold V. assert (0 < v ^ 2) by (apply pow_lt; lra). assert (0 < v ^ 3) by (apply pow_lt; lra). assert (0 < v ^ 4) by (apply pow_lt; lra).
    assert (0 < v ^ 5) by (apply pow_lt; lra). replace ((1 + v) ^ 5) with (1 + 5 * v + 10 * v ^ 2 + 10 * v ^ 3 + 5 * v ^ 4 + v ^ 5) by ring. lra. }
  split.
  - apply (Rle_trans _ (ln g * (1 - 4 * v) * (1 + 5 * v))).
    + assert (1 <= (1 - 4 * v) * (1 + 5 * v)) by nra. nra.
    + apply Rmult_le_compat; nra.
  - apply (Rle_trans _ (ln g * (1 + 5 * v))); [lra|]. apply Rmult_le_compat_l; lra.
Qed.
Lemma ln_g_ge : / 2 ^ 40 <= ln g.
Proof.
  pose proof g_ge as G. assert (P39 : 0 < / 2 ^ 39) by (apply Rinv_0_lt_compat, pow_lt; lra).
  assert (Q39 : / 2 ^ 39 <= 1) by (rewrite <- Rinv_1; apply Rinv_le_contravar; [lra|apply pow_R1_Rle; lra]).
  apply (Rle_trans _ (ln (1 + / 2 ^ 39))); [|destruct G as [G| <-]; [left; apply ln_increasing; lra|right; reflexivity]].
  rewrite (half_pow 39). set (x := / 2 ^ 39) in *.
  (* ln (1 + x) = - ln (1 / (1 + x)) >= 1 - 1 / (1 + x) = x / (1 + x) *)
  assert (E : ln (/ (1 + x)) <= / (1 + x) - 1).
  { pose proof (exp_ineq1_le (/ (1 + x) - 1)) as X. replace (1 + (/ (1 + x) - 1)) with (/ (1 + x)) in X by ring.
    assert (0 < / (1 + x)) by (apply Rinv_0_lt_compat; lra).
    destruct X as [X|X]; [apply ln_increasing in X; [|assumption]; rewrite ln_exp in X; lra|].
    rewrite X at 1. rewrite ln_exp. lra. }
  rewrite ln_Rinv in E by lra. assert (x / 2 <= 1 - / (1 + x)); [|lra].
  replace (1 - / (1 + x)) with (x / (1 + x)) by (field; lra). apply Rmult_le_compat_l; [lra|]. apply Rinv_le_contravar; lra.
Qed.
Lemma decompose : exists f1h f2h, klein_nishina_b64 log k = rnd (f1h - f2h) /\
  near 14 F1 f1h /\ near 12 (N * ln g / k ^ 3) f2h.
Proof.
  pose proof Kp as K. pose proof N_range as HN. pose proof ln_g_ge as HL.
  assert (P40 : 0 < / 2 ^ 40) by (apply Rinv_0_lt_compat, pow_lt; lra).
  assert (A1 : near 1 (1 + k) (rnd (1 + k))) by (apply near_rnd'; [lia|apply tiny_1; lra|apply near_0]).
  assert (A8 : near 1 (8 + k) (rnd (8 + k))) by (apply near_rnd'; [lia|apply tiny_1; lra|apply near_0]).
  assert (K1 : / 2 ^ 900 <= k) by (pose proof (kj 1 ltac:(lia)); lra).
  assert (K2 : near 1 (k * k) (rnd (k * k))).
  { apply near_rnd'; [lia| |apply near_0]. pose proof (kj 2 ltac:(lia)) as X. cbn [pow] in X. lra. }
  assert (Kp0 : near 0 k k) by apply near_0.
  assert (K3 : near 2 (k * (k * k)) (rnd (k * rnd (k * k)))).
  { apply near_rnd'; [lia| |]. - pose proof (kj 3 ltac:(lia)) as X. cbn [pow] in X. lra.
    - apply (near_mult 0 1); [lra|nra|exact Kp0|exact K2]. }
  assert (B1 : near 2 (k * (1 + k)) (rnd (k * rnd (1 + k)))).
  { apply near_rnd'; [lia|nra|]. apply (near_mult 0 1); [lra|lra|exact Kp0|exact A1]. }
  assert (B2 : near 4 (k * (1 + k) * (8 + k)) (rnd (rnd (k * rnd (1 + k)) * rnd (8 + k)))).
  { apply near_rnd'; [lia|nra|]. apply (near_mult 2 1); [nra|lra|exact B1|exact A8]. }
  assert (B3 : near 5 (2 + k * (1 + k) * (8 + k)) (rnd (2 + rnd (rnd (k * rnd (1 + k)) * rnd (8 + k))))).
  { assert (0 < k * (1 + k) * (8 + k)) by (repeat apply Rmult_lt_0_compat; lra).
    apply near_rnd'; [lia|apply tiny_1; lra|]. apply near_plus; [|exact B2]. apply near_mono with 0%nat; [lia|lra|apply near_0]. }
  assert (B4 : near 6 (2 * (2 + k * (1 + k) * (8 + k))) (rnd (2 * rnd (2 + rnd (rnd (k * rnd (1 + k)) * rnd (8 + k)))))).
  { assert (0 < k * (1 + k) * (8 + k)) by (repeat apply Rmult_lt_0_compat; lra).
    apply near_rnd'; [lia|apply tiny_1; lra|]. apply (near_mult 0 5); [lra|lra|apply near_0|exact B3]. }
  pose proof g_near as G. fold g in G.
  assert (G2 : near 5 ((1 + 2 * k) * (1 + 2 * k)) (rnd (g * g))).
  { apply near_rnd'; [lia|apply tiny_1; nra|]. apply (near_mult 2 2); try lra; exact G. }
  assert (D1 : near 7 ((k * k) * ((1 + 2 * k) * (1 + 2 * k))) (rnd (rnd (k * k) * rnd (g * g)))).
  { apply near_rnd'; [lia| |]. - pose proof (kj 2 ltac:(lia)) as X. cbn [pow] in X. nra.
    - apply (near_mult 1 5); [nra|nra|exact K2|exact G2]. }
  set (num1 := rnd (2 * rnd (2 + rnd (rnd (k * rnd (1 + k)) * rnd (8 + k))))) in *.
  set (den1 := rnd (rnd (k * k) * rnd (g * g))) in *.
  assert (PD : 0 < (k * k) * ((1 + 2 * k) * (1 + 2 * k))) by (repeat apply Rmult_lt_0_compat; lra).
  assert (PN : 4 <= 2 * (2 + k * (1 + k) * (8 + k))).
  { assert (0 < k * (1 + k) * (8 + k)) by (repeat apply Rmult_lt_0_compat; lra). lra. }
  assert (F : near 14 F1 (rnd (num1 / den1))).
  { apply near_rnd'; [lia| |].
    - apply tiny_1. unfold F1. apply (Rmult_le_reg_r (k ^ 2 * (1 + 2 * k) ^ 2)).
      + replace (k ^ 2 * (1 + 2 * k) ^ 2) with ((k * k) * ((1 + 2 * k) * (1 + 2 * k))) by ring. exact PD.
      + unfold Rdiv. rewrite (Rmult_assoc (2 * _)), Rinv_l.
        * assert (k ^ 2 * (1 + 2 * k) ^ 2 <= 9); [|lra].
          replace (k ^ 2 * (1 + 2 * k) ^ 2) with ((k * (1 + 2 * k)) ^ 2) by ring.
          assert (0 <= k * (1 + 2 * k) <= 3) by nra. nra.
        * replace (k ^ 2 * (1 + 2 * k) ^ 2) with ((k * k) * ((1 + 2 * k) * (1 + 2 * k))) by ring. lra.
    - replace F1 with (2 * (2 + k * (1 + k) * (8 + k)) * / ((k * k) * ((1 + 2 * k) * (1 + 2 * k))))
        by (unfold F1, Rdiv; f_equal; f_equal; ring).
      apply (near_mult 6 7); [lra|apply Rinv_0_lt_compat, PD|exact B4|]. apply near_inv; [exact PD|exact D1]. }
  assert (C1 : near 1 (2 - k) (rnd (2 - k))) by (apply near_rnd'; [lia|apply tiny_1; lra|apply near_0]).
  assert (C2 : near 2 (k * (2 - k)) (rnd (k * rnd (2 - k)))).
  { apply near_rnd'; [lia|nra|]. apply (near_mult 0 1); [lra|lra|exact Kp0|exact C1]. }
  assert (C3 : near 3 N (rnd (2 + rnd (k * rnd (2 - k))))).
  { apply near_rnd'; [lia|apply tiny_1; lra|]. unfold N. apply near_plus; [|exact C2]. apply near_mono with 0%nat; [lia|lra|apply near_0]. }
  set (num2 := rnd (2 + rnd (k * rnd (2 - k)))) in *.
  assert (HNL : / 2 ^ 900 <= N * ln g) by (pose proof (tiny 40 ltac:(lia)); nra).
  assert (C4 : near 9 (N * ln g) (rnd (num2 * log g))).
  { apply near_rnd'; [lia|exact HNL|]. apply (near_mult 3 5); [lra|lra|exact C3|exact ln_near]. }
  exists (rnd (num1 / den1)), (rnd (rnd (num2 * log g) / rnd (k * rnd (k * k)))).
  split; [reflexivity|]. split; [exact F|].
  assert (P3 : 0 < k * (k * k)) by (repeat apply Rmult_lt_0_compat; lra).
  replace (N * ln g / k ^ 3) with (N * ln g * / (k * (k * k))) by (unfold Rdiv; f_equal; f_equal; ring).
  apply near_rnd'; [lia| |].
  - apply (Rle_trans _ (N * ln g)); [exact HNL|]. rewrite <- (Rmult_1_r (N * ln g)) at 1.
    apply Rmult_le_compat_l; [nra|]. rewrite <- Rinv_1. apply Rinv_le_contravar; [exact P3|]. nra.
  - apply (near_mult 9 2); [nra|apply Rinv_0_lt_compat, P3|exact C4|]. apply near_inv; [exact P3|exact K3].
Qed.
End K.
