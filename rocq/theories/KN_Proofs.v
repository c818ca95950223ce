(** Proofs for C66. *)
From Verif Require Import Base Compton_Model Compton_Spec Compton_Proofs KN_Spec.
From Coq Require Import Reals Lra Psatz.
From Coquelicot Require Import Coquelicot.
Open Scope R_scope.

(** A mean is unique. *)
Lemma is_mean_unique n : forall phi m m', is_mean n phi m -> is_mean n phi m' -> m = m'.
Proof.
  induction n as [|n IH]; intros phi m m' H H'.
  - inversion H; subst; inversion H'; subst; reflexivity.
  - inversion H as [|n1 phi1 g h m1 A B D]; subst. inversion H' as [|n2 phi2 g' h' m2 A' B' D']; subst.
    assert (E : forall r1, 0 <= r1 <= 1 -> h r1 = h' r1).
    { intros r1 Hr. pose proof (B r1 Hr) as I. pose proof (B' r1 Hr) as I'.
      rewrite <- (is_RInt_unique _ _ _ _ I), <- (is_RInt_unique _ _ _ _ I'). apply RInt_ext.
      rewrite Rmin_left, Rmax_right by lra. intros r2 Hr2. apply (IH _ _ _ (A r1 r2 Hr ltac:(lra)) (A' r1 r2 Hr ltac:(lra))). }
    rewrite <- (is_RInt_unique _ _ _ _ D), <- (is_RInt_unique _ _ _ _ D'). apply RInt_ext.
    rewrite Rmin_left, Rmax_right by lra. intros r1 Hr1. apply E. lra.
Qed.

Lemma const01 (v : R) : is_RInt (V := R_NormedModule) (fun _ => v) 0 1 v.
Proof.
  pose proof (is_RInt_const (V := R_NormedModule) 0 1 v) as E.
  assert (Q : @scal R_Ring (NormedModule.ModuleSpace R_AbsRing R_NormedModule) (1 - 0) v = v) by (unfold scal; simpl; unfold mult; simpl; ring).
  rewrite Q in E. exact E.
Qed.

Section K.
Context (k : R) (Hk : 0 < k).
Let c0 := 2 * (2 * k ^ 2 + 2 * k + 1) / (2 * k + 1) ^ 3.
Let b := (2 + c0) / (2 - c0).
Let a := 2 * b - 1.
Let f (x : R) := ((1 + x ^ 2) * (1 + k * (1 - x)) + k ^ 2 * (1 - x) ^ 2) / (1 + k * (1 - x)) ^ 3.

Lemma factor_pos x : x <= 1 -> 0 < 1 + k * (1 - x).
Proof. intros H. assert (0 <= k * (1 - x)) by (apply Rmult_le_pos; lra). lra. Qed.
(** The code's f is the Klein-Nishina density. *)
Lemma f_kn x : x <= 1 -> f x = kn k x.
Proof. intros H. pose proof (factor_pos x H). unfold f, kn. field. lra. Qed.
Lemma f_pos x : -1 <= x <= 1 -> 0 < f x.
Proof.
  intros H. pose proof (factor_pos x (proj2 H)). unfold f. apply Rdiv_lt_0_compat; [|apply pow_lt; assumption].
  assert (0 < (1 + x ^ 2) * (1 + k * (1 - x))) by (apply Rmult_lt_0_compat; [pose proof (pow2_ge_0 x); lra|assumption]).
  assert (0 <= k ^ 2 * (1 - x) ^ 2) by (apply Rmult_le_pos; apply pow2_ge_0). lra.
Qed.

Lemma c0_r : 0 < c0 /\ c0 < 2.
Proof. exact (c0_range k Hk). Qed.
Lemma b_gt : 1 < b.
Proof.
  destruct c0_r. unfold b. apply (Rmult_lt_reg_r (2 - c0)); [lra|]. unfold Rdiv.
  rewrite Rmult_assoc, Rinv_l by lra. lra.
Qed.
Lemma a_pos : 0 < a.
Proof. pose proof b_gt. unfold a. lra. Qed.
Lemma b_edge : (b + 1) * (/ 2 * c0) = b - 1.
Proof. destruct c0_r. unfold b. field. lra. Qed.

(** The proposal density is above the exact one: the difference is a polynomial whose Bernstein
    coefficients are polynomials of k with non-negative coefficients. *)
Lemma f_le_h x : -1 <= x <= 1 -> f x <= a / (b - x).
Proof.
  intros Hx. pose proof (factor_pos x (proj2 Hx)) as HF. pose proof b_gt as Hb. destruct c0_r as [C1 C2].
  set (D := (2 * k + 1) ^ 3). set (N := 2 * (2 * k ^ 2 + 2 * k + 1)).
  assert (HD : 0 < D) by (apply pow_lt; lra). assert (HN : 0 < N) by (unfold N; pose proof (pow2_ge_0 k); lra).
  assert (EN : c0 = N / D) by reflexivity.
  assert (H2 : 0 < 2 * D - N).
  { apply (Rmult_lt_reg_r (/ D)); [apply Rinv_0_lt_compat, HD|]. rewrite Rmult_0_l.
    replace ((2 * D - N) * / D) with (2 - c0) by (rewrite EN; field; lra). lra. }
  assert (Eb : b = (2 * D + N) / (2 * D - N)) by (unfold b; rewrite EN; field; lra).
  set (F := 1 + k * (1 - x)) in *. set (y := 1 - x).
  set (M := (1 + x ^ 2) * F + k ^ 2 * (1 - x) ^ 2).
  set (W := y * (2 * D - N) + 2 * N). assert (HW : 0 < W).
  { unfold W, y. assert (0 <= (1 - x) * (2 * D - N)) by (apply Rmult_le_pos; lra). lra. }
  replace (a / (b - x)) with ((2 * D + 3 * N) / W).
  2:{ unfold a. rewrite Eb. unfold W, y in HW |- *. field. repeat split; lra. }
  replace (f x) with (M / F ^ 3) by reflexivity.
  assert (HF3 : 0 < F ^ 3) by (apply pow_lt, HF).
  apply (Rmult_le_reg_r (F ^ 3 * W)); [apply Rmult_lt_0_compat; assumption|].
  replace (M / F ^ 3 * (F ^ 3 * W)) with (M * W) by (field; lra).
  replace ((2 * D + 3 * N) / W * (F ^ 3 * W)) with ((2 * D + 3 * N) * F ^ 3) by (field; lra).
  assert (0 <= (2 * D + 3 * N) * F ^ 3 - M * W); [|lra].
  set (t := (1 - x) / 2). set (s := (1 + x) / 2).
  assert (Ht : 0 <= t) by (unfold t; lra). assert (Hs : 0 <= s) by (unfold s; lra).
  assert (St : s + t = 1) by (unfold s, t; field).
  replace ((2 * D + 3 * N) * F ^ 3 - M * W) with
   ((8 * k + 20 * k ^ 2 + 16 * k ^ 3) * s ^ 4
    + 4 * (4 + 16 * k + 36 * k ^ 2 + 46 * k ^ 3 + 24 * k ^ 4) * s ^ 3 * t
    + (32 + 208 * k + 520 * k ^ 2 + 744 * k ^ 3 + 560 * k ^ 4 + 192 * k ^ 5) * s ^ 2 * t ^ 2
    + 4 * (4 + 40 * k + 148 * k ^ 2 + 282 * k ^ 3 + 280 * k ^ 4 + 136 * k ^ 5 + 32 * k ^ 6) * s * t ^ 3
    + (8 * k + 68 * k ^ 2 + 232 * k ^ 3 + 400 * k ^ 4 + 352 * k ^ 5 + 128 * k ^ 6) * t ^ 4).
  2:{ unfold M, W, y, D, N, F. replace x with (1 - 2 * t) by (unfold t; field). replace s with (1 - t) by lra. ring. }
  assert (K : forall i, 0 < k ^ i) by (intros i; apply pow_lt, Hk).
  pose proof (K 2%nat). pose proof (K 3%nat). pose proof (K 4%nat). pose proof (K 5%nat). pose proof (K 6%nat).
  assert (S_ : forall i, 0 <= s ^ i) by (intros i; apply pow_le, Hs).
  assert (T_ : forall i, 0 <= t ^ i) by (intros i; apply pow_le, Ht).
  repeat apply Rplus_le_le_0_compat; repeat apply Rmult_le_pos; try apply S_; try apply T_; try lra.
Qed.

(** The proposal: cosine drawn from r1. *)
Let X1 (r : R) := b - (b + 1) * Rpower (/ 2 * c0) r.
Let L := ln (/ 2 * c0).
Lemma L_neg : L < 0.
Proof. destruct c0_r. unfold L. rewrite <- ln_1. apply ln_increasing; lra. Qed.
Lemma X1_0 : X1 0 = -1.
Proof. destruct c0_r. unfold X1. rewrite Rpower_O by lra. ring. Qed.
Lemma X1_1 : X1 1 = 1.
Proof. destruct c0_r. unfold X1. rewrite Rpower_1 by lra. pose proof b_edge. lra. Qed.
Lemma X1_mono r r' : r < r' -> X1 r < X1 r'.
Proof.
  intros H. pose proof b_gt. unfold X1, Rpower. fold L. pose proof L_neg as HL.
  assert (exp (r' * L) < exp (r * L)) by (apply exp_increasing; nra). nra.
Qed.
Lemma X1_le r r' : r <= r' -> X1 r <= X1 r'.
Proof. intros [H| ->]; [left; apply X1_mono, H|right; reflexivity]. Qed.
Lemma X1_range r : 0 <= r <= 1 -> -1 <= X1 r <= 1.
Proof. intros [H1 H2]. apply X1_le in H1. apply X1_le in H2. rewrite X1_0 in H1. rewrite X1_1 in H2. split; assumption. Qed.
Lemma X1_inv X : -1 <= X <= 1 -> exists rho, 0 <= rho <= 1 /\ X1 rho = X.
Proof.
  intros HX. pose proof b_gt as Hb. pose proof L_neg as HL. exists (ln ((b - X) / (b + 1)) / L).
  assert (P : 0 < (b - X) / (b + 1)) by (apply Rdiv_lt_0_compat; lra).
  assert (E : X1 (ln ((b - X) / (b + 1)) / L) = X).
  { unfold X1, Rpower. fold L. replace (ln ((b - X) / (b + 1)) / L * L) with (ln ((b - X) / (b + 1))) by (field; lra).
    rewrite exp_ln by exact P. field. lra. }
  split; [|exact E]. set (rho := ln ((b - X) / (b + 1)) / L) in *. split.
  - destruct (Rle_lt_dec 0 rho) as [|C1]; [assumption|]. apply X1_mono in C1. rewrite X1_0, E in C1. lra.
  - destruct (Rle_lt_dec rho 1) as [|C1]; [assumption|]. apply X1_mono in C1. rewrite X1_1, E in C1. lra.
Qed.
Lemma X1_derive r : is_derive X1 r ((b - X1 r) * - L).
Proof.
  unfold X1, Rpower. fold L. auto_derive; [exact I|]. ring.
Qed.

(** Acceptance probability at a given r1. *)
Let acc (r : R) := f (X1 r) / (a / (b - X1 r)).
Lemma acc_range r : 0 <= r <= 1 -> 0 < acc r <= 1.
Proof.
  intros H. pose proof (X1_range r H) as HX. pose proof (f_pos _ HX) as P. pose proof (f_le_h _ HX) as Q.
  pose proof b_gt. pose proof a_pos. assert (Hh : 0 < a / (b - X1 r)) by (apply Rdiv_lt_0_compat; lra).
  unfold acc. split; [apply Rdiv_lt_0_compat; assumption|].
  apply (Rmult_le_reg_r (a / (b - X1 r))); [exact Hh|]. unfold Rdiv at 1. rewrite Rmult_assoc, Rinv_l by lra. lra.
Qed.
Lemma kn_continuous x : x <= 1 -> continuous (kn k) x.
Proof.
  intros H. pose proof (factor_pos x H). apply (ex_derive_continuous (K := R_AbsRing) (V := R_NormedModule)).
  unfold kn. auto_derive. assert (1 + k * (1 + - x) <> 0) by lra. repeat split; try assumption; apply Rinv_neq_0_compat; assumption.
Qed.
Lemma kn_ex u v : -1 <= u <= 1 -> -1 <= v <= 1 -> ex_RInt (V := R_NormedModule) (kn k) u v.
Proof.
  intros Hu Hv. apply (ex_RInt_continuous (V := R_CompleteNormedModule)). intros z Hz. apply kn_continuous.
  apply (Rle_trans _ (Rmax u v)); [apply Hz|]. apply Rmax_lub; lra.
Qed.
Lemma acc_RInt u v : 0 <= u <= 1 -> 0 <= v <= 1 ->
  is_RInt (V := R_NormedModule) acc u v (RInt (kn k) (X1 u) (X1 v) / (a * - L)).
Proof.
  intros Hu Hv. pose proof a_pos as Ha. pose proof L_neg as HL. pose proof b_gt as Hb.
  assert (I0 : is_RInt (V := R_NormedModule) (fun y => scal ((b - X1 y) * - L) (kn k (X1 y))) u v (RInt (kn k) (X1 u) (X1 v))).
  { apply (is_RInt_comp (V := R_CompleteNormedModule) (kn k) X1).
    - intros x Hx. apply kn_continuous. apply X1_range. split.
      + apply (Rle_trans _ (Rmin u v)); [apply Rmin_glb; lra|apply Hx].
      + apply (Rle_trans _ (Rmax u v)); [apply Hx|apply Rmax_lub; lra].
    - intros x Hx. split; [apply X1_derive|]. apply (ex_derive_continuous (K := R_AbsRing) (V := R_NormedModule)).
      unfold X1, Rpower. fold L. auto_derive. exact I. }
  apply (is_RInt_scal (V := R_NormedModule) _ _ _ (/ (a * - L))) in I0.
  replace (RInt (kn k) (X1 u) (X1 v) / (a * - L)) with (scal (/ (a * - L)) (RInt (kn k) (X1 u) (X1 v)) : R)
    by (unfold scal; simpl; unfold mult; simpl; unfold Rdiv; ring).
  refine (is_RInt_ext _ _ _ _ _ _ I0). intros x Hx.
  assert (Hx1 : 0 <= x <= 1).
  { split.
    + apply (Rle_trans _ (Rmin u v)); [apply Rmin_glb; lra|lra].
    + apply (Rle_trans _ (Rmax u v)); [lra|apply Rmax_lub; lra]. }
  pose proof (X1_range x Hx1) as HX. unfold acc. rewrite (f_kn (X1 x)) by lra.
  unfold scal; simpl; unfold mult; simpl. field. split; [lra|]. lra.
Qed.

(** One draw. *)
Lemma sample_cons r1 r2 ds : sample_x k ((r1, r2) :: ds) = if Rlt_dec r2 (acc r1) then Some (X1 r1) else sample_x k ds.
Proof. reflexivity. Qed.
Lemma two_values p u v : 0 <= p <= 1 ->
  is_RInt (V := R_NormedModule) (fun r => if Rlt_dec r p then u else v) 0 1 (p * u + (1 - p) * v).
Proof.
  intros Hp. replace (p * u + (1 - p) * v) with (plus (scal (p - 0) u) (scal (1 - p) v) : R)
    by (unfold plus, scal; simpl; unfold mult; simpl; ring).
  apply (is_RInt_Chasles (V := R_NormedModule)) with p.
  - refine (is_RInt_ext _ _ _ _ _ _ (is_RInt_const (V := R_NormedModule) 0 p u)).
    rewrite Rmin_left, Rmax_right by lra. intros x Hx. destruct (Rlt_dec x p); [reflexivity|lra].
  - refine (is_RInt_ext _ _ _ _ _ _ (is_RInt_const (V := R_NormedModule) p 1 v)).
    rewrite Rmin_left, Rmax_right by lra. intros x Hx. destruct (Rlt_dec x p); [lra|reflexivity].
Qed.

Definition Acc : R := RInt (kn k) (-1) 1 / (a * - L).
Lemma total_pos : 0 < RInt (kn k) (-1) 1.
Proof.
  apply RInt_gt_0; [lra| |].
  - intros x Hx. rewrite <- f_kn by lra. apply f_pos. lra.
  - intros x Hx. apply kn_continuous. lra.
Qed.
Lemma Acc_pos : 0 < Acc.
Proof.
  pose proof a_pos. pose proof L_neg. pose proof total_pos. unfold Acc. apply Rdiv_lt_0_compat; [assumption|].
  apply Rmult_lt_0_compat; lra.
Qed.
Lemma Acc_RInt : is_RInt (V := R_NormedModule) acc 0 1 Acc.
Proof. pose proof (acc_RInt 0 1 ltac:(lra) ltac:(lra)) as A. rewrite X1_0, X1_1 in A. exact A. Qed.
Lemma Acc_le : Acc <= 1.
Proof.
  apply (is_RInt_le acc (fun _ => 1) 0 1); [lra|exact Acc_RInt| |].
  - apply const01.
  - intros x Hx. apply acc_range. lra.
Qed.

Definition law (X : R) : R := RInt (kn k) (-1) X / RInt (kn k) (-1) 1.
Lemma acc_below X : -1 <= X <= 1 ->
  is_RInt (V := R_NormedModule) (fun r => acc r * (if Rle_dec (X1 r) X then 1 else 0)) 0 1 (Acc * law X).
Proof.
  intros HX. destruct (X1_inv X HX) as (rho & Hr & E).
  replace (Acc * law X) with (plus (RInt (kn k) (X1 0) (X1 rho) / (a * - L)) (scal (1 - rho) 0) : R).
  2:{ rewrite X1_0, E. unfold plus, scal; simpl; unfold mult; simpl. unfold Acc, law.
      pose proof a_pos. pose proof L_neg. pose proof total_pos. field. repeat split; lra. }
  apply (is_RInt_Chasles (V := R_NormedModule)) with rho.
  - refine (is_RInt_ext _ _ _ _ _ _ (acc_RInt 0 rho ltac:(lra) Hr)).
    rewrite Rmin_left, Rmax_right by lra. intros x Hx.
    assert (X1 x < X) by (rewrite <- E; apply X1_mono; lra). destruct (Rle_dec (X1 x) X); [rewrite Rmult_1_r; reflexivity|lra].
  - refine (is_RInt_ext _ _ _ _ _ _ (is_RInt_const (V := R_NormedModule) rho 1 0)).
    rewrite Rmin_left, Rmax_right by lra. intros x Hx.
    assert (X < X1 x) by (rewrite <- E; apply X1_mono; lra). destruct (Rle_dec (X1 x) X); [lra|rewrite Rmult_0_r; reflexivity].
Qed.

(** n draws of the rejection loop. *)
Lemma sample_law n X : -1 <= X <= 1 ->
  is_mean n (fun ds => at_most X (sample_x k ds)) ((1 - (1 - Acc) ^ n) * law X).
Proof.
  intros HX. induction n as [|n IH].
  - replace ((1 - (1 - Acc) ^ 0) * law X) with ((fun ds => at_most X (sample_x k ds)) []) by (cbn; ring). apply mean_0.
  - set (M := (1 - (1 - Acc) ^ n) * law X) in *.
    apply (mean_S n _ (fun r1 r2 => if Rlt_dec r2 (acc r1) then (if Rle_dec (X1 r1) X then 1 else 0) else M)
                  (fun r1 => acc r1 * (if Rle_dec (X1 r1) X then 1 else 0) + (1 - acc r1) * M)).
    + intros r1 r2 _ _. set (P := fun ds => at_most X (sample_x k ((r1, r2) :: ds))).
      assert (EP : P = fun ds => if Rlt_dec r2 (acc r1) then at_most X (Some (X1 r1)) else at_most X (sample_x k ds)).
      { unfold P. apply FunctionalExtensionality.functional_extensionality. intros ds. rewrite sample_cons.
        destruct (Rlt_dec r2 (acc r1)); reflexivity. }
      rewrite EP. destruct (Rlt_dec r2 (acc r1)); [|exact IH].
      cbn [at_most]. clear. induction n as [|n IH].
      * apply (mean_0 (fun _ => if Rle_dec (X1 r1) X then 1 else 0)).
      * eapply (mean_S n _ (fun _ _ => _) (fun _ => _)); [intros; exact IH| |].
        -- intros _ _. apply const01.
        -- apply const01.
    + intros r1 Hr1. apply two_values. pose proof (acc_range r1 Hr1). lra.
    + replace ((1 - (1 - Acc) ^ S n) * law X) with (plus (Acc * law X) (scal M (minus 1 Acc)) : R).
      2:{ unfold plus, scal, minus, opp; simpl; unfold mult, plus; simpl. unfold M. ring. }
      apply (is_RInt_plus (V := R_NormedModule) _ (fun r => (1 - acc r) * M)); [apply acc_below, HX|].
      refine (is_RInt_ext _ _ _ _ _ _ (is_RInt_scal (V := R_NormedModule) (fun r => minus 1 (acc r)) _ _ M _ _)).
      { intros x _. unfold scal, minus, opp, plus; simpl; unfold mult; simpl. ring. }
      apply (is_RInt_minus (V := R_NormedModule) (fun _ => 1)); [apply const01|apply Acc_RInt].
Qed.

(** ** Total cross-section *)
Let H (F : R) := - (2 + 2 / k + 1 / k ^ 2) / F - (2 / k + 2 / k ^ 2) * ln F + F / k ^ 2 + ln F + 2 / F - 1 / (2 * F ^ 2).
Lemma kn_total : is_RInt (V := R_NormedModule) (kn k) (-1) 1 (klein_nishina k).
Proof.
  set (G := fun x => - (1 / k) * H (1 + k * (1 - x))).
  replace (klein_nishina k) with (minus (G 1) (G (-1)) : R).
  - apply (is_RInt_derive (V := R_CompleteNormedModule) G).
    + rewrite Rmin_left, Rmax_right by lra. intros x Hx. pose proof (factor_pos x (proj2 Hx)) as HF.
      unfold G, H. auto_derive; [repeat split; try lra; try (apply Rgt_not_eq; assert (0 < (1 + k * (1 - x)) * (1 + k * (1 - x))) by (apply Rmult_lt_0_compat; assumption); lra)|].
      unfold kn. field. repeat split; lra.
    + rewrite Rmin_left, Rmax_right by lra. intros x Hx. apply kn_continuous. lra.
  - unfold minus, opp, plus; simpl. unfold G, H, klein_nishina.
    replace (1 + k * (1 - 1)) with 1 by ring. replace (1 + k * (1 - -1)) with (1 + 2 * k) by ring. rewrite ln_1.
    set (l := ln (1 + 2 * k)). field. split; lra.
Qed.
End K.

(** The mean only depends on the values at draws in [0, 1]. *)
Definition unit_pair (d : R * R) : Prop := 0 <= fst d <= 1 /\ 0 <= snd d <= 1.
Lemma is_mean_ext n : forall phi psi m, (forall ds, length ds = n -> List.Forall unit_pair ds -> phi ds = psi ds) -> is_mean n phi m -> is_mean n psi m.
Proof.
  induction n as [|n IH]; intros phi psi m E H.
  - inversion H; subst. rewrite (E [] eq_refl (List.Forall_nil _)). apply mean_0.
  - inversion H as [|n1 phi1 g h m1 A B D]; subst. apply (mean_S n psi g h m); [|exact B|exact D].
    intros r1 r2 H1 H2. refine (IH _ _ _ _ (A r1 r2 H1 H2)). intros ds Hl Hd. apply E; [cbn; lia|].
    constructor; [split; assumption|exact Hd].
Qed.
Lemma sample_closed k ds x : 0 < k -> List.Forall unit_pair ds -> sample_x k ds = Some x -> -1 <= x <= 1.
Proof.
  intros Hk Hd. induction Hd as [|[r1 r2] ds [Hr _] Hd IH]; [discriminate|]. cbn [fst] in Hr.
  rewrite (sample_cons k r1 r2 ds). destruct (Rlt_dec _ _) as [_|_]; [|exact IH]. intros E. injection E as <-.
  apply (X1_range k Hk r1 Hr).
Qed.

Section S.
Context (mc : R) (beam : fourmom) (a : cp).
Hypothesis Hmc : 0 < mc.
Hypothesis Hbeam : lightlike beam.
Hypothesis Ha : elec_consistent a.

Lemma elec4_u Q : mdot (elec4 mc a) Q = mc * mdot (four_u a) Q.
Proof. unfold mdot, elec4, four_u. cbn [p0 p1 p2 p3]. ring. Qed.
Lemma energy_rest : energy_in_rest_frame mc (elec4 mc a) beam = p0 (to_rest beam a) * (1 / mc).
Proof. unfold energy_in_rest_frame. rewrite elec4_u, (mdot_u_rest beam a Ha). field. lra. Qed.
Lemma scatter_cos ds phi q : List.Forall unit_pair ds -> scatter_one mc beam a ds phi = Some q ->
  sample_x (energy_in_rest_frame mc (elec4 mc a) beam) ds = Some (cos_in_rest_frame mc (elec4 mc a) beam q).
Proof.
  intros Hd. rewrite energy_rest. unfold scatter_one. cbv zeta.
  destruct (sample_x _ ds) as [x|] eqn:E; [|discriminate]. intros Eq. injection Eq as <-.
  apply sample_closed in E; [|apply (k_pos mc beam Hmc Hbeam a Ha)|exact Hd].
  pose proof (rest_lightlike beam Hbeam a Ha) as HP.
  pose proof (rest_scattered_ok mc Hmc _ x phi HP E) as ((Q0 & _) & _ & Q3). f_equal.
  unfold cos_in_rest_frame. rewrite !elec4_u, (mdot_u_rest beam a Ha), (mdot_u_from a _ Ha), (mdot_from beam a _ Ha), Q3.
  destruct HP as [HP _]. field. repeat split; lra.
Qed.
Lemma scatter_none ds phi : scatter_one mc beam a ds phi = None -> sample_x (energy_in_rest_frame mc (elec4 mc a) beam) ds = None.
Proof. rewrite energy_rest. unfold scatter_one. cbv zeta. destruct (sample_x _ ds); [discriminate|reflexivity]. Qed.
Lemma energy_pos : 0 < energy_in_rest_frame mc (elec4 mc a) beam.
Proof. rewrite energy_rest. apply (k_pos mc beam Hmc Hbeam a Ha). Qed.
Lemma scatter_law phi n X : -1 <= X <= 1 -> let k := energy_in_rest_frame mc (elec4 mc a) beam in
  is_mean n (fun ds => at_most X (option_map (cos_in_rest_frame mc (elec4 mc a) beam) (scatter_one mc beam a ds phi)))
    ((1 - (1 - Acc k) ^ n) * (RInt (kn k) (-1) X / RInt (kn k) (-1) 1)).
Proof.
  intros HX k. refine (is_mean_ext n _ _ _ _ (sample_law k energy_pos n X HX)). intros ds _ Hd. f_equal.
  destruct (scatter_one mc beam a ds phi) as [q|] eqn:E.
  - apply (scatter_cos ds phi q Hd E).
  - apply (scatter_none ds phi E).
Qed.
End S.

(** Azimuth. *)
Lemma is_RInt_val (f : R -> R) u v (l l' : R) : is_RInt (V := R_NormedModule) f u v l -> l = l' -> is_RInt (V := R_NormedModule) f u v l'.
Proof. intros H <-. exact H. Qed.
Lemma mean_cos : is_RInt (V := R_NormedModule) (fun r => cos (2 * PI * r)) 0 1 0.
Proof.
  assert (P : 2 * PI <> 0) by (pose proof PI_RGT_0; lra).
  replace 0 with (minus (sin (2 * PI * 1) / (2 * PI)) (sin (2 * PI * 0) / (2 * PI)) : R) at 2.
  2:{ rewrite Rmult_1_r, Rmult_0_r, sin_2PI, sin_0. unfold minus, plus, opp; simpl. field. pose proof PI_RGT_0. lra. }
  apply (is_RInt_derive (V := R_CompleteNormedModule) (fun r => sin (2 * PI * r) / (2 * PI))).
  - intros x _. auto_derive; [exact I|]. field. pose proof PI_RGT_0. lra.
  - intros x _. apply (ex_derive_continuous (K := R_AbsRing) (V := R_NormedModule)). auto_derive. exact I.
Qed.
Lemma mean_sin : is_RInt (V := R_NormedModule) (fun r => sin (2 * PI * r)) 0 1 0.
Proof.
  assert (P : 2 * PI <> 0) by (pose proof PI_RGT_0; lra).
  replace 0 with (minus (- cos (2 * PI * 1) / (2 * PI)) (- cos (2 * PI * 0) / (2 * PI)) : R) at 2.
  2:{ rewrite Rmult_1_r, Rmult_0_r, cos_2PI, cos_0. unfold minus, plus, opp; simpl. field. pose proof PI_RGT_0. lra. }
  apply (is_RInt_derive (V := R_CompleteNormedModule) (fun r => - cos (2 * PI * r) / (2 * PI))).
  - intros x _. auto_derive; [exact I|]. field. pose proof PI_RGT_0. lra.
  - intros x _. apply (ex_derive_continuous (K := R_AbsRing) (V := R_NormedModule)). auto_derive. exact I.
Qed.
Lemma mean_affine u v w : is_RInt (V := R_NormedModule) (fun r => u + v * cos (2 * PI * r) + w * sin (2 * PI * r)) 0 1 u.
Proof.
  apply (is_RInt_val _ _ _ (plus (plus u (scal v 0)) (scal w 0) : R)); [|unfold plus, scal; simpl; unfold mult; simpl; ring].
  apply (is_RInt_plus (V := R_NormedModule) (fun r => u + v * cos (2 * PI * r))).
  - apply (is_RInt_plus (V := R_NormedModule) (fun _ => u)); [apply const01|]. apply (is_RInt_scal (V := R_NormedModule)), mean_cos.
  - apply (is_RInt_scal (V := R_NormedModule)), mean_sin.
Qed.
Lemma azimuth mc P x : lightlike P ->
  let n := p0 P / (1 + p0 P * (1 / mc) * (1 - x)) in
  is_RInt (V := R_NormedModule) (fun r => p1 (rest_scattered mc P x r)) 0 1 (n * x * (p1 P / p0 P)) /\
  is_RInt (V := R_NormedModule) (fun r => p2 (rest_scattered mc P x r)) 0 1 (n * x * (p2 P / p0 P)) /\
  is_RInt (V := R_NormedModule) (fun r => p3 (rest_scattered mc P x r)) 0 1 (n * x * (p3 P / p0 P)).
Proof.
  intros HP n. pose proof (angles_ok P HP) as HA. destruct HP as (H0 & HP). unfold rest_scattered.
  destruct (angles P) as [[[ct st] cf] sf]. destruct HA as (A1 & A2 & A3 & A4 & A5). cbv zeta. cbn [p0 p1 p2 p3]. fold n.
  set (ss := sqrt (1 - x ^ 2)). rewrite A3, A4, A5.
  replace (n * x * (p0 P * (st * cf) / p0 P)) with (n * x * (st * cf)) by (field; lra).
  replace (n * x * (p0 P * (st * sf) / p0 P)) with (n * x * (st * sf)) by (field; lra).
  replace (n * x * (p0 P * ct / p0 P)) with (n * x * ct) by (field; lra).
  split; [|split].
  - refine (is_RInt_ext _ _ _ _ _ _ (mean_affine _ (ct * cf * (n * ss)) (- sf * (n * ss)))). intros r _. change (@eq R_NormedModule) with (@eq R). ring.
  - refine (is_RInt_ext _ _ _ _ _ _ (mean_affine _ (ct * sf * (n * ss)) (cf * (n * ss)))). intros r _. change (@eq R_NormedModule) with (@eq R). ring.
  - refine (is_RInt_ext _ _ _ _ _ _ (mean_affine _ (- st * (n * ss)) 0)). intros r _. change (@eq R_NormedModule) with (@eq R). ring.
Qed.

(** Probability. *)
Lemma probability c PI_RE_2 mc beam dt a n : 0 < mc -> lightlike beam -> elec_consistent a ->
  let v q := q * cig a * c in
  let k := energy_in_rest_frame mc (elec4 mc a) beam in
  get_scattering_probability c PI_RE_2 mc beam dt a n
  = 1 - exp (- (PI_RE_2 * RInt (kn k) (-1) 1 * n *
        (c - (v (cux a) * p1 beam + v (cuy a) * p2 beam + v (cuz a) * p3 beam) / p0 beam) * dt)).
Proof.
  intros Hmc Hb Ha v k. destruct Hb as [B0 HB].
  assert (G : 1 / cig a = sqrt (1 + u_sq a)) by (rewrite Ha; field; pose proof (gamma_pos a); lra).
  assert (Gn : cig a <> 0). { rewrite Ha. pose proof (gamma_pos a). apply Rgt_not_eq. apply Rdiv_lt_0_compat; lra. }
  assert (Ek : p0 beam * (1 / cig a - cux a * (p1 beam / p0 beam) - cuy a * (p2 beam / p0 beam) - cuz a * (p3 beam / p0 beam)) * (1 / mc) = k).
  { unfold k, energy_in_rest_frame. rewrite elec4_u. unfold mdot, four_u. cbn [p0 p1 p2 p3]. rewrite G. field. lra. }
  pose proof (energy_pos mc beam a Hmc (conj B0 HB) Ha) as Kp. fold k in Kp.
  unfold get_scattering_probability. cbv zeta. rewrite Ek. rewrite (is_RInt_unique _ _ _ _ (kn_total k Kp)).
  f_equal. f_equal. unfold v. set (K := klein_nishina k). field. lra.
Qed.
