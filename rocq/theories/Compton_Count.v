(** Proofs for C29-C31: probabilities, counts, loops over the electrons. *)
From Verif Require Import Base Inject_Proofs Sort_Model Sort_Proofs Ionize_Model Ionize_Proofs Compton_Model Compton_Spec Compton_Proofs.
From Coq Require Import Reals Lra.
From Flocq Require Import Core.Core.
From Coquelicot Require Import Coquelicot.
Open Scope R_scope.

(** ** The Klein-Nishina cross-section is positive *)
Lemma ln_bound k : 0 < k -> 0 < 2 + k * (2 - k) ->
  ln (1 + 2 * k) <= 2 * k * (2 + k * (1 + k) * (8 + k)) / ((1 + 2 * k) ^ 2 * (2 + k * (2 - k))).
Proof.
  intros Hk Hq.
  set (f := fun t : R => 2 * t * (2 + t * (1 + t) * (8 + t)) / ((1 + 2 * t) ^ 2 * (2 + t * (2 - t))) - ln (1 + 2 * t)).
  set (df := fun t : R => 8 * t ^ 2 * (2 + 8 * t + 13 * t ^ 2 + 8 * t ^ 3 - t ^ 4) / ((1 + 2 * t) ^ 3 * (2 + t * (2 - t)) ^ 2)).
  assert (Hqt : forall t, 0 <= t <= k -> 0 < 2 + t * (2 - t)) by (intros t Ht; destruct (Rle_lt_dec t 2); nra).
  assert (HD : forall t, 0 <= t <= k -> is_derive f t (df t)).
  { intros t Ht. specialize (Hqt t Ht). unfold f, df. auto_derive.
    - split; [|split; [lra|exact I]]. assert (0 < (1 + 2 * t) ^ 2) by (apply pow_lt; lra). nra.
    - field. split; lra. }
  assert (Hle : f 0 <= f k).
  { destruct (MVT_gen f 0 k df) as (t & Ht & E).
    - intros t Ht. apply HD. rewrite Rmin_left, Rmax_right in Ht by lra. lra.
    - intros t Ht. rewrite Rmin_left, Rmax_right in Ht by lra. apply continuity_pt_filterlim.
      apply (ex_derive_continuous f). exists (df t). apply HD. exact Ht.
    - rewrite Rmin_left, Rmax_right in Ht by lra. specialize (Hqt t Ht).
      assert (0 <= df t); [|nra]. unfold df. apply Rdiv_le_0_compat.
      + assert (t <= 3) by nra. apply Rmult_le_pos; [apply Rmult_le_pos; [lra|apply pow2_ge_0]|].
        replace (8 * t ^ 3 - t ^ 4) with (t ^ 3 * (8 - t)) by ring.
        assert (0 <= t ^ 3) by (apply pow_le; lra). assert (0 <= t ^ 2) by (apply pow_le; lra). nra.
      + apply Rmult_lt_0_compat; apply pow_lt; lra. }
  unfold f in Hle. replace (1 + 2 * 0) with 1 in Hle by ring. rewrite ln_1 in Hle.
  replace (2 * 0 * (2 + 0 * (1 + 0) * (8 + 0)) / (1 ^ 2 * (2 + 0 * (2 - 0))) - 0) with 0 in Hle by field. lra.
Qed.
Lemma klein_nishina_pos k : 0 < k -> 0 <= klein_nishina k.
Proof.
  intros Hk. unfold klein_nishina. cbv zeta.
  assert (K2 : 0 < k ^ 2) by (apply pow_lt; lra). assert (K3 : 0 < k ^ 3) by (apply pow_lt; lra).
  assert (S2 : 0 < (1 + 2 * k) ^ 2) by (apply pow_lt; lra).
  assert (L : 0 < ln (1 + 2 * k)) by (rewrite <- ln_1; apply ln_increasing; lra).
  assert (F1 : 0 < 2 * (2 + k * (1 + k) * (8 + k)) / (k ^ 2 * (1 + 2 * k) ^ 2)).
  { apply Rdiv_lt_0_compat; [|apply Rmult_lt_0_compat; assumption]. nra. }
  destruct (Rlt_le_dec 0 (2 + k * (2 - k))) as [Q|Q].
  - pose proof (ln_bound k Hk Q) as B.
    assert ((2 + k * (2 - k)) * ln (1 + 2 * k) / k ^ 3 <= 2 * (2 + k * (1 + k) * (8 + k)) / (k ^ 2 * (1 + 2 * k) ^ 2)); [|lra].
    replace (2 * (2 + k * (1 + k) * (8 + k)) / (k ^ 2 * (1 + 2 * k) ^ 2))
      with ((2 + k * (2 - k)) * (2 * k * (2 + k * (1 + k) * (8 + k)) / ((1 + 2 * k) ^ 2 * (2 + k * (2 - k)))) / k ^ 3)
      by (field; repeat split; lra).
    unfold Rdiv. apply Rmult_le_compat_r; [left; apply Rinv_0_lt_compat; exact K3|].
    apply Rmult_le_compat_l; [lra|exact B].
  - assert ((2 + k * (2 - k)) * ln (1 + 2 * k) / k ^ 3 <= 0); [|lra].
    unfold Rdiv. assert (0 < / k ^ 3) by (apply Rinv_0_lt_compat; exact K3).
    assert ((2 + k * (2 - k)) * ln (1 + 2 * k) <= 0) by nra. nra.
Qed.

Section P.
Context (c PI_RE_2 mc : R) (beam : fourmom) (ratio : R).
Hypothesis Hmc : 0 < mc.
Hypothesis Hbeam : lightlike beam.
Hypothesis Hc : 0 < c.
Hypothesis Hre : 0 <= PI_RE_2.

Lemma probability_range dt a photon_n : elec_consistent a -> 0 <= dt -> 0 <= photon_n ->
  0 <= get_scattering_probability c PI_RE_2 mc beam dt a photon_n < 1.
Proof.
  intros H Hdt Hn. unfold get_scattering_probability. cbv zeta.
  set (tf := 1 / cig a - cux a * (p1 beam / p0 beam) - cuy a * (p2 beam / p0 beam) - cuz a * (p3 beam / p0 beam)).
  assert (Htf : 0 < tf).
  { pose proof (rest_lightlike beam Hbeam a H) as [P _]. rewrite <- (mdot_u_rest beam a H) in P.
    destruct Hbeam as [B _]. unfold mdot, four_u in P. cbn [p0 p1 p2 p3] in P.
    replace tf with ((sqrt (1 + u_sq a) * p0 beam - cux a * p1 beam - cuy a * p2 beam - cuz a * p3 beam) / p0 beam).
    - apply Rdiv_lt_0_compat; assumption.
    - unfold tf. rewrite H. pose proof (gamma_pos a). field. split; lra. }
  assert (Hk : 0 < p0 beam * tf * (1 / mc)).
  { destruct Hbeam as [B _]. assert (0 < 1 / mc) by (apply Rdiv_lt_0_compat; lra).
    apply Rmult_lt_0_compat; [apply Rmult_lt_0_compat|]; assumption. }
  pose proof (klein_nishina_pos _ Hk) as HK.
  assert (Hig : 0 < cig a) by (rewrite H; apply Rdiv_lt_0_compat; [lra|apply gamma_pos]).
  assert (0 <= PI_RE_2 * klein_nishina (p0 beam * tf * (1 / mc)) * (photon_n * tf) * c * (dt * cig a)).
  { repeat apply Rmult_le_pos; lra. }
  set (E := PI_RE_2 * klein_nishina (p0 beam * tf * (1 / mc)) * (photon_n * tf) * c * (dt * cig a)) in *.
  replace (- (PI_RE_2 * klein_nishina (p0 beam * tf * (1 / mc))) * (photon_n * tf) * c * (dt * cig a)) with (- E) by (unfold E; ring).
  pose proof (exp_pos (- E)). assert (exp (- E) <= 1).
  { rewrite <- exp_0. destruct H0 as [L|L]; [left; apply exp_increasing; lra|rewrite <- L; rewrite Ropp_0; right; reflexivity]. }
  lra.
Qed.
End P.

(** ** Counts *)
Lemma count_floor a r : 0 <= a -> unit_draw r ->
  Ztrunc (a + r) = (if Rlt_dec (a + r) (IZR (Zfloor a) + 1) then Zfloor a else Zfloor a + 1)%Z.
Proof.
  intros Ha (R0 & R1). pose proof (Zfloor_lb a) as F1. pose proof (Zfloor_ub a) as F2.
  rewrite Ztrunc_floor by lra. destruct (Rlt_dec _ _) as [L|L]; apply Zfloor_imp; rewrite ?plus_IZR; lra.
Qed.
Lemma count_mean a : 0 <= a -> is_RInt (fun r : R => IZR (Ztrunc (a + r))) 0 1 a.
Proof.
  intros Ha. pose proof (Zfloor_lb a) as F1. pose proof (Zfloor_ub a) as F2.
  set (n := Zfloor a) in *. set (s := IZR n + 1 - a).
  assert (I1 : is_RInt (fun r : R => IZR (Ztrunc (a + r))) 0 s (scal (s - 0) (IZR n))).
  { apply (is_RInt_ext (fun _ : R => IZR n)); [|apply @is_RInt_const].
    intros r Hr. rewrite Rmin_left, Rmax_right in Hr by (unfold s; lra).
    rewrite count_floor by (unfold unit_draw, s in *; lra). fold n.
    destruct (Rlt_dec _ _) as [L|L]; [reflexivity|unfold s in *; lra]. }
  assert (I2 : is_RInt (fun r : R => IZR (Ztrunc (a + r))) s 1 (scal (1 - s) (IZR (n + 1)))).
  { apply (is_RInt_ext (fun _ : R => IZR (n + 1))); [|apply @is_RInt_const].
    intros r Hr. rewrite Rmin_left, Rmax_right in Hr by (unfold s; lra).
    rewrite count_floor by (unfold unit_draw, s in *; lra). fold n.
    destruct (Rlt_dec _ _) as [L|L]; [unfold s in *; lra|reflexivity]. }
  pose proof (is_RInt_Chasles _ _ _ _ _ _ I1 I2) as I. unfold scal, plus in I. cbn in I. unfold mult in I. cbn in I.
  replace ((s - 0) * IZR n + (1 - s) * IZR (n + 1)) with a in I; [exact I|].
  rewrite plus_IZR. unfold s. ring.
Qed.
