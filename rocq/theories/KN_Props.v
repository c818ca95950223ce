(** C66: the angles and the rate of Compton scattering follow the Klein-Nishina formula. *)
From Verif Require Import Base Compton_Model Compton_Spec Compton_Proofs KN_Spec KN_Proofs.
From Coq Require Import Reals Lra.
From Coquelicot Require Import Coquelicot.
Open Scope R_scope.

(** The means of the statements below are well defined. *)
Theorem C66_mean_unique n phi m m' : is_mean n phi m -> is_mean n phi m' -> m = m'.
Proof. exact (is_mean_unique n phi m m'). Qed.
Print Assumptions C66_mean_unique.

(** Law of the scattering angle: for an electron of any momentum and a photon beam of any direction
    and energy, the cosine of the angle of the scattered photon with the beam, in the rest frame of
    the electron, is at most X within n turns of the rejection loop with probability
    (1 - (1 - A)^n) times the Klein-Nishina cross-section below X over the total one; A, the
    probability that a turn accepts, depends neither on n nor on X and is positive. *)
Theorem C66_angle mc beam a phi : 0 < mc -> lightlike beam -> elec_consistent a ->
  let e := elec4 mc a in
  let k := energy_in_rest_frame mc e beam in
  exists A, 0 < A <= 1 /\ forall n X, -1 <= X <= 1 ->
    is_mean n (fun draws => at_most X (option_map (cos_in_rest_frame mc e beam) (scatter_one mc beam a draws phi)))
      ((1 - (1 - A) ^ n) * (RInt (kn k) (-1) X / RInt (kn k) (-1) 1)).
Proof.
  intros Hmc Hb Ha e k. exists (Acc k). pose proof (energy_pos mc beam a Hmc Hb Ha) as Kp.
  split; [split; [apply Acc_pos, Kp|apply Acc_le, Kp]|].
  intros n X HX. exact (scatter_law mc beam a Hmc Hb Ha phi n X HX).
Qed.
Print Assumptions C66_angle.

(** The loop ends: the probability that n turns are all rejected is (1 - A)^n. *)
Theorem C66_ends mc beam a phi : 0 < mc -> lightlike beam -> elec_consistent a ->
  exists A, 0 < A <= 1 /\ forall n,
    is_mean n (fun draws => match scatter_one mc beam a draws phi with Some _ => 1 | None => 0 end) (1 - (1 - A) ^ n).
Proof.
  intros Hmc Hb Ha. pose proof (energy_pos mc beam a Hmc Hb Ha) as Kp. set (k := energy_in_rest_frame mc (elec4 mc a) beam) in *.
  exists (Acc k). split; [split; [apply Acc_pos, Kp|apply Acc_le, Kp]|]. intros n.
  pose proof (scatter_law mc beam a Hmc Hb Ha phi n 1 ltac:(lra)) as M. cbv zeta in M. fold k in M.
  replace (1 - (1 - Acc k) ^ n) with ((1 - (1 - Acc k) ^ n) * (RInt (kn k) (-1) 1 / RInt (kn k) (-1) 1))
    by (field; pose proof (total_pos k Kp); lra).
  refine (is_mean_ext n _ _ _ _ M). intros ds _ Hd. destruct (scatter_one mc beam a ds phi) as [q|] eqn:E; [|reflexivity].
  cbn [option_map at_most]. pose proof (scatter_cos mc beam a Hmc Hb Ha ds phi q Hd E) as S1.
  apply sample_closed in S1; [|exact Kp|exact Hd]. destruct (Rle_dec _ 1); [reflexivity|lra].
Qed.
Print Assumptions C66_ends.

(** The azimuth is uniform: the mean over the last draw of the momentum of the scattered photon, in
    the rest frame, is along the incoming photon P, at every scattering angle. *)
Theorem C66_azimuth mc P x : lightlike P ->
  let n := p0 P / (1 + p0 P * (1 / mc) * (1 - x)) in
  is_RInt (V := R_NormedModule) (fun r => p1 (rest_scattered mc P x r)) 0 1 (n * x * (p1 P / p0 P)) /\
  is_RInt (V := R_NormedModule) (fun r => p2 (rest_scattered mc P x r)) 0 1 (n * x * (p2 P / p0 P)) /\
  is_RInt (V := R_NormedModule) (fun r => p3 (rest_scattered mc P x r)) 0 1 (n * x * (p3 P / p0 P)).
Proof. exact (azimuth mc P x). Qed.
Print Assumptions C66_azimuth.

(** Rate: the probability used for the number of photons is that of a Poisson process whose rate is
    the same cross-section, integrated over the angles, times the photon density times the relative
    velocity c - v.n. *)
Theorem C66_rate c PI_RE_2 mc beam dt a n : 0 < mc -> lightlike beam -> elec_consistent a ->
  let v q := q * cig a * c in
  let sigma := PI_RE_2 * RInt (kn (energy_in_rest_frame mc (elec4 mc a) beam)) (-1) 1 in
  get_scattering_probability c PI_RE_2 mc beam dt a n
  = 1 - exp (- (sigma * n * (c - (v (cux a) * p1 beam + v (cuy a) * p2 beam + v (cuz a) * p3 beam) / p0 beam) * dt)).
Proof. exact (probability c PI_RE_2 mc beam dt a n). Qed.
Print Assumptions C66_rate.

(** An electron at rest and a photon of energy m c^2 along z meet the hypotheses; k is then 1, and an
    X of 0 (backward half) is allowed. *)
Example C66_met : let a := {| cx := 0; cy := 0; cz := 0; cux := 0; cuy := 0; cuz := 0; cig := 1; cw := 1 |} in
  let beam := {| p0 := 1; p1 := 0; p2 := 0; p3 := -1 |} in
  0 < 1 /\ lightlike beam /\ elec_consistent a /\ energy_in_rest_frame 1 (elec4 1 a) beam = 1 /\ kn 1 0 = 3 / 8.
Proof.
  cbv zeta. split; [lra|]. split; [split; cbn; lra|].
  assert (S : sqrt (1 + (0 ^ 2 + 0 ^ 2 + 0 ^ 2)) = 1) by (replace (1 + (0 ^ 2 + 0 ^ 2 + 0 ^ 2)) with 1 by ring; apply sqrt_1).
  split; [unfold elec_consistent, u_sq; cbn [cux cuy cuz cig]; rewrite S; field|].
  split; [unfold energy_in_rest_frame, mdot, elec4, u_sq; cbn [p0 p1 p2 p3 cux cuy cuz]; rewrite S; field|].
  unfold kn. field.
Qed.
