(** Proofs for C67. *)
From Verif Require Import Base Compton_Model Compton_Spec Gauss_Lib Beam_Model Beam_Spec.
From Coq Require Import Reals Lra Psatz.
From Coquelicot Require Import Coquelicot.
Open Scope R_scope.

Section B.
Context (h c W lam waist ctau z0 : R) (boost : option R).
Hypothesis Hh : 0 < h.
Hypothesis Hc : 0 < c.
Hypothesis Hlam : 0 < lam.
Hypothesis Hw : 0 < waist.
Hypothesis Hct : 0 < ctau.
Hypothesis Hboost : match boost with Some g => 1 <= g | None => True end.
Let s := compton_init h c W lam waist ctau z0 boost.

Lemma frame : is_frame boost (sc_gamma s) (sc_beta s).
Proof.
  unfold s, compton_init. destruct boost as [g|]; cbn; [|split; reflexivity].
  split; [reflexivity|]. split; [apply sqrt_pos|].
  assert (D : 0 <= 1 - 1 / g ^ 2).
  { assert (1 / g ^ 2 <= 1); [|lra]. assert (1 <= g ^ 2) by nra. apply (Rmult_le_reg_r (g ^ 2)); [lra|].
    unfold Rdiv. rewrite Rmult_assoc, Rinv_l by lra. lra. }
  change (sqrt (1 - 1 / (g * (g * 1))) * (sqrt (1 - 1 / (g * (g * 1))) * 1)) with (sqrt (1 - 1 / g ^ 2) ^ 2).
  rewrite pow2_sqrt by exact D. field. lra.
Qed.
Lemma gamma_beta : 1 <= sc_gamma s /\ 0 <= sc_beta s /\ sc_gamma s ^ 2 * (1 - sc_beta s ^ 2) = 1.
Proof.
  pose proof frame as F. unfold is_frame in F. destruct boost as [g|].
  - destruct F as (-> & A & B). repeat split; assumption.
  - destruct F as (-> & ->). repeat split; lra.
Qed.
Lemma peak : sc_n_peak s = W / (Rpower (PI / 2) (3 / 2) * waist ^ 2 * ctau * (h / lam * c)).
Proof.
  assert (E : sqrt (0 ^ 2 + 0 ^ 2 + (- h / lam) ^ 2) = h / lam).
  { replace (0 ^ 2 + 0 ^ 2 + (- h / lam) ^ 2) with ((h / lam) ^ 2) by (field; lra). apply sqrt_pow2.
    left. apply Rdiv_lt_0_compat; assumption. }
  unfold s, compton_init. destruct boost; cbn [sc_n_peak]; rewrite E; reflexivity.
Qed.
Lemma params : sc_z0 s = z0 /\ sc_inv_waist2 s = 1 / waist ^ 2 /\ sc_inv_ctau2 s = 1 / ctau ^ 2.
Proof. unfold s, compton_init. destruct boost; repeat split; reflexivity. Qed.
Lemma s_beam : sc_beam s = incident_photon h lam (sc_gamma s) (sc_beta s).
Proof. unfold s, compton_init. destruct boost; reflexivity. Qed.

(** The density as a product of Gaussians. *)
Lemma gauss3 (G x y z t : R) : 0 < G ->
  exp (- 2 * (1 / waist ^ 2) * (x ^ 2 + y ^ 2) - 2 * (1 / ctau ^ 2) * (G * (z + c * t) - z0) ^ 2)
  = exp (- ((x - 0) / (waist / sqrt 2)) ^ 2) * (exp (- ((y - 0) / (waist / sqrt 2)) ^ 2) * exp (- ((z - (z0 / G - c * t)) / (ctau / sqrt 2 / G)) ^ 2)).
Proof.
  intros HG. rewrite <- !exp_plus. f_equal. assert (S : sqrt 2 ^ 2 = 2) by (apply pow2_sqrt; lra).
  assert (Sn : sqrt 2 <> 0) by (apply Rgt_not_eq, sqrt_lt_R0; lra).
  replace (- ((x - 0) / (waist / sqrt 2)) ^ 2) with (- sqrt 2 ^ 2 * (x / waist) ^ 2) by (field; split; [exact Sn|lra]).
  replace (- ((y - 0) / (waist / sqrt 2)) ^ 2) with (- sqrt 2 ^ 2 * (y / waist) ^ 2) by (field; split; [exact Sn|lra]).
  replace (- ((z - (z0 / G - c * t)) / (ctau / sqrt 2 / G)) ^ 2) with (- sqrt 2 ^ 2 * ((G * (z + c * t) - z0) / ctau) ^ 2) by (field; repeat split; try exact Sn; lra).
  rewrite S. field. split; lra.
Qed.
Lemma density_eq x y z t : let G := sc_gamma s * (1 + sc_beta s) in
  photon_density s c x y z t = G * sc_n_peak s *
    (exp (- ((x - 0) / (waist / sqrt 2)) ^ 2) * (exp (- ((y - 0) / (waist / sqrt 2)) ^ 2) * exp (- ((z - (z0 / G - c * t)) / (ctau / sqrt 2 / G)) ^ 2))).
Proof.
  intros G. destruct gamma_beta as (A & B & _). assert (HG : 0 < G) by (unfold G; apply Rmult_lt_0_compat; lra).
  rewrite <- (gauss3 G x y z t HG). destruct params as (E1 & E2 & E3).
  unfold photon_density, get_photon_density_gaussian. cbv zeta. rewrite E1, E2, E3.
  set (g := sc_gamma s) in *. set (b := sc_beta s) in *.
  replace (g * (z + b * (c * t)) - z0 + g * (c * t + b * z)) with (G * (z + c * t) - z0) by (unfold G; ring).
  unfold G. ring.
Qed.
Lemma power32 : Rpower (PI / 2) (3 / 2) = sqrt (PI / 2) ^ 3.
Proof.
  pose proof PI_RGT_0. assert (P : 0 < PI / 2) by lra.
  rewrite <- (Rpower_sqrt (PI / 2)) by exact P. rewrite <- Rpower_pow by apply exp_pos.
  rewrite Rpower_mult. f_equal. simpl. field.
Qed.
Lemma total_number t : int_R3 (fun x y z => photon_density s c x y z t) (W / (h / lam * c)).
Proof.
  destruct gamma_beta as (A & B & _). set (G := sc_gamma s * (1 + sc_beta s)).
  assert (HG : 0 < G) by (unfold G; apply Rmult_lt_0_compat; lra).
  assert (S2 : 0 < sqrt 2) by (apply sqrt_lt_R0; lra).
  assert (Sw : 0 < waist / sqrt 2) by (apply Rdiv_lt_0_compat; assumption).
  assert (Sc : 0 < ctau / sqrt 2 / G) by (repeat apply Rdiv_lt_0_compat; assumption).
  set (gx := fun x => exp (- ((x - 0) / (waist / sqrt 2)) ^ 2)).
  set (gz := fun z => exp (- ((z - (z0 / G - c * t)) / (ctau / sqrt 2 / G)) ^ 2)).
  set (Iz := ctau / sqrt 2 / G * sqrt PI). set (Ix := waist / sqrt 2 * sqrt PI).
  pose proof (gaussian (z0 / G - c * t) _ Sc) as Hz. pose proof (gaussian 0 _ Sw) as Hx. fold gx in Hx. fold gz in Hz. fold Ix in Hx. fold Iz in Hz.
  exists (fun x y => (G * sc_n_peak s * gx x * gx y) * Iz), (fun x => (G * sc_n_peak s * gx x * Iz) * Ix).
  split; [|split].
  - intros x y. refine (int_R_ext _ _ _ _ (int_R_scal gz (G * sc_n_peak s * gx x * gx y) Iz Hz)).
    intros z. rewrite density_eq. fold G. unfold gx, gz. cbv beta. ring.
  - intros x. refine (int_R_ext _ _ _ _ (int_R_scal gx (G * sc_n_peak s * gx x * Iz) Ix Hx)). intros y. ring.
  - replace (W / (h / lam * c)) with (G * sc_n_peak s * Iz * Ix * Ix).
    + refine (int_R_ext _ _ _ _ (int_R_scal gx (G * sc_n_peak s * Iz * Ix) Ix Hx)). intros x. ring.
    + rewrite peak, power32. unfold Iz, Ix. pose proof PI_RGT_0 as HP.
      rewrite (sqrt_div_alt PI 2) by lra. assert (Sp : 0 < sqrt PI) by (apply sqrt_lt_R0, HP). field. repeat split; lra.
Qed.
Lemma moves x y z t d : photon_density s c x y (z - c * d) (t + d) = photon_density s c x y z t.
Proof.
  rewrite !density_eq. cbv zeta. set (G := sc_gamma s * (1 + sc_beta s)).
  replace (z - c * d - (z0 / G - c * (t + d))) with (z - (z0 / G - c * t)) by ring. reflexivity.
Qed.
Lemma beam_eq : sc_beam s = lorentz_z (sc_gamma s) (sc_beta s) {| p0 := h / lam; p1 := 0; p2 := 0; p3 := - (h / lam) |}.
Proof.
  rewrite s_beam. destruct gamma_beta as (A & B & _). assert (Q : 0 < h / lam) by (apply Rdiv_lt_0_compat; assumption).
  assert (E : sqrt (0 ^ 2 + 0 ^ 2 + (- h / lam) ^ 2) = h / lam).
  { replace (0 ^ 2 + 0 ^ 2 + (- h / lam) ^ 2) with ((h / lam) ^ 2) by (field; lra). apply sqrt_pow2. lra. }
  unfold incident_photon, lorentz_z. cbv zeta. rewrite E. cbn [p0 p1 p2 p3].
  replace (- h / lam) with (- (h / lam)) by (field; lra). set (q := h / lam) in *.
  set (g := sc_gamma s) in *. set (b := sc_beta s) in *. f_equal.
  replace (0 ^ 2 + 0 ^ 2 + (g * (- q - b * q)) ^ 2) with ((g * (q - b * - q)) ^ 2) by ring. apply sqrt_pow2.
  replace (q - b * - q) with (q * (1 + b)) by ring. apply Rmult_le_pos; [lra|]. apply Rmult_le_pos; lra.
Qed.
Lemma beam_lightlike : lightlike (sc_beam s) /\ p1 (sc_beam s) / p0 (sc_beam s) = 0 /\ p2 (sc_beam s) / p0 (sc_beam s) = 0 /\ p3 (sc_beam s) / p0 (sc_beam s) = -1.
Proof.
  rewrite beam_eq. destruct gamma_beta as (A & B & _). assert (Q : 0 < h / lam) by (apply Rdiv_lt_0_compat; assumption).
  unfold lightlike, lorentz_z. cbn [p0 p1 p2 p3]. set (q := h / lam) in *. set (g := sc_gamma s) in *. set (b := sc_beta s) in *.
  assert (P : 0 < g * (q - b * - q)).
  { replace (q - b * - q) with (q * (1 + b)) by ring. apply Rmult_lt_0_compat; [lra|]. apply Rmult_lt_0_compat; lra. }
  replace (g * (- q - b * q)) with (- (g * (q - b * - q))) by ring. set (D := g * (q - b * - q)) in *.
  split; [split; [exact P|ring]|]. split; [field; lra|]. split; field; lra.
Qed.
Lemma flux x y z t (s_lab := compton_init h c W lam waist ctau z0 None) :
  let n := photon_density s_lab c x y (lab_z c (sc_gamma s) (sc_beta s) z t) (lab_t c (sc_gamma s) (sc_beta s) z t) in
  let n' := photon_density s c x y z t in
  let b := sc_beam s in
  {| p0 := n'; p1 := n' * (p1 b / p0 b); p2 := n' * (p2 b / p0 b); p3 := n' * (p3 b / p0 b) |}
  = lorentz_z (sc_gamma s) (sc_beta s) {| p0 := n; p1 := 0; p2 := 0; p3 := - n |}.
Proof.
  destruct beam_lightlike as (_ & B1 & B2 & B3). cbv zeta. rewrite B1, B2, B3.
  assert (E : photon_density s c x y z t = sc_gamma s * (1 + sc_beta s) *
    photon_density s_lab c x y (lab_z c (sc_gamma s) (sc_beta s) z t) (lab_t c (sc_gamma s) (sc_beta s) z t)).
  { destruct params as (E1 & E2 & E3).
    assert (E4 : sc_n_peak s_lab = sc_n_peak s) by (unfold s_lab, s, compton_init; destruct boost; reflexivity).
    unfold photon_density, get_photon_density_gaussian. cbv zeta. rewrite E1, E2, E3.
    change (sc_gamma s_lab) with 1. change (sc_beta s_lab) with 0. change (sc_z0 s_lab) with z0.
    change (sc_inv_waist2 s_lab) with (1 / waist ^ 2). change (sc_inv_ctau2 s_lab) with (1 / ctau ^ 2). rewrite E4.
    set (g := sc_gamma s) in *. set (b := sc_beta s) in *. unfold lab_z, lab_t.
    replace (1 * (g * (z + b * c * t) + 0 * (c * (g * (t + b * z / c)))) - z0 + 1 * (c * (g * (t + b * z / c)) + 0 * (g * (z + b * c * t))))
      with (g * (z + b * (c * t)) - z0 + g * (c * t + b * z)) by (field; lra). ring. }
  unfold lorentz_z. cbn [p0 p1 p2 p3]. rewrite E. f_equal; ring.
Qed.
End B.

(** Where the field is 1/e of its peak, the density is 1/e^2 of its peak. *)
Lemma widths h c W lam waist ctau z0 x y z t : 0 < c -> 0 < waist -> 0 < ctau ->
  let n := photon_density (compton_init h c W lam waist ctau z0 None) c in
  x ^ 2 + y ^ 2 = waist ^ 2 /\ z = z0 - c * t \/ x = 0 /\ y = 0 /\ (z - (z0 - c * t)) ^ 2 = ctau ^ 2 ->
  n x y z t = exp (- 2) * n 0 0 (z0 - c * t) t.
Proof.
  intros Hc Hw Hct n E. unfold n, photon_density, get_photon_density_gaussian. cbn [compton_init sc_n_peak sc_inv_waist2 sc_inv_ctau2 sc_z0 sc_gamma sc_beta].
  set (N := W / _). 
  replace (1 * (z0 - c * t + 0 * (c * t)) - z0 + 1 * (c * t + 0 * (z0 - c * t))) with 0 by ring.
  replace (- 2 * (1 / waist ^ 2) * (0 ^ 2 + 0 ^ 2) - 2 * (1 / ctau ^ 2) * 0 ^ 2) with 0 by ring. rewrite exp_0.
  replace (- 2 * (1 / waist ^ 2) * (x ^ 2 + y ^ 2) - 2 * (1 / ctau ^ 2) * (1 * (z + 0 * (c * t)) - z0 + 1 * (c * t + 0 * z)) ^ 2) with (- 2); [ring|].
  replace (1 * (z + 0 * (c * t)) - z0 + 1 * (c * t + 0 * z)) with (z - (z0 - c * t)) by ring.
  destruct E as [(E & ->)|(-> & -> & E)]; rewrite E; field; lra.
Qed.
