(** C63, C64: laser profiles. *)
From Verif Require Import Base Fourier_Lib Psatd_Model Maxwell_Spec Laser_Model Laser_Spec Laser_Calc Laser_Wave Laser_Final.
From Coq Require Import Reals Lra Lia.
From Coquelicot Require Import Coquelicot.
Open Scope R_scope.

(** GaussianLaser: the envelope solves the paraxial wave equation, has the documented shape in the focal plane, and
    the field is that of a (chirped) pulse that moves rigidly at c in the requested direction, times this envelope. *)
Theorem C63_gaussian : forall c m_e e a0 waist tau z0 zf theta lambda0 cep phi2 dir l,
  c <> 0 -> tau <> 0 -> 0 < waist -> 0 < lambda0 -> gaussian_laser c m_e e a0 waist tau z0 zf theta lambda0 cep phi2 dir = Ok l ->
  exists u, paraxial (2 * PI / lambda0) (IZR dir) u /\
    (forall r th, u (r * cos th) (r * sin th) (focus z0 zf) = RtoC (gaussian_shape waist r)) /\
    (forall x y z, Cmod (u x y z) <= 1) /\
    is_pulse c (IZR dir) z0 (a0 * E_unit c m_e e lambda0) theta (chirped_waveform c tau (2 * PI / lambda0) cep phi2) u l.
Proof. exact gaussian_ok. Qed.
Print Assumptions C63_gaussian.
(** Without chirp, the waveform is the documented one. *)
Theorem C63_unchirped : forall c tau k0 cep zeta, chirped_waveform c tau k0 cep 0 zeta = gaussian_waveform c tau k0 cep zeta.
Proof. exact chirped_0. Qed.
Print Assumptions C63_unchirped.
(** A positive chirp: the local wavenumber is smaller than k0 (red) at the front of the pulse, larger (blue) at the back. *)
Theorem C63_chirp : forall c tau k0 cep phi2 zeta, c <> 0 -> tau <> 0 -> 0 < phi2 ->
  exists k, is_derive (chirped_phase c tau k0 cep phi2) zeta k /\ (0 < zeta -> k < k0) /\ (zeta < 0 -> k0 < k).
Proof.
  intros c tau k0 cep phi2 zeta Hc Ht Hp. eexists. split; [exact (chirped_wavenumber c tau k0 cep phi2 zeta Hc Ht)|].
  assert (P : 0 < 4 * phi2 / (c ^ 2 * tau ^ 4 * chirp_stretch tau phi2)).
  { pose proof (chirp_stretch_pos tau phi2). apply Rdiv_lt_0_compat; [lra|]. apply Rmult_lt_0_compat; [|lra]. apply Rmult_lt_0_compat; [nra|]. replace (tau ^ 4) with ((tau ^ 2) ^ 2) by ring. assert (0 < tau ^ 2) by nra. nra. }
  split; intros; nra.
Qed.
Print Assumptions C63_chirp.
(** The field is polarized along theta, never above the amplitude given by a0, and reaches it in the focus. *)
Theorem C63_peak : forall c m_e e a0 waist tau z0 zf theta lambda0 cep phi2 dir l,
  c <> 0 -> tau <> 0 -> 0 < waist -> 0 < lambda0 -> gaussian_laser c m_e e a0 waist tau z0 zf theta lambda0 cep phi2 dir = Ok l ->
  (forall x y z t, exists F, E_field l x y z t = (cos theta * F, sin theta * F) /\ Rabs F <= Rabs (a0 * E_unit c m_e e lambda0) / sqrt (sqrt (chirp_stretch tau phi2))) /\
  (phi2 = 0 -> cep = 0 -> exists t, E_field l 0 0 (focus z0 zf) t = (cos theta * (a0 * E_unit c m_e e lambda0), sin theta * (a0 * E_unit c m_e e lambda0))).
Proof.
  intros c m_e e a0 waist tau z0 zf theta lambda0 cep phi2 dir l Hc Ht Hw Hl H. destruct (gaussian_ok _ _ _ _ _ _ _ _ _ _ _ _ _ _ Hc Ht Hw Hl H) as (u & _ & Foc & B & _ & P). cbv zeta in P.
  assert (S1 : 0 < sqrt (sqrt (chirp_stretch tau phi2))) by (pose proof (chirp_stretch_pos tau phi2); apply sqrt_lt_R0, sqrt_lt_R0; lra).
  split.
  - intros x y z t. rewrite P. eexists. split; [reflexivity|]. rewrite Rabs_mult. unfold Rdiv. apply Rmult_le_compat_l; [apply Rabs_pos|].
    set (zeta := IZR dir * (z - z0) - c * t).
    apply Rle_trans with (Cmod (chirped_waveform c tau (2 * PI / lambda0) cep phi2 zeta * u x y z)%C).
    + set (w := (_ * u x y z)%C). pose proof (Cmod_sq w). pose proof (Cmod_ge_0 w). apply Rsqr_incr_0_var; [|assumption]. rewrite <- Rsqr_abs. unfold Rsqr. nra.
    + rewrite Cmod_mult. unfold chirped_waveform. rewrite Cmod_mult, Cmod_cis, Cmod_R, Rmult_1_r. unfold chirped_amplitude.
      set (X := - _). assert (X0 : X <= 0).
      { unfold X. pose proof (chirp_stretch_pos tau phi2). assert (0 <= zeta ^ 2 / (c ^ 2 * tau ^ 2 * chirp_stretch tau phi2)); [|lra]. apply Rdiv_le_0_compat; [nra|]. apply Rmult_lt_0_compat; [|lra]. apply Rmult_lt_0_compat; nra. }
      assert (E : exp X <= 1) by (rewrite <- exp_0; destruct X0 as [X0|X0]; [left; apply exp_increasing; exact X0|rewrite X0; lra]). pose proof (exp_pos X).
      assert (0 < / sqrt (sqrt (chirp_stretch tau phi2))) by (apply Rinv_0_lt_compat; exact S1). rewrite Rabs_right by nra.
      pose proof (B x y z). pose proof (Cmod_ge_0 (u x y z)). assert (/ sqrt (sqrt (chirp_stretch tau phi2)) * exp X <= / sqrt (sqrt (chirp_stretch tau phi2))) by nra. nra.
  - intros -> ->. exists (IZR dir * (focus z0 zf - z0) / c). rewrite P. pose proof (Foc 0 0) as F0. replace (0 * cos 0) with 0 in F0 by ring. replace (0 * sin 0) with 0 in F0 by ring. rewrite F0.
    replace (IZR dir * (focus z0 zf - z0) - c * (IZR dir * (focus z0 zf - z0) / c)) with 0 by (field; exact Hc).
    rewrite chirped_0. unfold gaussian_waveform, gaussian_shape.
    replace (- (0 ^ 2 / (c ^ 2 * tau ^ 2))) with 0 by (unfold Rdiv; ring). replace (- (0 ^ 2 / waist ^ 2)) with 0 by (unfold Rdiv; ring). replace (2 * PI / lambda0 * 0 - 0) with 0 by ring.
    rewrite exp_0, cis_0. replace (Re (RtoC 1 * RtoC 1 * RtoC 1)%C) with 1 by (unfold Re, Cmult, RtoC; cbn; ring). f_equal; ring.
Qed.
Print Assumptions C63_peak.

(** LaguerreGaussLaser *)
Theorem C63_laguerre : forall c m_e e p m a0 waist tau z0 zf theta lambda0 cep theta0 dir l,
  c <> 0 -> tau <> 0 -> 0 < waist -> 0 < lambda0 -> laguerre_gauss_laser c m_e e p m a0 waist tau z0 zf theta lambda0 cep theta0 dir = Ok l ->
  exists u, paraxial (2 * PI / lambda0) (IZR dir) u /\
    (forall r th, u (r * cos th) (r * sin th) (focus z0 zf) = RtoC (laguerre_shape p (Z.to_nat m) waist theta0 r th)) /\
    is_pulse c (IZR dir) z0 (a0 * E_unit c m_e e lambda0) theta (gaussian_waveform c tau (2 * PI / lambda0) cep) u l.
Proof. exact laguerre_ok. Qed.
Print Assumptions C63_laguerre.
(** DonutLikeLaguerreGaussLaser *)
Theorem C63_donut : forall c m_e e p m a0 waist tau z0 zf theta lambda0 cep dir l,
  c <> 0 -> tau <> 0 -> 0 < waist -> 0 < lambda0 -> donut_laser c m_e e p m a0 waist tau z0 zf theta lambda0 cep dir = Ok l ->
  exists u, paraxial (2 * PI / lambda0) (IZR dir) u /\
    (forall r th, u (r * cos th) (r * sin th) (focus z0 zf) = donut_shape p m waist r th) /\
    is_pulse c (IZR dir) z0 (a0 * E_unit c m_e e lambda0) theta (gaussian_waveform c tau (2 * PI / lambda0) cep) u l.
Proof. exact donut_ok. Qed.
Print Assumptions C63_donut.
(** FlattenedGaussianLaser: also the documented shape far from focus (with w(z) = lambda0 |z - zf|/(pi w0) and r = s |z - zf|). *)
Theorem C63_flattened : forall c m_e e a0 w0 tau z0 N zf theta lambda0 cep dir l,
  c <> 0 -> tau <> 0 -> 0 < w0 -> 0 < lambda0 -> flattened_laser c m_e e a0 w0 tau z0 N zf theta lambda0 cep dir = Ok l ->
  exists u, paraxial (2 * PI / lambda0) (IZR dir) u /\
    (forall r th, u (r * cos th) (r * sin th) (focus z0 zf) = RtoC (flattened_shape N w0 r)) /\ flattened_shape N w0 0 = 1 /\
    (forall s th b, b = p_infty \/ b = m_infty -> is_lim (fun z => Cmod (u (s * (z - focus z0 zf) * cos th) (s * (z - focus z0 zf) * sin th) z) / Cmod (u 0 0 z)) b
       (flattened_far_shape N ((INR N + 1) * s ^ 2 / (lambda0 / (PI * w0)) ^ 2))) /\
    is_pulse c (IZR dir) z0 (a0 * E_unit c m_e e lambda0) theta (gaussian_waveform c tau (2 * PI / lambda0) cep) u l.
Proof. exact flattened_ok. Qed.
Print Assumptions C63_flattened.
(** FewCycleLaser: the whole pulse solves the paraxial wave equation (every frequency diffracts as it should), is never
    stronger than a0, and has the requested amplitude and phase in the focus when its centre arrives there. *)
Theorem C63_few_cycle : forall c m_e e fsolve a0 waist tau z0 zf theta lambda0 cep dir l s,
  0 < c -> 0 < waist -> 0 < lambda0 -> few_cycle_laser c m_e e fsolve a0 waist tau z0 zf theta lambda0 cep dir = Ok l ->
  s = fsolve (fun s => s * sqrt (2 * (exp (1 / (s + 1) * ln 4) - 1)) - c * (2 * PI / lambda0) * tau) 1 -> 0 < s ->
  exists u, paraxial_pulse (IZR dir) u /\ (forall x y z zeta, Cmod (u x y z zeta) <= 1) /\ u 0 0 (focus z0 zf) (IZR dir * z0) = cis cep /\
    propag_direction l = IZR dir /\
    forall x y z t, E_field l x y z t = (cos theta * (a0 * E_unit c m_e e lambda0 * Re (u x y z (IZR dir * z - c * t))), sin theta * (a0 * E_unit c m_e e lambda0 * Re (u x y z (IZR dir * z - c * t)))).
Proof.
  intros c m_e e fsolve a0 waist tau z0 zf theta lambda0 cep dir l s Hc Hw Hl H Es Hs.
  destruct (few_cycle_ok _ _ _ _ _ _ _ _ _ _ _ _ _ _ _ Hc Hw Hl H Es Hs) as (u & A & B & D & _ & F & _ & G). exists u. auto.
Qed.
Print Assumptions C63_few_cycle.

(** C64: the duration of a FewCycleLaser.  When the solver finds a root (exactly), the intensity envelope in the focus
    has a full width at half maximum which is shorter than the requested tau_fwhm (but never by more than a factor sqrt(2/3)). *)
Definition few_cycle_width (tau s : R) : R := tau * sqrt (2 / (1 + exp (/ (s + 1) * ln 2))).
Theorem C64_partial : forall c m_e e fsolve a0 waist tau z0 zf theta lambda0 cep dir l s,
  0 < c -> 0 < waist -> 0 < lambda0 -> 0 < tau -> few_cycle_laser c m_e e fsolve a0 waist tau z0 zf theta lambda0 cep dir = Ok l ->
  s = fsolve (fun s => s * sqrt (2 * (exp (1 / (s + 1) * ln 4) - 1)) - c * (2 * PI / lambda0) * tau) 1 -> 0 < s ->
  s * sqrt (2 * (exp (1 / (s + 1) * ln 4) - 1)) = c * (2 * PI / lambda0) * tau ->
  exists u, has_fwhm (fun t => Cmod (u 0 0 (focus z0 zf) (IZR dir * focus z0 zf - c * t)) ^ 2) (few_cycle_width tau s) /\
    sqrt (2 / 3) * tau < few_cycle_width tau s < tau /\
    forall x y z t, E_field l x y z t = (cos theta * (a0 * E_unit c m_e e lambda0 * Re (u x y z (IZR dir * z - c * t))), sin theta * (a0 * E_unit c m_e e lambda0 * Re (u x y z (IZR dir * z - c * t)))).
Proof.
  intros c m_e e fsolve a0 waist tau z0 zf theta lambda0 cep dir l s Hc Hw Hl Ht H Es Hs Root.
  destruct (few_cycle_ok _ _ _ _ _ _ _ _ _ _ _ _ _ _ _ Hc Hw Hl H Es Hs) as (u & _ & _ & _ & W & _ & _ & G). exists u. split; [exact (W Root)|]. split; [|exact G].
  destruct (a_bounds s Hs) as [A1 A2]. unfold few_cycle_width. set (a := exp (/ (s + 1) * ln 2)) in *.
  assert (Q : 2 / 3 < 2 / (1 + a) < 1).
  { split; [unfold Rdiv; apply Rmult_lt_compat_l; [lra|]; apply Rinv_lt_contravar; [lra|lra]|]. apply (Rmult_lt_reg_r (1 + a)); [lra|]. unfold Rdiv. rewrite Rmult_assoc, Rinv_l; lra. }
  assert (S1 : sqrt (2 / 3) < sqrt (2 / (1 + a))) by (apply sqrt_lt_1; lra).
  assert (S2 : sqrt (2 / (1 + a)) < 1) by (apply Rlt_le_trans with (sqrt 1); [apply sqrt_lt_1; lra|rewrite sqrt_1; lra]). split; nra.
Qed.
Print Assumptions C64_partial.
(** In SI-like units with c = 1, k0 = 1: a pulse of requested duration sqrt 2 (s = 1) has another duration. *)
Lemma root_1 : 1 * sqrt (2 * (exp (1 / (1 + 1) * ln 4) - 1)) = 1 * (2 * PI / (2 * PI)) * sqrt 2.
Proof.
  replace 4 with (2 * 2) by ring. rewrite ln_mult by lra. replace (1 / (1 + 1) * (ln 2 + ln 2)) with (ln 2) by field. rewrite exp_ln by lra.
  replace (2 * (2 - 1)) with 2 by ring. field. pose proof PI_RGT_0. lra.
Qed.
Lemma fwhm_unique I a b : 0 < a -> 0 < b -> has_fwhm I a -> has_fwhm I b -> a = b.
Proof.
  intros Ha Hb (_ & t0 & _ & A) (_ & t1 & _ & B).
  assert (H : forall t, Rabs (t - t0) <= a / 2 <-> Rabs (t - t1) <= b / 2) by (intros t; rewrite <- A, <- B; reflexivity).
  assert (P1 : Rabs (t0 + a / 2 - t1) <= b / 2) by (apply H; replace (t0 + a / 2 - t0) with (a / 2) by ring; rewrite Rabs_right; lra).
  assert (P2 : Rabs (t0 - a / 2 - t1) <= b / 2) by (apply H; replace (t0 - a / 2 - t0) with (- (a / 2)) by ring; rewrite Rabs_Ropp, Rabs_right; lra).
  assert (P3 : Rabs (t1 + b / 2 - t0) <= a / 2) by (apply H; replace (t1 + b / 2 - t1) with (b / 2) by ring; rewrite Rabs_right; lra).
  assert (P4 : Rabs (t1 - b / 2 - t0) <= a / 2) by (apply H; replace (t1 - b / 2 - t1) with (- (b / 2)) by ring; rewrite Rabs_Ropp, Rabs_right; lra).
  apply Rabs_le_between in P1. apply Rabs_le_between in P2. apply Rabs_le_between in P3. apply Rabs_le_between in P4. lra.
Qed.
Theorem C64_refuted : exists (fsolve : (R -> R) -> R -> R) (tau : R) l,
  let residue := fun s => s * sqrt (2 * (exp (1 / (s + 1) * ln 4) - 1)) - 1 * (2 * PI / (2 * PI)) * tau in
  residue (fsolve residue 1) = 0 /\ 0 < tau /\ few_cycle_laser 1 1 1 fsolve 1 1 tau 0 None 0 (2 * PI) 0 1 = Ok l /\
  exists u, (forall x y z t, E_field l x y z t = (Re (u x y z (z - t)), 0)) /\ ~ has_fwhm (fun t => Cmod (u 0 0 0 (- t)) ^ 2) tau.
Proof.
  exists (fun _ _ => 1), (sqrt 2). eexists. cbv zeta. split; [rewrite root_1; ring|]. split; [apply sqrt_lt_R0; lra|]. split; [reflexivity|].
  match goal with |- context [E_field ?l] => destruct (C64_partial 1 1 1 (fun _ _ => 1) 1 1 (sqrt 2) 0 None 0 (2 * PI) 0 1%Z l 1) as (u & W & Q & G) end; try lra; try reflexivity.
  - pose proof PI_RGT_0. lra.
  - apply sqrt_lt_R0. lra.
  - exact root_1.
  - pose proof PI_RGT_0 as PP. exists u. split.
    + intros x y z t. rewrite G. rewrite cos_0, sin_0. unfold E_unit. replace (1 * z - 1 * t) with (z - t) by ring. f_equal; field; lra.
    + intros F. assert (S2 : 0 < sqrt 2) by (apply sqrt_lt_R0; lra). assert (S3 : 0 < sqrt (2 / 3)) by (apply sqrt_lt_R0; lra).
      assert (W' : has_fwhm (fun t => Cmod (u 0 0 0 (- t)) ^ 2) (few_cycle_width (sqrt 2) 1)).
      { destruct W as (W1 & t0 & W2 & W3). cbn [focus] in *. assert (E : forall t, 1 * 0 - 1 * t = - t) by (intros; ring).
        split; [intros t; rewrite <- E; apply W1|]. exists t0. split; [rewrite <- E; exact W2|]. intros t. rewrite <- W3, E. reflexivity. }
      assert (P0 : 0 < few_cycle_width (sqrt 2) 1) by nra. pose proof (fwhm_unique _ _ _ P0 S2 W' F). lra.
Qed.
Print Assumptions C64_refuted.

(** The hypotheses are met: the default of the tests, for each kind of laser. *)
Example C63_met : exists l1 l2 l3 l4, gaussian_laser 299792458 1 1 2 (4e-6) (2e-14) 0 None 0 (8e-7) 0 (1e-27) 1 = Ok l1 /\
  laguerre_gauss_laser 299792458 1 1 1 2 2 (4e-6) (2e-14) 0 (Some (1e-4)) 0 (8e-7) 0 1 (-1) = Ok l2 /\
  donut_laser 299792458 1 1 1 (-2) 2 (4e-6) (2e-14) 0 (Some (1e-4)) 0 (8e-7) 0 1 = Ok l3 /\
  flattened_laser 299792458 1 1 2 (4e-6) (2e-14) 0 6 (Some (1e-4)) 0 (8e-7) 0 1 = Ok l4.
Proof. do 4 eexists. repeat split; reflexivity. Qed.

(** The sum of two profiles: their fields are superposed, in both directions of polarization, and lasers that go in opposite
    directions are rejected. Hence a sum of pulses of the same envelope equation is such a pulse again. *)
Theorem C63_sum : forall l1 l2,
  (propag_direction l1 = propag_direction l2 -> exists l, summed_laser l1 l2 = Ok l /\ propag_direction l = propag_direction l1 /\
    (forall x y z t, fst (E_field l x y z t) = fst (E_field l1 x y z t) + fst (E_field l2 x y z t)) /\
    (forall x y z t, snd (E_field l x y z t) = snd (E_field l1 x y z t) + snd (E_field l2 x y z t))) /\
  (propag_direction l1 <> propag_direction l2 -> summed_laser l1 l2 = Err AssertionError).
Proof.
  intros l1 l2. unfold summed_laser. destruct (Req_EM_T (propag_direction l1) (propag_direction l2)) as [H|H]; split; intros D; try contradiction.
  - eexists. split; [reflexivity|]. split; [reflexivity|]. cbn [E_field].
    split; intros; destruct (E_field l1 x y z t), (E_field l2 x y z t); reflexivity.
  - reflexivity.
Qed.
Print Assumptions C63_sum.
