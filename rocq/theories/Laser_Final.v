(** Assembly of the results on laser profiles (C63, C64). *)
From Verif Require Import Base Fourier_Lib Psatd_Model Psatd_Spec Psatd_Proofs Maxwell_Spec Maxwell_Proofs Laser_Model Laser_Spec Laser_Calc Laser_Laguerre Laser_Paraxial Laser_Proofs Laser_Wave Laser_FewCycle Laser_Flat.
From Coq Require Import Reals Lra Lia.
From Coquelicot Require Import Coquelicot.
Open Scope R_scope.

Lemma combine_pulse c dir z0 E0 E0' theta g (long : R -> R -> C) (u trans : R -> R -> R -> C) pd :
  E0 = E0' -> pd = dir -> (forall z t, long z t = g (dir * (z - z0) - c * t)) -> (forall x y z, trans x y z = u x y z) ->
  is_pulse c dir z0 E0' theta g u {| propag_direction := pd; E_field := combine (E0 * cos theta) (E0 * sin theta) long trans |}.
Proof.
  intros <- -> L T. split; [reflexivity|]. intros x y z t. cbv zeta. cbn [E_field]. unfold combine. rewrite L, T. set (p := (g _ * u x y z)%C).
  assert (Q : forall a, Re (RtoC a * p)%C = a * Re p) by (intros; unfold Re, Cmult, RtoC; cbn; ring).
  rewrite !Q. f_equal; ring.
Qed.
Lemma E0_unit c m_e e a0 lambda0 : E0_of c m_e e a0 lambda0 = a0 * E_unit c m_e e lambda0.
Proof. unfold E0_of, E_unit, Rdiv. ring. Qed.
Lemma zf_focus z0 zf : zf_of z0 zf = focus z0 zf.
Proof. destruct zf; reflexivity. Qed.

Lemma gaussian_ok c m_e e a0 waist tau z0 zf theta lambda0 cep phi2 dir l :
  c <> 0 -> tau <> 0 -> 0 < waist -> 0 < lambda0 -> gaussian_laser c m_e e a0 waist tau z0 zf theta lambda0 cep phi2 dir = Ok l ->
  exists u, paraxial (2 * PI / lambda0) (IZR dir) u /\
    (forall r th, u (r * cos th) (r * sin th) (focus z0 zf) = RtoC (gaussian_shape waist r)) /\
    (forall x y z, Cmod (u x y z) <= 1) /\
    is_pulse c (IZR dir) z0 (a0 * E_unit c m_e e lambda0) theta (chirped_waveform c tau (2 * PI / lambda0) cep phi2) u l.
Proof.
  intros Hc Ht Hw Hl. unfold gaussian_laser. destruct (longitudinal_init c tau z0 lambda0 cep phi2 dir) as [g|] eqn:G; [|discriminate]. cbn [bind].
  destruct (transverse_init waist (zf_of z0 zf) lambda0 dir) as [t|] eqn:T; [|discriminate]. cbn [bind]. intros H.
  destruct (transverse_good _ _ _ _ _ Hw Hl T) as (Gd & K & Z & W). pose proof (fun z s => proj1 (longitudinal_form c tau z0 lambda0 cep phi2 dir g z s Hc Ht G)) as LF.
  assert (E1 : forall x, genlaguerre 0 0 x = 1) by (intros; unfold genlaguerre, factR; cbn; field).
  exists (gauss_evaluate t). split; [|split; [|split]].
  - rewrite <- K. eapply paraxial_ext; [|apply (amode_paraxial t dir 0 0 1 Gd); auto]. intros. rewrite gauss_form by apply Gd. unfold harm. cbn [cpow]. ring.
  - intros r th. rewrite gauss_form, polar_sq by apply Gd. rewrite <- zf_focus, <- Z, amode_focus by (destruct Gd; lra). rewrite E1, W, Rmult_1_l. reflexivity.
  - intros x y z. rewrite gauss_form by apply Gd. unfold amode, mode. rewrite E1. pose proof (Cmod_D_pos (kap_of t) (t_zf t) z) as P. pose proof (Nz_pos (kap_of t) (t_zf t) z) as PN. pose proof (Cmod_D (kap_of t) (t_zf t) z) as CD. pose proof (Dz_neq (kap_of t) (t_zf t) z) as ND.
    cbn [cpow Nat.add]. rewrite !Cmod_mult, !Cmod_1, Cmod_inv, Cmod_Cexp by exact ND.
    set (D := Dz _ _ z) in *. assert (RD : Re (/ D)%C = / Nz (kap_of t) (t_zf t) z) by (unfold D, Dz, Nz, Re; cbn; field; repeat split; nra).
    assert (R0 : Re (- RtoC ((x ^ 2 + y ^ 2) / t_w0 t ^ 2) * / D)%C <= 0).
    { replace (Re (- RtoC ((x ^ 2 + y ^ 2) / t_w0 t ^ 2) * / D)%C) with (- ((x ^ 2 + y ^ 2) / t_w0 t ^ 2 * Re (/ D)%C)) by (unfold Re, Cmult, Copp, RtoC; cbn [fst snd]; ring).
      rewrite RD. assert (0 <= (x ^ 2 + y ^ 2) / t_w0 t ^ 2 * / Nz (kap_of t) (t_zf t) z); [|lra]. apply Rmult_le_pos; [apply Rdiv_le_0_compat; [nra|apply pow_lt; apply Gd]|left; apply Rinv_0_lt_compat; exact PN]. }
    assert (E : exp (Re (- RtoC ((x ^ 2 + y ^ 2) / t_w0 t ^ 2) * / D)%C) <= 1) by (rewrite <- exp_0; destruct R0 as [R0|R0]; [left; apply exp_increasing; exact R0|rewrite R0; lra]).
    assert (D1 : 1 <= Cmod D) by (unfold Nz in CD; pose proof (pow2_ge_0 (Laser_Paraxial.tau (kap_of t) (t_zf t) z)); nra).
    assert (I1 : / Cmod D <= 1) by (rewrite <- Rinv_1; apply Rinv_le_contravar; lra). assert (0 < / Cmod D) by (apply Rinv_0_lt_compat; exact P).
    match goal with |- context [exp ?a] => pose proof (exp_pos a) end. nra.
  - injection H as <-. apply combine_pulse; [apply E0_unit|reflexivity|exact LF|reflexivity].
Qed.
Lemma laguerre_ok c m_e e p m a0 waist tau z0 zf theta lambda0 cep theta0 dir l :
  c <> 0 -> tau <> 0 -> 0 < waist -> 0 < lambda0 -> laguerre_gauss_laser c m_e e p m a0 waist tau z0 zf theta lambda0 cep theta0 dir = Ok l ->
  exists u, paraxial (2 * PI / lambda0) (IZR dir) u /\
    (forall r th, u (r * cos th) (r * sin th) (focus z0 zf) = RtoC (laguerre_shape p (Z.to_nat m) waist theta0 r th)) /\
    is_pulse c (IZR dir) z0 (a0 * E_unit c m_e e lambda0) theta (gaussian_waveform c tau (2 * PI / lambda0) cep) u l.
Proof.
  intros Hc Ht Hw Hl. unfold laguerre_gauss_laser. destruct (longitudinal_init c tau z0 lambda0 cep 0 dir) as [g|] eqn:G; [|discriminate]. cbn [bind].
  destruct (laguerre_init p m waist (zf_of z0 zf) lambda0 theta0 dir) as [lg|] eqn:T; [|discriminate]. cbn [bind]. intros H.
  unfold laguerre_init in T. destruct (transverse_init waist (zf_of z0 zf) lambda0 dir) as [t|] eqn:T0; [|discriminate]. cbn [bind] in T.
  destruct (m <? 0)%Z; [discriminate|]. set (n := Z.to_nat m) in *.
  set (amp := match n with O => match n with O => 1 | _ => sqrt (factR p / factR (n + p)) end | _ => (match n with O => 1 | _ => sqrt (factR p / factR (n + p)) end) * sqrt 2 end) in *.
  injection T as <-. destruct (transverse_good _ _ _ _ _ Hw Hl T0) as (Gd & K & Z & W).
  pose proof (fun z s => proj1 (longitudinal_form c tau z0 lambda0 cep 0 dir g z s Hc Ht G)) as LF.
  assert (Amp : amp = sqrt (factR p * (2 - if Nat.eqb n 0 then 1 else 0) / factR (n + p))).
  { unfold amp. destruct n as [|n']; cbn [Nat.eqb].
    - replace (factR p * (2 - 1) / factR (0 + p)) with 1; [symmetry; apply sqrt_1|]. cbn [Nat.add]. field. apply factR_neq.
    - pose proof (factR_pos p). pose proof (factR_pos (S n' + p)). rewrite <- sqrt_mult; [|apply Rdiv_le_0_compat; lra|lra]. f_equal. field. lra. }
  exists (laguerre_evaluate {| l_t := t; l_p := p; l_m := n; l_scaled_amplitude := amp; l_theta0 := theta0 |}). split; [|split].
  - rewrite <- K. eapply paraxial_ext; [intros; symmetry; apply laguerre_form; apply Gd|]. apply paraxial_plus; apply paraxial_scal; apply amode_paraxial; auto.
  - intros r th. rewrite laguerre_form, !harm_polar, polar_sq by (auto; apply Gd). rewrite <- zf_focus, <- Z, amode_focus by (destruct Gd; lra). rewrite W.
    unfold laguerre_shape, laguerre. fold n. rewrite <- Amp.
    assert (CC : (cis (- (INR n * theta0)) * cis (1 * (INR n * th)) + cis (INR n * theta0) * cis (-1 * (INR n * th)))%C = RtoC (2 * cos (INR n * (th - theta0)))).
    { rewrite <- !cis_add. replace (- (INR n * theta0) + 1 * (INR n * th))%R with (INR n * (th - theta0))%R by ring.
      replace (INR n * theta0 + -1 * (INR n * th))%R with (- (INR n * (th - theta0)))%R by ring. unfold cis. rewrite cos_neg, sin_neg. unfold Cplus, RtoC. cbn. f_equal; ring. }
    set (A := RtoC (amp * (sqrt 2 / waist) ^ n / 2)). set (L := RtoC (genlaguerre p n (2 * r ^ 2 / waist ^ 2) * exp (- (r ^ 2 / waist ^ 2)))).
    transitivity (A * RtoC (r ^ n) * L * (cis (- (INR n * theta0)) * cis (1 * (INR n * th)) + cis (INR n * theta0) * cis (-1 * (INR n * th))))%C; [ring|].
    rewrite CC. unfold A, L. rewrite <- !RtoC_mult. f_equal. replace (sqrt 2 * r / waist) with (sqrt 2 / waist * r) by (field; lra). rewrite Rpow_mult_distr. field.
  - injection H as <-. apply combine_pulse; [apply E0_unit|reflexivity| |reflexivity]. intros z s. rewrite LF. apply chirped_0.
Qed.
Lemma donut_ok c m_e e p m a0 waist tau z0 zf theta lambda0 cep dir l :
  c <> 0 -> tau <> 0 -> 0 < waist -> 0 < lambda0 -> donut_laser c m_e e p m a0 waist tau z0 zf theta lambda0 cep dir = Ok l ->
  exists u, paraxial (2 * PI / lambda0) (IZR dir) u /\
    (forall r th, u (r * cos th) (r * sin th) (focus z0 zf) = donut_shape p m waist r th) /\
    is_pulse c (IZR dir) z0 (a0 * E_unit c m_e e lambda0) theta (gaussian_waveform c tau (2 * PI / lambda0) cep) u l.
Proof.
  intros Hc Ht Hw Hl. unfold donut_laser. destruct (longitudinal_init c tau z0 lambda0 cep 0 dir) as [g|] eqn:G; [|discriminate]. cbn [bind].
  destruct (donut_init p m waist (zf_of z0 zf) lambda0 dir) as [lg|] eqn:T; [|discriminate]. cbn [bind]. intros H.
  unfold donut_init in T. destruct (transverse_init waist (zf_of z0 zf) lambda0 dir) as [t|] eqn:T0; [|discriminate]. cbn [bind] in T.
  set (n := Z.abs_nat m) in *. set (amp := sqrt (factR p / factR (n + p))) in *.
  injection T as <-. destruct (transverse_good _ _ _ _ _ Hw Hl T0) as (Gd & K & Z & W).
  pose proof (fun z s => proj1 (longitudinal_form c tau z0 lambda0 cep 0 dir g z s Hc Ht G)) as LF.
  exists (donut_evaluate {| d_t := t; d_p := p; d_m := m; d_scaled_amplitude := amp |}). split; [|split].
  - rewrite <- K. eapply paraxial_ext; [intros; symmetry; apply donut_form; apply Gd|]. apply paraxial_scal. apply amode_paraxial; [exact Gd|]. destruct (0 <=? m)%Z; auto.
  - intros r th. rewrite donut_form by apply Gd. fold n. set (s := (if (0 <=? m)%Z then -1 else 1)).
    assert (Hs : s = 1 \/ s = -1) by (unfold s; destruct (0 <=? m)%Z; auto).
    rewrite (harm_polar n s r th Hs), polar_sq. rewrite <- zf_focus, <- Z, amode_focus by (destruct Gd; lra). rewrite W.
    assert (Es : s * (INR n * th) = - (IZR m * th)).
    { unfold s, n. rewrite INR_IZR_INZ, Zabs2Nat.id_abs. destruct (Z.leb_spec 0 m); [rewrite Z.abs_eq by lia; ring|rewrite Z.abs_neq, opp_IZR by lia; ring]. }
    rewrite Es. unfold donut_shape, laguerre. fold n. fold amp.
    set (L := RtoC (genlaguerre p n (2 * r ^ 2 / waist ^ 2) * exp (- (r ^ 2 / waist ^ 2)))).
    transitivity (RtoC (amp * (sqrt 2 / waist) ^ n) * RtoC (r ^ n) * L * cis (- (IZR m * th)))%C; [ring|]. f_equal. unfold L. rewrite <- !RtoC_mult. f_equal.
    replace (sqrt 2 * r / waist) with (sqrt 2 / waist * r) by (field; lra). rewrite Rpow_mult_distr. ring.
  - injection H as <-. apply combine_pulse; [apply E0_unit|reflexivity| |reflexivity]. intros z s. rewrite LF. apply chirped_0.
Qed.
Lemma flattened_ok c m_e e a0 w0 tau z0 N zf theta lambda0 cep dir l :
  c <> 0 -> tau <> 0 -> 0 < w0 -> 0 < lambda0 -> flattened_laser c m_e e a0 w0 tau z0 N zf theta lambda0 cep dir = Ok l ->
  exists u, paraxial (2 * PI / lambda0) (IZR dir) u /\
    (forall r th, u (r * cos th) (r * sin th) (focus z0 zf) = RtoC (flattened_shape N w0 r)) /\ flattened_shape N w0 0 = 1 /\
    (forall s th b, b = p_infty \/ b = m_infty -> is_lim (fun z => Cmod (u (s * (z - focus z0 zf) * cos th) (s * (z - focus z0 zf) * sin th) z) / Cmod (u 0 0 z)) b
       (flattened_far_shape N ((INR N + 1) * s ^ 2 / (lambda0 / (PI * w0)) ^ 2))) /\
    is_pulse c (IZR dir) z0 (a0 * E_unit c m_e e lambda0) theta (gaussian_waveform c tau (2 * PI / lambda0) cep) u l.
Proof.
  intros Hc Ht Hw Hl. unfold flattened_laser. destruct (longitudinal_init c tau z0 lambda0 cep 0 dir) as [g|] eqn:G; [|discriminate]. cbn [bind].
  destruct (flattened_init w0 N (zf_of z0 zf) lambda0 dir) as [f|] eqn:T; [|discriminate]. cbn [bind]. intros H. rewrite zf_focus in T.
  pose proof (fun z s => proj1 (longitudinal_form c tau z0 lambda0 cep 0 dir g z s Hc Ht G)) as LF.
  exists (flattened_evaluate f). split; [|split; [|split; [|split]]].
  - exact (flat_paraxial w0 _ lambda0 N dir f Hw Hl T).
  - exact (flat_focus w0 _ lambda0 N dir f Hw Hl T).
  - exact (flat_centre w0 _ lambda0 N dir f Hw Hl T) || exact (flat_centre w0 N Hw) || apply flat_centre; assumption.
  - intros s th b Hb. rewrite <- (far_X_doc w0 _ lambda0 N dir f Hw Hl T). exact (flat_far_lim w0 _ lambda0 N dir f Hw Hl T s th b Hb).
  - injection H as <-. apply combine_pulse; [apply E0_unit|reflexivity| |reflexivity]. intros z s. rewrite LF. apply chirped_0.
Qed.

(** ** Few-cycle pulse *)
Lemma Ok_eq {A} (a b : A) : Ok a = Ok b -> a = b.
Proof. intros H. injection H. auto. Qed.
Lemma half_width s a : 0 < s -> a = exp (/ (s + 1) * ln 2) -> forall v, 0 <= v -> (1 / 2 <= exp (- (s + 1) * ln (1 + v)) <-> v <= a - 1).
Proof.
  intros Hs -> v Hv. replace (1 / 2) with (exp (- ln 2)) by (rewrite exp_Ropp, exp_ln by lra; field).
  assert (L : forall x y, exp x <= exp y <-> x <= y) by (intros x y; split; intros [H|H]; [left; apply exp_lt_inv; exact H|right; apply exp_inv; exact H|left; apply exp_increasing; exact H|right; rewrite H; reflexivity]).
  rewrite L. split; intros H.
  - assert (Q : ln (1 + v) <= / (s + 1) * ln 2). { apply (Rmult_le_reg_l (s + 1)); [lra|]. rewrite <- Rmult_assoc, Rinv_r by lra. lra. }
    apply L in Q. rewrite exp_ln in Q by lra. lra.
  - assert (Q : ln (1 + v) <= / (s + 1) * ln 2). { apply L. rewrite exp_ln by lra. lra. }
    apply (Rmult_le_compat_l (s + 1)) in Q; [|lra]. rewrite <- Rmult_assoc, Rinv_r in Q by lra. lra.
Qed.
Lemma exp_4 s : exp (1 / (s + 1) * ln 4) = exp (/ (s + 1) * ln 2) ^ 2.
Proof. replace 4 with (2 * 2) by ring. rewrite ln_mult by lra. cbn [pow]. rewrite Rmult_1_r, <- exp_plus. f_equal. unfold Rdiv. ring. Qed.
Lemma a_bounds s : 0 < s -> 1 < exp (/ (s + 1) * ln 2) < 2.
Proof.
  intros Hs. assert (0 < ln 2) by (rewrite <- ln_1; apply ln_increasing; lra). assert (I : 0 < / (s + 1) < 1).
  { split; [apply Rinv_0_lt_compat; lra|]. rewrite <- Rinv_1. apply Rinv_lt_contravar; lra. }
  assert (X : 0 < / (s + 1) * ln 2) by nra. assert (Y : / (s + 1) * ln 2 < ln 2) by nra. apply exp_increasing in X. apply exp_increasing in Y.
  rewrite exp_0 in X. rewrite (exp_ln 2) in Y by lra. split; assumption.
Qed.
Lemma few_cycle_ok c m_e e fsolve a0 waist tau z0 zf theta lambda0 cep dir l s :
  0 < c -> 0 < waist -> 0 < lambda0 -> few_cycle_laser c m_e e fsolve a0 waist tau z0 zf theta lambda0 cep dir = Ok l ->
  s = fsolve (fun s => s * sqrt (2 * (exp (1 / (s + 1) * ln 4) - 1)) - c * (2 * PI / lambda0) * tau) 1 -> 0 < s ->
  exists u, paraxial_pulse (IZR dir) u /\ (forall x y z zeta, Cmod (u x y z zeta) <= 1) /\ u 0 0 (focus z0 zf) (IZR dir * z0) = cis cep /\
    (s * sqrt (2 * (exp (1 / (s + 1) * ln 4) - 1)) = c * (2 * PI / lambda0) * tau ->
     has_fwhm (fun t => Cmod (u 0 0 (focus z0 zf) (IZR dir * focus z0 zf - c * t)) ^ 2) (tau * sqrt (2 / (1 + exp (/ (s + 1) * ln 2))))) /\
    propag_direction l = IZR dir /\ (dir = 1 \/ dir = -1)%Z /\
    forall x y z t, E_field l x y z t = (cos theta * (a0 * E_unit c m_e e lambda0 * Re (u x y z (IZR dir * z - c * t))), sin theta * (a0 * E_unit c m_e e lambda0 * Re (u x y z (IZR dir * z - c * t)))).
Proof.
  intros Hc Hw Hl H Es Hs. unfold few_cycle_laser in H. destruct ((dir =? -1) || (dir =? 1))%Z eqn:D; [|discriminate]. cbv zeta in H. rewrite <- Es in H. rewrite zf_focus in H.
  pose proof PI_RGT_0 as PP. set (k0 := 2 * PI / lambda0) in *. assert (Pk : 0 < k0) by (unfold k0; apply Rdiv_lt_0_compat; lra).
  set (zr := 0.5 * k0 * waist ^ 2) in *. assert (Pz : 0 < zr) by (unfold zr; apply Rmult_lt_0_compat; [lra|apply pow_lt; exact Hw]).
  assert (Pks : 0 < k0 / s) by (apply Rdiv_lt_0_compat; assumption).
  exists (fu k0 zr (focus z0 zf) z0 s (IZR dir) cep). split; [|split; [|split; [|split; [|split; [|split]]]]].
  - apply few_cycle_paraxial; assumption.
  - intros. apply few_cycle_bound; lra.
  - apply few_cycle_centre; assumption.
  - intros Root. set (a := exp (/ (s + 1) * ln 2)) in *. destruct (a_bounds s Hs) as [A1 A2]. fold a in A1, A2. rewrite exp_4 in Root. fold a in Root.
    assert (D2 : IZR dir * IZR dir = 1) by (apply Bool.orb_true_iff in D; destruct D as [D|D]; apply Z.eqb_eq in D; rewrite D; lra).
    set (t0 := (IZR dir * focus z0 zf - IZR dir * z0) / c).
    assert (Int : forall t, Cmod (fu k0 zr (focus z0 zf) z0 s (IZR dir) cep 0 0 (focus z0 zf) (IZR dir * focus z0 zf - c * t)) ^ 2 = exp (- (s + 1) * ln (1 + (k0 / s * c * (t - t0)) ^ 2))).
    { intros t. rewrite few_cycle_intensity by assumption. f_equal. f_equal. f_equal. f_equal. unfold t0. transitivity ((- (k0 / s * c * (t - (IZR dir * focus z0 zf - IZR dir * z0) / c))) ^ 2); [f_equal; field; lra|ring]. }
    (* the half width *)
    set (h := s * sqrt (a - 1) / (k0 * c)).
    assert (Hh : tau * sqrt (2 / (1 + a)) / 2 = h).
    { assert (T : tau = s * sqrt (2 * (a ^ 2 - 1)) / (c * k0)) by (rewrite Root; field; lra). rewrite T. unfold h.
      assert (SQ : sqrt (2 * (a ^ 2 - 1)) * sqrt (2 / (1 + a)) = 2 * sqrt (a - 1)).
      { rewrite <- sqrt_mult; [|nra|left; apply Rdiv_lt_0_compat; lra]. replace (2 * (a ^ 2 - 1) * (2 / (1 + a))) with (2 ^ 2 * (a - 1)) by (field; lra). rewrite sqrt_mult, sqrt_pow2 by lra. reflexivity. }
      transitivity (s * (sqrt (2 * (a ^ 2 - 1)) * sqrt (2 / (1 + a))) / (c * k0) / 2); [field; lra|]. rewrite SQ. field. lra. }
    assert (h0 : 0 <= h) by (unfold h; apply Rdiv_le_0_compat; [apply Rmult_le_pos; [lra|apply sqrt_pos]|apply Rmult_lt_0_compat; lra]).
    assert (hk : (k0 / s * c * h) ^ 2 = a - 1).
    { replace (k0 / s * c * h) with (sqrt (a - 1)) by (unfold h; field; lra). apply pow2_sqrt. lra. }
    split; [|exists t0; split].
    + intros t. pose proof (few_cycle_bound k0 zr (focus z0 zf) z0 s (IZR dir) cep Pz Pks 0 0 (focus z0 zf) (IZR dir * focus z0 zf - c * t) ltac:(lra)) as B.
      pose proof (Cmod_ge_0 (fu k0 zr (focus z0 zf) z0 s (IZR dir) cep 0 0 (focus z0 zf) (IZR dir * focus z0 zf - c * t))). nra.
    + rewrite Int. replace (k0 / s * c * (t0 - t0)) with 0 by ring. replace (1 + 0 ^ 2) with 1 by ring. rewrite ln_1, Rmult_0_r. apply exp_0.
    + intros t. rewrite Int, (half_width s a Hs eq_refl) by apply pow2_ge_0. rewrite Hh. rewrite <- hk.
      assert (P : 0 < k0 / s * c) by (apply Rmult_lt_0_compat; assumption).
      replace ((k0 / s * c * (t - t0)) ^ 2) with ((k0 / s * c) ^ 2 * (Rabs (t - t0)) ^ 2) by (rewrite pow2_abs; ring).
      replace ((k0 / s * c * h) ^ 2) with ((k0 / s * c) ^ 2 * h ^ 2) by ring. pose proof (Rabs_pos (t - t0)). split; intros Q.
      * apply Rmult_le_reg_l in Q; [|apply pow_lt; exact P]. apply Rsqr_incr_0_var; [|exact h0]. unfold Rsqr. nra.
      * apply Rmult_le_compat_l; [apply pow_le; lra|]. apply pow_incr. split; assumption.
  - injection H as <-. reflexivity.
  - apply Bool.orb_true_iff in D. destruct D as [D|D]; apply Z.eqb_eq in D; auto.
  - apply Ok_eq in H. subst l. intros x y z t. cbn [E_field].
    assert (Q : forall b p, Re (RtoC b * p)%C = b * Re p) by (intros; unfold Re, Cmult, RtoC; cbn; ring).
    rewrite !Q, E0_unit. fold zr. rewrite !few_cycle_fu. f_equal; ring.
Qed.
