(** C88: laser pulse with a spectrum read from a file (CustomSpectrumLongitudinalProfile). *)
From Coq Require Import ZArith List Reals Lia Lra.
From Coquelicot Require Import Complex.
From Verif Require Import Base Fourier_Lib Deposit_Spec Deposit_Proofs Spectrum_Model Spectrum_Spec Spectrum_Proofs.
Import ListNotations.
Open Scope R_scope.

(** The mean wavelength is one of those the file covers, and does not depend on the direction in which the file is
    written, nor on its phases. *)
Theorem C88_mean_wavelength c polyfit a lo hi : file_ok (a_rows a) ->
  (forall r, In r (a_rows a) -> lo <= r_lam r <= hi) ->
  lo <= lam0 c polyfit a <= hi /\
  lam0 c polyfit a
  = lam0 c polyfit (mk_args (a_z0 a) (a_phi2 a) (a_phi3 a) (a_phi4 a) (a_sub a) (a_prop a) (a_three a) (rev (a_rows a))).
Proof.
  intros H B. rewrite !lam0_rows. simpl. split; [apply lambda0_bounds; auto|symmetry; apply lambda0_rev].
Qed.
Print Assumptions C88_mean_wavelength.

(** Energy per unit of wavelength: the modulus squared of the spectral amplitude, times |d omega / d lambda|, is the
    intensity of the file (up to one constant for the whole file); its phase is the phase of the file (0 if there is
    none) plus the Taylor terms of the dispersion about the mean frequency. In between two lines, intensity per unit of
    frequency and phase are linear in the frequency; outside of the file there is nothing. *)
Theorem C88_spectrum c polyfit a : 0 < c -> file_ok (a_rows a) -> a_sub a = false ->
  let w0 := 2 * PI * c / lambda0 (a_rows a) in
  let om r := 2 * PI * c / r_lam r in
  let ph r := (if a_three a then r_ph r else 0) + a_phi2 a / 2 * (om r - w0) ^ 2 + a_phi3 a / 6 * (om r - w0) ^ 3
              + a_phi4 a / 24 * (om r - w0) ^ 4 in
  (forall r, In r (a_rows a) ->
     Cmod (spectral_field c polyfit a (om r)) ^ 2 * (2 * PI * c / r_lam r ^ 2) = 2 * PI * c * r_int r /\
     spectral_field c polyfit a (om r) = Cmult (RtoC (Cmod (spectral_field c polyfit a (om r)))) (cis (ph r))) /\
  (forall r s w, neighbours (a_rows a) r s -> om s <= w <= om r ->
     let u := (w - om s) / (om r - om s) in
     spectral_field c polyfit a w
     = Cmult (RtoC (sqrt ((1 - u) * (r_lam s ^ 2 * r_int s) + u * (r_lam r ^ 2 * r_int r)))) (cis ((1 - u) * ph s + u * ph r))) /\
  (forall w, (forall r, In r (a_rows a) -> w < om r) \/ (forall r, In r (a_rows a) -> om r < w) ->
     spectral_field c polyfit a w = RtoC 0).
Proof.
  intros Hc H S w0 om ph.
  assert (DD : data c polyfit a = load (a_three a) (a_rows a)) by (unfold data, unslope; rewrite S; reflexivity).
  assert (D := data_ok c polyfit a H).
  assert (PC : 0 < 2 * PI * c) by (assert (PI > 0) by apply PI_RGT_0; apply Rmult_lt_0_compat; lra).
  set (g := fun r => if a_three a then r else mk_row (r_lam r) (r_int r) 0).
  assert (G : forall r, In r (a_rows a) -> In (g r) (data c polyfit a)).
  { intros r Hr. rewrite DD. unfold load, g. destruct (a_three a); [auto|]. apply in_map_iff. exists r; auto. }
  assert (Gl : forall r, r_lam (g r) = r_lam r) by (intros r; unfold g; destruct (a_three a); reflexivity).
  assert (Gi : forall r, r_int (g r) = r_int r) by (intros r; unfold g; destruct (a_three a); reflexivity).
  assert (L := lambda0_pos _ H).
  assert (Gp : forall r, chirp c (a_phi2 a) (a_phi3 a) (a_phi4 a) (k0 (a_rows a)) (g r) = ph r).
  { intros r. unfold chirp, ph, k0, omega_axis. rewrite Gl. fold (om r). replace (2 * PI / lambda0 (a_rows a) * c) with w0 by (unfold w0; field; lra).
    replace (r_ph (g r)) with (if a_three a then r_ph r else 0) by (unfold g; destruct (a_three a); reflexivity). field. }
  assert (Go : forall r, omega_axis c (g r) = om r) by (intros r; unfold omega_axis; rewrite Gl; reflexivity).
  assert (P := proj1 (proj2 (proj2 H))). split; [|split].
  - intros r Hr. destruct (P r Hr) as [Pl Pi].
    assert (F := field_at c Hc polyfit a (g r) H (G r Hr)). rewrite Go, Gl, Gi, Gp in F.
    assert (M : Cmod (spectral_field c polyfit a (om r)) = r_lam r * sqrt (r_int r)).
    { rewrite F, Cmod_mult, Cmod_R, Cmod_cis, Rmult_1_r. apply Rabs_pos_eq. apply Rmult_le_pos; [lra|apply sqrt_pos]. }
    split; [|rewrite M; exact F]. rewrite M. rewrite Rpow_mult_distr, pow2_sqrt by auto. field. lra.
  - intros r s w Hn W u.
    assert (N' : neighbours (data c polyfit a) (g r) (g s)).
    { destruct Hn as (N1 & N2 & N3 & N4). split; [auto|]. split; [auto|]. rewrite !Gl. split; [auto|]. intros q Hq.
      destruct (same_in _ _ (same_sym _ _ (same_data c polyfit a)) q Hq) as [q' [Hq' [E _]]]. rewrite <- E. auto. }
    assert (O : om s < om r).
    { destruct Hn as (N1 & N2 & N3 & N4). apply (omega_anti c Hc r s (proj1 (P r N1)) N3). }
    unfold spectral_field, inten_fn, phase_fn. assert (W' : omega_axis c (g s) <= w <= omega_axis c (g r)) by (rewrite !Go; exact W).
    rewrite (pts_between c Hc (data c polyfit a) (fun r => r_int r * r_lam r ^ 2) (g r) (g s) w D N' W').
    rewrite (pts_between c Hc (data c polyfit a) (chirp c (a_phi2 a) (a_phi3 a) (a_phi4 a) (k0 (data c polyfit a))) (g r) (g s) w D N' W').
    rewrite !Gl, !Gi, !Go.
    assert (KK : k0 (data c polyfit a) = k0 (a_rows a)) by (unfold k0; rewrite (same_lambda0 _ _ (same_data c polyfit a)); reflexivity).
    rewrite KK, !Gp. f_equal; f_equal; [f_equal|]; unfold u; field; lra.
  - intros w W. apply field_out; auto.
Qed.
Print Assumptions C88_spectrum.

(** The documentation of the class writes the amplitude k*sqrt(I): this is not what the code does (it is sqrt(I)/k, which
    is what conserves the energy). *)
Theorem C88_documented_weight_refuted c : 0 < c -> exists a, file_ok (a_rows a) /\ forall polyfit,
  ~ exists A, forall r, In r (a_rows a) -> Cmod (spectral_field c polyfit a (2 * PI * c / r_lam r)) = A * (2 * PI / r_lam r) * sqrt (r_int r).
Proof.
  intros Hc. set (rows := [mk_row 1 1 0; mk_row 2 1 0]). set (a := mk_args 0 0 0 0 false 1 true rows).
  assert (K : file_ok (a_rows a)).
  { simpl. split; [simpl; lia|]. split; [left; simpl; lra|]. split; [|exists (mk_row 1 1 0); simpl; split; [tauto|lra]].
    intros r [<-|[<-|[]]]; simpl; lra. }
  exists a. split; [exact K|]. intros polyfit [A HA].
  assert (P0 : PI > 0) by apply PI_RGT_0.
  destruct (C88_spectrum c polyfit a Hc K eq_refl) as [SP _].
  assert (H1 := HA (mk_row 1 1 0) ltac:(simpl; tauto)). assert (H2 := HA (mk_row 2 1 0) ltac:(simpl; tauto)).
  destruct (SP (mk_row 1 1 0) ltac:(simpl; tauto)) as [E1 _]. destruct (SP (mk_row 2 1 0) ltac:(simpl; tauto)) as [E2 _].
  cbn [r_lam r_int] in *. rewrite sqrt_1 in *. rewrite H1 in E1. rewrite H2 in E2.
  assert (PC : 0 < 2 * PI * c) by (apply Rmult_lt_0_compat; lra).
  assert (F1 : (A * (2 * PI / 1) * 1) ^ 2 = 1).
  { apply Rmult_eq_reg_r with (2 * PI * c); [|lra]. transitivity (2 * PI * c * 1); [|ring]. rewrite <- E1. field. }
  assert (F2 : (A * (2 * PI / 2) * 1) ^ 2 = 4).
  { apply Rmult_eq_reg_r with (2 * PI * c / 4); [|lra]. replace (4 * (2 * PI * c / 4)) with (2 * PI * c * 1) by field. rewrite <- E2. field. }
  replace (2 * PI / 1) with (2 * (2 * PI / 2)) in F1 by field. nra.
Qed.
Print Assumptions C88_documented_weight_refuted.

(** The pulse: the superposition of the waves of the spectrum, that travels along the given direction at the speed of
    light and passes at z0 at time 0, divided by its largest value on the grid of times of step lambda0/1000/c; in between
    two of these times it is interpolated; it is cut 500 mean wavelengths before and after. Its modulus is never above 1
    and reaches 1 at any time. *)
Theorem C88_pulse c polyfit a : 0 < c -> file_ok (a_rows a) -> init a = Ok a ->
  0 < inten_fn c polyfit a (2 * PI * c / lambda0 (a_rows a)) ->
  let lam := lambda0 (a_rows a) in
  let wave := waves c lam (spectral_field c polyfit a) in
  exists M, 0 < M /\
  (forall z t j s, (0 <= j < 999999)%Z -> 0 <= s <= 1 ->
     c * t - IZR (a_prop a) * (z - a_z0 a) = (IZR j + s - 500000) * (lam / 1000) ->
     Cmult (RtoC M) (evaluate c polyfit a z t)
     = Cplus (Cmult (RtoC (1 - s)) (wave ((IZR j - 500000) * (lam / 1000) / c)))
             (Cmult (RtoC s) (wave ((IZR j + 1 - 500000) * (lam / 1000) / c)))) /\
  (forall z t, c * t - IZR (a_prop a) * (z - a_z0 a) < - 500 * lam \/ 500 * lam <= c * t - IZR (a_prop a) * (z - a_z0 a) ->
     evaluate c polyfit a z t = RtoC 0) /\
  (forall z t, Cmod (evaluate c polyfit a z t) <= 1) /\
  (forall t, exists z, Cmod (evaluate c polyfit a z t) = 1).
Proof.
  intros Hc H I N lam wave. assert (MM := raw_nonzero c Hc polyfit a H N). exists (max_abs 1000000 (raw_field c polyfit a)).
  assert (L := lambda0_pos _ H).
  split; [exact MM|]. split; [|split; [|split]].
  - intros z t j s Hj Hs E. rewrite (evaluate_between c Hc polyfit a z t j s H Hj Hs E).
    unfold temporal_field. rewrite (Nt_val c Hc polyfit a H). rewrite !(raw_val c Hc polyfit a _ H).
    assert (T : forall i, time_arr c polyfit a i = (IZR i - 500000) * (lam / 1000) / c).
    { intros i. unfold lam. rewrite <- (time_val c Hc polyfit a i H). field. lra. }
    rewrite !T, plus_IZR. fold lam. fold wave. field. intro Q. apply RtoC_inj in Q. lra.
  - intros z t O. apply evaluate_out; auto.
  - intros z t. apply evaluate_le; auto.
  - intros t. apply evaluate_one; auto. unfold init in I.
    destruct (Z.eqb_spec (a_prop a) 1); [left; auto|]. destruct (Z.eqb_spec (a_prop a) (-1)); [right; auto|discriminate].
Qed.
Print Assumptions C88_pulse.

(** ... and for a file whose intensities are all positive, the hypothesis on the mean frequency holds. *)
Theorem C88_positive c polyfit a : 0 < c -> file_ok (a_rows a) -> (forall r, In r (a_rows a) -> 0 < r_int r) ->
  0 < inten_fn c polyfit a (2 * PI * c / lambda0 (a_rows a)).
Proof. intros. apply inten_pos; auto. Qed.
Print Assumptions C88_positive.

(** Not any file gives a pulse: two lines narrower than a thousandth of the mean wavelength can fall between the
    frequencies of the calculation; then the largest value is 0, by which everything is divided (NaN). *)
Theorem C88_two_lines_refuted c L : 0 < c -> 0 < L -> exists rows, file_ok rows /\
  (forall r, In r rows -> 9999 / 10000 * L <= r_lam r <= 10011 / 10000 * L) /\
  forall polyfit a, a_rows a = rows -> max_abs (Nt c polyfit a) (raw_field c polyfit a) = 0.
Proof.
  intros Hc HL. exists (two_lines L). split; [apply two_lines_ok; auto|]. split.
  - intros r Hr. simpl in Hr. destruct Hr as [<-|[<-|[<-|[<-|[<-|[<-|[]]]]]]]; simpl; lra.
  - intros polyfit a E. unfold max_abs. induction (range (Nt c polyfit a)) as [|j l IH]; [reflexivity|].
    simpl. rewrite IH, (two_lines_dark c polyfit L a Hc HL E). rewrite Cmod_0. apply Rmax_left. lra.
Qed.
Print Assumptions C88_two_lines_refuted.

(** The integral of the squared modulus along the direction of propagation is the trapezoidal sum of the pulse as it
    passes at z0. *)
Theorem C88_integral c polyfit a : 0 < c -> file_ok (a_rows a) ->
  let d := lambda0 (a_rows a) / 1000 in
  let y j := Cmod (evaluate c polyfit a (a_z0 a) ((IZR j - 500000) * d / c)) ^ 2 in
  squared_profile_integral c polyfit a = d * (rsum y (range 1000000) - (y 0%Z + y 999999%Z) / 2).
Proof.
  intros Hc H d y. assert (L := lambda0_pos _ H).
  assert (E : forall j, (0 <= j < 1000000)%Z -> evaluate c polyfit a (a_z0 a) ((IZR j - 500000) * d / c) = temporal_field c polyfit a j).
  { intros j Hj. destruct (Z.eq_dec j 999999) as [->|N].
    - rewrite (evaluate_between c Hc polyfit a _ _ 999998 1 H); [|lia|lra|fold d; field; lra].
      change (999998 + 1)%Z with 999999%Z. replace (1 - 1) with 0 by ring. ring.
    - rewrite (evaluate_between c Hc polyfit a _ _ j 0 H); [|lia|lra|fold d; field; lra].
      replace (1 - 0) with 1 by ring. ring. }
  assert (RE : forall l (f g : Z -> R), (forall j, In j l -> f j = g j) -> rsum f l = rsum g l).
  { induction l as [|b l IH]; intros f g Hf; [reflexivity|]. simpl. rewrite (Hf b (or_introl eq_refl)). f_equal. apply IH. intros; apply Hf; right; auto. }
  assert (RS : rsum y (range 1000000) = rsum (fun j => Cmod (temporal_field c polyfit a j) ^ 2) (range 1000000)).
  { apply RE. intros j Hj. apply in_range in Hj. unfold y. rewrite E by exact Hj. reflexivity. }
  rewrite (integral_val c Hc polyfit a H). fold d. rewrite RS. unfold y. rewrite (E 0%Z) by lia. rewrite (E 999999%Z) by lia.
  generalize (rsum (fun j => Cmod (temporal_field c polyfit a j) ^ 2) (range 1000000)). reflexivity.
Qed.
Print Assumptions C88_integral.

(** subtract_linear_phase, for a file whose phase is a polynomial of degree 4 at most: the slope of this polynomial at
    the frequency 0 is subtracted. For an affine phase, this is the slope: a constant phase is left. *)
Theorem C88_linear_phase c polyfit a p : 0 < c -> file_ok (a_rows a) -> (5 <= length (a_rows a))%nat ->
  a_three a = true -> a_sub a = true -> fits polyfit (map (fun r => (2 * PI * c / r_lam r, r_ph r)) (a_rows a)) ->
  (forall r, In r (a_rows a) -> r_ph r = poly p (2 * PI * c / r_lam r)) ->
  (forall r, In r (data c polyfit a) ->
     r_ph r = poly p (2 * PI * c / r_lam r) - poly' p 0 * (2 * PI * c / r_lam r)) /\
  (forall s q, p = (0, 0, 0, s, q) -> forall r, In r (data c polyfit a) -> r_ph r = q).
Proof.
  intros Hc H Len T S F E.
  assert (A : forall r, In r (data c polyfit a) -> r_ph r = poly p (2 * PI * c / r_lam r) - poly' p 0 * (2 * PI * c / r_lam r)).
  { intros r Hr. apply (unslope_exact c Hc polyfit a p r); auto. }
  split; [exact A|]. intros s q Ep r Hr. rewrite (A r Hr). rewrite Ep. unfold poly, poly'. ring.
Qed.
Print Assumptions C88_linear_phase.

(** "A linear slope in the spectral phase [...] will be subtracted from it. A non-zero linear slope leads to [the] pulse
    being shifted in time": but for a file with a pure chirp about its mean frequency, whose phase has no slope there (a
    pulse centred at z0), the subtraction creates the slope phi2*w0, i.e. delays the pulse by phi2*w0. *)
Theorem C88_linear_phase_refuted c polyfit rows phi2 z0 : 0 < c -> 0 < phi2 ->
  file_ok rows -> (5 <= length rows)%nat ->
  let w0 := 2 * PI * c / lambda0 rows in
  (forall r, In r rows -> r_ph r = phi2 / 2 * (2 * PI * c / r_lam r - w0) ^ 2) ->
  fits polyfit (map (fun r => (2 * PI * c / r_lam r, r_ph r)) rows) ->
  let a := mk_args z0 0 0 0 true 1 true rows in
  0 < phi2 * w0 /\ lambda0 (data c polyfit a) = lambda0 rows /\
  exists q, forall r, In r (data c polyfit a) ->
    let w := 2 * PI * c / r_lam r in r_ph r = q + phi2 * w0 * (w - w0) + phi2 / 2 * (w - w0) ^ 2.
Proof.
  intros Hc P2 H Len w0 E F a. assert (L := lambda0_pos _ H). assert (P0 : PI > 0) by apply PI_RGT_0.
  assert (W : 0 < w0) by (unfold w0; apply Rmult_lt_0_compat; [apply Rmult_lt_0_compat; lra|apply Rinv_0_lt_compat; auto]).
  split; [apply Rmult_lt_0_compat; auto|]. split; [apply (lam0_rows c polyfit a)|].
  exists (phi2 * w0 ^ 2). intros r Hr w.
  set (p := (0, 0, phi2 / 2, - phi2 * w0, phi2 / 2 * w0 ^ 2)).
  assert (E' : forall s, In s rows -> r_ph s = poly p (2 * PI * c / r_lam s)).
  { intros s Hs. rewrite (E s Hs). unfold poly, p. generalize (2 * PI * c / r_lam s) w0. intros; field. }
  destruct (C88_linear_phase c polyfit a p Hc H Len eq_refl eq_refl F E') as [A _].
  rewrite (A r Hr). fold w. unfold poly, poly', p. generalize w w0. intros; field.
Qed.
Print Assumptions C88_linear_phase_refuted.

(** Any other direction than 1 and -1 is refused. *)
Theorem C88_direction a : init a = if Z.eq_dec (Z.abs (a_prop a)) 1 then Ok a else Err AssertionError.
Proof.
  unfold init. destruct (Z.eqb_spec (a_prop a) 1), (Z.eqb_spec (a_prop a) (-1)), (Z.eq_dec (Z.abs (a_prop a)) 1); simpl; try reflexivity; lia.
Qed.
Print Assumptions C88_direction.

(** A file of five lines meets the hypotheses, with a chirp about its mean frequency. *)
Definition five (f : R -> R) : list row := map (fun l => mk_row l 1 (f l)) [1; 2; 3; 4; 5].
Lemma five_ok f : file_ok (five f).
Proof.
  split; [simpl; lia|]. split; [left; simpl; repeat split; lra|]. split.
  - intros r Hr. simpl in Hr. destruct Hr as [<-|[<-|[<-|[<-|[<-|[]]]]]]; simpl; lra.
  - exists (mk_row 1 1 (f 1)). simpl. split; [tauto|lra].
Qed.
Example C88_met : 
  let c := 1 in
  let rows := five (fun l => 2 / 2 * (2 * PI * c / l - 2 * PI * c / 3) ^ 2) in
  let a := mk_args 0 0 0 0 true 1 true rows in
  file_ok rows /\ lambda0 rows = 3 /\ init a = Ok a /\ (5 <= length rows)%nat /\
  (exists polyfit, fits polyfit (map (fun r => (2 * PI * c / r_lam r, r_ph r)) rows)) /\
  (forall r, In r rows -> 0 < r_int r) /\ (exists r s, neighbours rows r s).
Proof.
  intros c rows a. split; [apply five_ok|]. split; [unfold rows, five, lambda0; simpl; lra|]. split; [reflexivity|].
  split; [simpl; lia|]. split; [|split].
  - exists (fun _ => (0, 0, 2 / 2, - 2 * (2 * PI * c / 3), 2 / 2 * (2 * PI * c / 3) ^ 2)). intros p.
    rewrite misfit_exact; [apply misfit_nonneg|]. intros q Hq. apply in_map_iff in Hq. destruct Hq as [r [<- Hr]].
    unfold rows, five in Hr. apply in_map_iff in Hr. destruct Hr as [l [<- _]]. cbn [fst snd r_lam r_ph]. unfold poly. generalize (2 * PI * c / l) (2 * PI * c / 3). intros; field.
  - intros r Hr. unfold rows, five in Hr. apply in_map_iff in Hr. destruct Hr as [l [<- _]]. simpl. lra.
  - exists (mk_row 1 1 (2 / 2 * (2 * PI * c / 1 - 2 * PI * c / 3) ^ 2)), (mk_row 2 1 (2 / 2 * (2 * PI * c / 2 - 2 * PI * c / 3) ^ 2)).
    split; [left; reflexivity|]. split; [right; left; reflexivity|]. split; [simpl; lra|].
    intros q Hq. simpl in Hq. destruct Hq as [<-|[<-|[<-|[<-|[<-|[]]]]]]; simpl; lra.
Qed.
