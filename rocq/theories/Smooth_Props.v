(** C39: the binomial smoother. *)
From Verif Require Import Base Fourier_Lib Deposit_Spec Hankel_Model Hankel_Spec Smooth_Model Smooth_Spec Smooth_Proofs Smooth_Passes.
From Coq Require Import Reals Lra Lia.
From Coquelicot Require Import Complex.
Open Scope Z_scope.

(** Every number of passes and compensator setting, given as one value or as a dictionary, on any grid:
    the factor of every mode is in [0, 1], and it is 1 for a wave number 0. *)
Theorem C39_factors : forall n_passes compensator s kz kr dz dr,
  binomial_smoother n_passes compensator = Ok s ->
  match n_passes with One n => 0 <= n | Dict z r => 0 <= z /\ 0 <= r | Other => False end ->
  let (fz, fr) := get_filter_array s kz kr dz dr in
  (forall i, 0 <= fz i <= 1)%R /\ (forall i, 0 <= fr i <= 1)%R /\
  (forall i, kz i = 0%R -> fz i = 1%R) /\ (forall i, kr i = 0%R -> fr i = 1%R).
Proof.
  intros n c s kz kr dz dr E P.
  assert (0 <= n_passes_z s /\ 0 <= n_passes_r s) as [Pz Pr].
  { destruct n as [n|n n'|], c as [c|c c'|]; try discriminate; cbn in E; injection E as <-; cbn; lia. }
  cbn. repeat split; try (apply factor_bound; assumption); intros i Ek; rewrite Ek; apply factor_0; assumption.
Qed.
Print Assumptions C39_factors.

(** What the smoother does: nz passes of the binomial stencil along z, then the compensation; the radial
    mode of wave number kr is reduced by what nr passes do to a wave of phase kr dr per cell. The entries
    of a dictionary are the ones of z and r. *)
Theorem C39_passes : forall n_passes compensator s (nz nr : nat) bz br jn zeros rmax inv pinv Nz Nr m dz dr G iz ir,
  n_passes = One (Z.of_nat nz) /\ nr = nz \/ n_passes = Dict (Z.of_nat nz) (Z.of_nat nr) ->
  compensator = One bz /\ br = bz \/ compensator = Dict bz br ->
  binomial_smoother n_passes compensator = Ok s -> 0 < Nz -> (0 < dz)%R -> 0 <= iz < Nz ->
  let tr := make_transformer jn zeros rmax inv pinv Nz Nr m in
  spect2interp_scal tr (filter_spect s zeros rmax Nz Nr m dz dr G) iz ir =
  smooth_z Nz nz bz (fun i => spect2interp_scal tr (fun i j => Cmult (RtoC (transfer nr br (kr_of zeros rmax m j * dr))) (G i j)) i ir) iz.
Proof.
  intros n c s nz nr bz br jn zeros rmax inv pinv Nz Nr m dz dr G iz ir Hn Hc E HN Hd Hi.
  assert (s = {| n_passes_z := Z.of_nat nz; n_passes_r := Z.of_nat nr; comp_z := bz; comp_r := br |}) as ->
    by (destruct Hn as [[-> ->]| ->], Hc as [[-> ->]| ->]; cbn in E; injection E as <-; reflexivity).
  apply smoothed_field; assumption.
Qed.
Print Assumptions C39_passes.

(** The arguments that are rejected. *)
Theorem C39_arguments : forall n_passes compensator,
  (exists s, binomial_smoother n_passes compensator = Ok s) <-> n_passes <> Other /\ compensator <> Other.
Proof. intros [n|z r|] [c|cz cr|]; cbn; split; intros H; try (destruct H as [s Hs]; discriminate); try (destruct H; congruence); try (split; discriminate); eexists; reflexivity. Qed.
Print Assumptions C39_arguments.

(** No mode of a field is amplified, on the grids that the code uses. *)
Theorem C39_no_amplification : forall s zeros rmax Nz Nr m dz dr G iz ir,
  0 <= n_passes_z s -> 0 <= n_passes_r s ->
  (Cmod (filter_spect s zeros rmax Nz Nr m dz dr G iz ir) <= Cmod (G iz ir))%R.
Proof.
  intros. unfold filter_spect, filter_scalar, get_filter_array. cbn [fst snd]. rewrite Cmod_mult, Cmod_R.
  pose proof (factor_bound (n_passes_z s) (comp_z s) (kz_true Nz dz iz) dz H). pose proof (factor_bound (n_passes_r s) (comp_r s) (kr_of zeros rmax m ir) dr H0).
  rewrite Rabs_pos_eq by (apply Rmult_le_pos; lra). pose proof (Cmod_ge_0 (G iz ir)). rewrite <- (Rmult_1_l (Cmod (G iz ir))) at 2. apply Rmult_le_compat_r; [assumption|].
  rewrite <- (Rmult_1_r 1). apply Rmult_le_compat; lra.
Qed.
Print Assumptions C39_no_amplification.

(** Smoothing along z only: the charge of every column of cells is kept. *)
Theorem C39_charge_partial : forall s jn zeros rmax inv pinv Nz Nr m dz dr G ir, 0 < Nz -> 0 <= n_passes_z s -> n_passes_r s = 0 ->
  let tr := make_transformer jn zeros rmax inv pinv Nz Nr m in
  column_charge Nz (spect2interp_scal tr (filter_spect s zeros rmax Nz Nr m dz dr G)) ir = column_charge Nz (spect2interp_scal tr G) ir.
Proof. exact charge_z_only. Qed.
Print Assumptions C39_charge_partial.

(** As soon as there is one pass along r (the default), the total charge is not kept: no radial mode has
    kr = 0 for m = 0. [jn], [zeros]: the Bessel functions, J_0 being positive below its first zero
    (2.40...), where J_1 is not zero. *)
Theorem C39_charge_refuted : forall jn zeros rmax inv pinv (vol : Z -> R) Nz Nr dz s,
  inverses_ok jn zeros rmax inv pinv Nr 0 -> 0 < Nz -> 0 < Nr -> (0 < rmax)%R ->
  (0 < zeros 0%Z 0%Z < 2 * PI)%R -> (forall x, 0 <= x < zeros 0%Z 0%Z -> 0 < jn 0%Z x)%R -> jn 1 (zeros 0 0) <> 0%R ->
  (forall ir, 0 <= ir < Nr -> (0 < vol ir)%R) -> 0 <= n_passes_z s -> 1 <= n_passes_r s ->
  let tr := make_transformer jn zeros rmax inv pinv Nz Nr 0 in
  exists rho, let rho' := spect2interp_scal tr (filter_spect s zeros rmax Nz Nr 0 dz (rmax / IZR Nr) (interp2spect_scal tr rho)) in
  total_charge vol Nz Nr rho <> RtoC 0 /\ total_charge vol Nz Nr rho' <> total_charge vol Nz Nr rho.
Proof. intros. apply charge_changes; assumption. Qed.
Print Assumptions C39_charge_refuted.

(** Cases that meet the hypotheses. *)
Example C39_met : binomial_smoother (Dict 4 2) (One true) = Ok {| n_passes_z := 4; n_passes_r := 2; comp_z := true; comp_r := true |}
  /\ filter_factor 1 true (PI / 2) 1 = 0.75%R.
Proof.
  split; [reflexivity|]. pose proof (factor_eq 1 true (PI / 2) 1) as E. change (Z.of_nat 1) with 1 in E. rewrite E. clear E. unfold s2. replace (0.5 * (PI / 2) * 1)%R with (PI / 4)%R by lra.
  rewrite sin_PI4. replace ((1 / sqrt 2) ^ 2)%R with (/ 2)%R; [cbn [pow INR]; lra|].
  assert (sqrt 2 * sqrt 2 = 2)%R by (apply sqrt_sqrt; lra). assert (sqrt 2 <> 0)%R by (intros E; rewrite E in H; lra).
  unfold Rdiv. rewrite Rmult_1_l. cbn [pow]. rewrite Rmult_1_r, <- Rinv_mult, H. reflexivity.
Qed.
Example C39_refuted_met : inverses_ok (fun _ _ => 1%R) (fun _ _ => 2.4%R) 1 (fun _ _ _ => PI) (fun _ _ _ => 0%R) 1 0 /\ (0 < 2.4 < 2 * PI)%R.
Proof.
  pose proof PI_RGT_0. split; [|pose proof PI2_1; pose proof PI2_3_2; lra].
  intros p Hp. split; [|intros; lia]. intros _ i k Hi Hk. assert (i = 0) by lia. assert (k = 0) by lia. subst. change (range 1) with [0]. cbn [rsum fold_right].
  unfold rsum, dht_invM, delta_R. cbn [fold_right Z.eqb]. cbv zeta. field. lra.
Qed.
