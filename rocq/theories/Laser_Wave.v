(** Waveforms: the chirped Gaussian, the few-cycle pulse (C63, C64). *)
From Verif Require Import Base Fourier_Lib Psatd_Model Psatd_Spec Psatd_Proofs Maxwell_Spec Maxwell_Proofs Laser_Model Laser_Spec Laser_Calc Laser_Laguerre Laser_Paraxial Laser_Proofs.
From Coq Require Import Reals Lra Lia.
From Coquelicot Require Import Coquelicot.
Open Scope C_scope.

(** ** Argument and powers in the right half-plane *)
Lemma angle_atan z : (0 < Re z)%R -> angle z = atan (Im z / Re z).
Proof.
  intros H. unfold angle. destruct (Ceq_dec z 0) as [->|N]; [cbn in H; lra|].
  set (u := (Im z / Re z)%R).
  assert (E : (Re z / Cmod z = cos (atan (Rabs u)))%R).
  { rewrite cos_atan. unfold Cmod, u. replace (1 + (Rabs (Im z / Re z))²)%R with ((fst z ^ 2 + snd z ^ 2) / (Re z)²)%R.
    - rewrite sqrt_div; [|nra|unfold Rsqr; nra]. rewrite sqrt_Rsqr by lra. unfold Re, Im in *. field.
      assert (0 < sqrt (fst z ^ 2 + snd z ^ 2))%R by (apply sqrt_lt_R0; nra). split; lra.
    - rewrite <- Rsqr_abs. unfold Rsqr, Re, Im in *. field. lra. }
  assert (B : (0 <= atan (Rabs u) <= PI)%R).
  { pose proof (atan_bound (Rabs u)). pose proof PI_RGT_0. split; [|lra]. rewrite <- atan_0. destruct (Rabs_pos u) as [P|P]; [left; apply atan_increasing; exact P|rewrite <- P; lra]. }
  rewrite E, acos_cos by exact B.
  destruct (Rle_dec 0 (Im z)) as [I|I].
  - rewrite Rabs_right; [reflexivity|]. apply Rle_ge, Rdiv_le_0_compat; assumption.
  - rewrite Rabs_left, atan_opp; [ring|]. unfold u, Rdiv. assert (0 < / Re z)%R by (apply Rinv_0_lt_compat; exact H). nra.
Qed.
Lemma Cpower_exp z a : Cpower z a = Cexp (a * (ln (Cmod z) + Ci * angle z)).
Proof.
  replace (a * (ln (Cmod z) + Ci * angle z)) with (RtoC (a * ln (Cmod z)) + Ci * RtoC (a * angle z)) by (rewrite !RtoC_mult; ring).
  rewrite Cexp_add, Cexp_real, Cexp_imag. reflexivity.
Qed.
Lemma Cpower_neq z a : Cpower z a <> 0.
Proof. rewrite Cpower_exp. apply Cexp_neq. Qed.
Lemma Cmod_Cpower z a : Cmod (Cpower z a) = exp (a * ln (Cmod z)).
Proof. unfold Cpower. rewrite Cmod_mult, Cmod_cis, Cmod_R, Rmult_1_r. apply Rabs_right. left. apply exp_pos. Qed.
Lemma der_log (f : R -> C) t l : (forall t, (0 < Re (f t))%R) -> der f t l -> der (fun t => ln (Cmod (f t)) + Ci * angle (f t)) t (l / f t).
Proof.
  intros P [A B]. pose proof (P t) as Pt.
  assert (Q : forall t, (0 < Re (f t) ^ 2 + Im (f t) ^ 2)%R) by (intros u; pose proof (P u); nra).
  eapply (der_ext (fun t => RtoC (/ 2 * ln (Re (f t) ^ 2 + Im (f t) ^ 2)) + Ci * RtoC (atan (Im (f t) / Re (f t))))).
  { intros u. rewrite (angle_atan (f u)) by apply P. f_equal. f_equal. unfold Cmod. rewrite <- Rpower_sqrt by exact (Q u).
    unfold Rpower. rewrite ln_exp. reflexivity. }
  assert (S : is_derive (fun t => Re (f t) ^ 2 + Im (f t) ^ 2)%R t (2 * (Re (f t) * Re l + Im (f t) * Im l))%R).
  { apply (is_derive_ext (fun t => Re (f t) * Re (f t) + Im (f t) * Im (f t))%R); [intros; simpl; ring|].
    replace (2 * (Re (f t) * Re l + Im (f t) * Im l))%R with ((Re l * Re (f t) + Re (f t) * Re l) + (Im l * Im (f t) + Im (f t) * Im l))%R by ring.
    apply dR_plus; apply dR_mult; assumption. }
  pose proof (Q t) as Qt.
  assert (LD : is_derive (fun t => / 2 * ln (Re (f t) ^ 2 + Im (f t) ^ 2))%R t ((Re (f t) * Re l + Im (f t) * Im l) / (Re (f t) ^ 2 + Im (f t) ^ 2))%R).
  { replace ((Re (f t) * Re l + Im (f t) * Im l) / (Re (f t) ^ 2 + Im (f t) ^ 2))%R with (/ 2 * (2 * (Re (f t) * Re l + Im (f t) * Im l) * / (Re (f t) ^ 2 + Im (f t) ^ 2)))%R by (field; lra).
    apply is_derive_scal. apply (dR_comp ln (fun t => Re (f t) ^ 2 + Im (f t) ^ 2)%R); [apply is_derive_ln; exact Qt|exact S]. }
  assert (AD : is_derive (fun t => atan (Im (f t) / Re (f t)))%R t ((Im l * Re (f t) - Im (f t) * Re l) / (Re (f t) ^ 2 + Im (f t) ^ 2))%R).
  { replace ((Im l * Re (f t) - Im (f t) * Re l) / (Re (f t) ^ 2 + Im (f t) ^ 2))%R with ((Im l * / Re (f t) + Im (f t) * (- Re l / Re (f t) ^ 2)) * / (1 + (Im (f t) / Re (f t))²))%R.
    - apply (dR_comp atan (fun t => Im (f t) / Re (f t))%R); [apply is_derive_atan|].
      apply (dR_mult (fun t => Im (f t)) (fun t => / Re (f t))%R); [exact B|]. apply is_derive_inv; [exact A|lra].
    - unfold Rsqr. field. repeat split; nra. }
  eapply der_eq; [apply der_plus; [apply der_real; exact LD|apply der_scal, der_real; exact AD]|].
  destruct (f t) as [a b]. destruct l as [l1 l2]. unfold Re, Im in *. cbn in *. unfold Cdiv, Cinv, Cmult, Cplus, RtoC, Ci. cbn. f_equal; field; nra.
Qed.
Lemma der_Cpower (f : R -> C) a t l : (forall t, (0 < Re (f t))%R) -> der f t l -> der (fun t => Cpower (f t) a) t (a * l / f t * Cpower (f t) a).
Proof.
  intros P H. eapply (der_ext (fun t => Cexp (a * (ln (Cmod (f t)) + Ci * angle (f t))))); [intros; rewrite Cpower_exp; reflexivity|].
  eapply der_eq; [apply der_Cexp, der_scal, der_log; [exact P|exact H]|]. rewrite Cpower_exp. unfold Cdiv. ring.
Qed.

(** ** The chirped Gaussian *)
Lemma chirp_stretch_pos tau phi2 : (1 <= chirp_stretch tau phi2)%R.
Proof. unfold chirp_stretch. nra. Qed.
Lemma longitudinal_form c tau z0 lambda0 cep phi2 dir g z t : c <> 0%R -> tau <> 0%R ->
  longitudinal_init c tau z0 lambda0 cep phi2 dir = Ok g ->
  longitudinal_evaluate c g z t = chirped_waveform c tau (2 * PI / lambda0) cep phi2 (IZR dir * (z - z0) - c * t) /\ (dir = 1 \/ dir = -1)%Z.
Proof.
  intros Hc Ht. unfold longitudinal_init. destruct ((dir =? -1) || (dir =? 1))%Z eqn:D; [|discriminate]. intros H. injection H as <-.
  split; [|apply Bool.orb_true_iff in D; destruct D as [D|D]; apply Z.eqb_eq in D; auto].
  unfold longitudinal_evaluate. cbn [g_k0 g_z0 g_cep_phase g_phi2_chirp g_inv_ctau2 g_dir]. cbv zeta.
  set (zeta := (IZR dir * (z - z0) - c * t)%R). set (k0 := (2 * PI / lambda0)%R).
  unfold stretch_factor. cbn [g_phi2_chirp g_inv_ctau2].
  change (1 / (c * tau * (c * tau * 1)))%R with (1 / (c * tau) ^ 2)%R.
  replace (phi2 * c ^ 2 * (1 / (c * tau) ^ 2))%R with (phi2 / tau ^ 2)%R by (field; auto).
  set (X := (phi2 / tau ^ 2)%R). set (s := 1 - 2 * Ci * X).
  assert (Es : s = (1, (- (2 * X))%R)) by (unfold s, Cminus, Cplus, Copp, Cmult, Ci, RtoC; cbn; f_equal; ring).
  assert (S1 : (1 <= chirp_stretch tau phi2)%R) by apply chirp_stretch_pos.
  assert (CM : Cmod s = sqrt (chirp_stretch tau phi2)) by (rewrite Es; unfold Cmod; cbn [fst snd]; f_equal; unfold chirp_stretch; fold X; ring).
  assert (AN : angle s = (- atan (2 * X))%R).
  { rewrite angle_atan; rewrite Es; unfold Re, Im; cbn [fst snd]; [|lra]. rewrite <- atan_opp. f_equal. field. }
  assert (RS : (1 <= sqrt (chirp_stretch tau phi2))%R) by (rewrite <- sqrt_1 at 1; apply sqrt_le_1; lra).
  assert (PW : Cpower s 0.5 = sqrt (sqrt (chirp_stretch tau phi2)) * cis (- (atan (2 * X) / 2))).
  { unfold Cpower. rewrite CM, AN. f_equal; [|f_equal; lra]. f_equal. rewrite <- (Rpower_sqrt (sqrt _)) by lra. unfold Rpower. f_equal. f_equal. lra. }
  assert (NS : s <> 0) by (rewrite Es; intros F; injection F; intros; lra).
  assert (IS : 1 / s = (/ chirp_stretch tau phi2)%R * (1 + 2 * Ci * X)).
  { assert (NR : RtoC (chirp_stretch tau phi2) <> 0) by (apply RtoC_neq; lra).
    assert (M : (1 + 2 * Ci * X) * s = RtoC (chirp_stretch tau phi2)).
    { unfold s. transitivity (1 - (1 + 1) * (1 + 1) * (Ci * Ci) * (X * X)); [rewrite RtoC_2; ring|]. rewrite Ci2. unfold chirp_stretch. fold X. rewrite RtoC_plus, RtoC_mult, RtoC_4. replace (RtoC (X ^ 2)) with (RtoC X * RtoC X) by (rewrite <- RtoC_mult; f_equal; ring). ring. }
    rewrite RtoC_inv by lra. rewrite <- M. field. split; [exact NS|]. intros F. apply NR. rewrite <- M. transitivity (0 * s); [f_equal; exact F|ring]. }
  rewrite PW, IS.
  set (A := (zeta ^ 2 / (c ^ 2 * tau ^ 2 * chirp_stretch tau phi2))%R).
  assert (EA : RtoC (/ chirp_stretch tau phi2) * (1 + 2 * Ci * X) * RtoC (1 / (c * tau) ^ 2) * RtoC (zeta ^ 2) = RtoC A + Ci * RtoC (2 * X * A)).
  { transitivity (RtoC (/ chirp_stretch tau phi2 * (1 / (c * tau) ^ 2) * zeta ^ 2) * (1 + 2 * Ci * X)); [rewrite !RtoC_mult; ring|].
    replace (/ chirp_stretch tau phi2 * (1 / (c * tau) ^ 2) * zeta ^ 2)%R with A by (unfold A; field; repeat split; auto; lra). rewrite !RtoC_mult. ring. }
  rewrite EA. unfold chirped_waveform, chirped_amplitude, chirped_phase. fold X. fold A.
  replace (- Ci * cep + Ci * k0 * zeta - (RtoC A + Ci * RtoC (2 * X * A))) with (RtoC (- A) + Ci * RtoC (k0 * zeta - cep - 2 * X * A)).
  2:{ rewrite !RtoC_minus, !RtoC_mult, RtoC_opp. ring. }
  rewrite Cexp_add, Cexp_real, Cexp_imag.
  replace (k0 * zeta - cep - 2 * X * A + atan (2 * X) / 2)%R with ((k0 * zeta - cep - 2 * X * A) - - (atan (2 * X) / 2))%R by ring.
  unfold Rminus at 3. rewrite (cis_add (_ - _) (- - _)), (cis_opp_inv (- (atan (2 * X) / 2))). rewrite RtoC_mult, RtoC_inv.
  - field. split; [apply cis_nonzero|]. apply RtoC_neq. assert (0 < sqrt (sqrt (chirp_stretch tau phi2)))%R by (apply sqrt_lt_R0; lra). lra.
  - assert (0 < sqrt (sqrt (chirp_stretch tau phi2)))%R by (apply sqrt_lt_R0; lra). lra.
Qed.
Lemma chirped_0 c tau k0 cep zeta : chirped_waveform c tau k0 cep 0 zeta = gaussian_waveform c tau k0 cep zeta.
Proof.
  unfold chirped_waveform, chirped_amplitude, chirped_phase, gaussian_waveform. assert (E : chirp_stretch tau 0 = 1%R) by (unfold chirp_stretch, Rdiv; ring).
  rewrite E, !sqrt_1, Rmult_1_r, Rinv_1, Rmult_1_l. f_equal. f_equal. unfold Rdiv. rewrite Rmult_0_l, Rmult_0_r, atan_0. ring.
Qed.
(** The phase of the pulse: the local wavenumber decreases towards the front (for a positive chirp). *)
Lemma chirped_wavenumber c tau k0 cep phi2 zeta : c <> 0%R -> tau <> 0%R ->
  is_derive (chirped_phase c tau k0 cep phi2) zeta (k0 - 4 * phi2 / (c ^ 2 * tau ^ 4 * chirp_stretch tau phi2) * zeta)%R.
Proof.
  intros Hc Ht. pose proof (chirp_stretch_pos tau phi2). unfold chirped_phase. set (S := chirp_stretch tau phi2) in *.
  auto_derive; [exact I|]. field. repeat split; auto; lra.
Qed.
