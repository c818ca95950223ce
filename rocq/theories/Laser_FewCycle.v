(** The few-cycle pulse (C63, C64). *)
From Verif Require Import Base Fourier_Lib Psatd_Model Psatd_Spec Psatd_Proofs Maxwell_Spec Maxwell_Proofs Laser_Model Laser_Spec Laser_Calc Laser_Laguerre Laser_Paraxial Laser_Proofs Laser_Wave.
From Coq Require Import Reals Lra Lia.
From Coquelicot Require Import Coquelicot.
Open Scope C_scope.

Section FewCycle.
Context (k0 zr zf z0 s dir cep : R).
Hypothesis zr_pos : (0 < zr)%R.
Hypothesis ks_pos : (0 < k0 / s)%R.
Definition fq (z : R) : C := (dir * (z - zf))%R + Ci * zr.
Definition fb : C := Ci * (k0 / s)%R.
Definition fW (x y z zeta : R) : C := 1 + fb * ((zeta - dir * z0)%R + (0.5 * (x ^ 2 + y ^ 2))%R * / fq z).
Definition fA : C := Cexp (Ci * cep) * Ci * zr.
Definition fu (x y z zeta : R) : C := fA * / fq z * Cpower (fW x y z zeta) (- s - 1).
Lemma few_cycle_fu c x y z t : few_cycle_profile c k0 zr zf z0 s dir cep x y z t = fu x y z (dir * z - c * t).
Proof.
  unfold few_cycle_profile, fu, fA. cbv zeta. fold (fq z). replace (1 / fq z) with (/ fq z) by (unfold Cdiv; ring). f_equal. f_equal. unfold fW. fold fb.
  f_equal. f_equal. f_equal. f_equal. ring.
Qed.
Lemma fq_neq z : fq z <> 0.
Proof. unfold fq. intros E. apply (f_equal Im) in E. unfold Im, Cplus, Cmult, Ci, RtoC in E. cbn in E. lra. Qed.
Lemma fq_inv z : / fq z = (RtoC (dir * (z - zf)) - Ci * zr) * (/ ((dir * (z - zf)) ^ 2 + zr ^ 2))%R.
Proof.
  set (d := (dir * (z - zf))%R). assert (P : (0 < d ^ 2 + zr ^ 2)%R) by nra.
  assert (E : fq z * (RtoC d - Ci * zr) = RtoC (d ^ 2 + zr ^ 2)).
  { unfold fq. fold d. transitivity (d * d - (Ci * Ci) * (zr * zr)); [ring|]. rewrite Ci2, <- !RtoC_mult, <- RtoC_opp, <- RtoC_mult, <- RtoC_minus. f_equal. ring. }
  assert (N : RtoC (d ^ 2 + zr ^ 2) <> 0) by (apply RtoC_neq; lra). pose proof (fq_neq z) as NQ.
  rewrite RtoC_inv by lra. transitivity (/ fq z * (fq z * (RtoC d - Ci * zr)) * / RtoC (d ^ 2 + zr ^ 2)); [rewrite E; field; auto|field; auto].
Qed.
Lemma fW_re x y z zeta : Re (fW x y z zeta) = (1 + (k0 / s) * (0.5 * (x ^ 2 + y ^ 2) * (zr / ((dir * (z - zf)) ^ 2 + zr ^ 2))))%R.
Proof. unfold fW, fb. rewrite fq_inv. set (d := (dir * (z - zf))%R). assert (P : (0 < d ^ 2 + zr ^ 2)%R) by nra. set (n := (d ^ 2 + zr ^ 2)%R) in *.
  unfold Re, Cminus, Cplus, Copp, Cmult, Ci, RtoC. cbn. unfold Rdiv. ring. Qed.
Lemma fW_ge x y z zeta : (1 <= Re (fW x y z zeta))%R.
Proof.
  rewrite fW_re. assert (0 <= zr / ((dir * (z - zf)) ^ 2 + zr ^ 2))%R by (apply Rdiv_le_0_compat; [lra|pose proof (pow2_ge_0 (dir * (z - zf))); nra]).
  assert (0 <= 0.5 * (x ^ 2 + y ^ 2) * (zr / ((dir * (z - zf)) ^ 2 + zr ^ 2)))%R by (apply Rmult_le_pos; nra). nra.
Qed.
Lemma fW_pos x y z zeta : (0 < Re (fW x y z zeta))%R.
Proof. pose proof (fW_ge x y z zeta). lra. Qed.
Lemma fW_neq x y z zeta : fW x y z zeta <> 0.
Proof. intros E. pose proof (fW_pos x y z zeta) as P. rewrite E in P. cbn in P. lra. Qed.
Lemma der_fq z : der fq z dir.
Proof.
  unfold fq. eapply der_eq; [apply der_plus; [apply der_real; auto_derive; [exact I|reflexivity]|apply der_const]|]. rewrite Rmult_1_r. ring.
Qed.
Lemma fW_x x y z zeta : der (fun x => fW x y z zeta) x (fb * x * / fq z).
Proof.
  unfold fW. eapply der_eq.
  { apply der_plus; [apply der_const|]. apply der_scal. apply der_plus; [apply der_const|]. apply der_mult; [|apply der_const].
    apply der_real. instantiate (1 := x). auto_derive; [exact I|]. lra. }
  cbv beta. ring.
Qed.
Lemma fW_y x y z zeta : der (fun y => fW x y z zeta) y (fb * y * / fq z).
Proof.
  unfold fW. eapply der_eq.
  { apply der_plus; [apply der_const|]. apply der_scal. apply der_plus; [apply der_const|]. apply der_mult; [|apply der_const].
    apply der_real. instantiate (1 := y). auto_derive; [exact I|]. lra. }
  cbv beta. ring.
Qed.
Lemma fW_s x y z zeta : der (fun zeta => fW x y z zeta) zeta fb.
Proof.
  unfold fW. eapply der_eq.
  { apply der_plus; [apply der_const|]. apply der_scal. apply der_plus; [|apply der_const]. apply der_real. auto_derive; [exact I|reflexivity]. }
  ring.
Qed.
Lemma fW_z x y z zeta : der (fun z => fW x y z zeta) z (- (fb * (0.5 * (x ^ 2 + y ^ 2))%R * dir * / (fq z * fq z))).
Proof.
  unfold fW. eapply der_eq.
  { apply der_plus; [apply der_const|]. apply der_scal. apply der_plus; [apply der_const|]. apply der_scal. apply der_inv; [apply der_fq|apply fq_neq]. }
  unfold Cdiv. ring.
Qed.
Definition fn : C := RtoC (- s - 1).
(** Derivatives of W^n, W^n / W along a line. *)
Lemma der_P (f : R -> C) t l : (forall t, (0 < Re (f t))%R) -> der f t l -> der (fun t => Cpower (f t) (- s - 1)) t (fn * l * / f t * Cpower (f t) (- s - 1)).
Proof. intros P H. exact (der_Cpower f (- s - 1) t l P H). Qed.
Lemma der_PW (f : R -> C) t l : (forall t, (0 < Re (f t))%R) -> der f t l ->
  der (fun t => Cpower (f t) (- s - 1) * / f t) t ((fn - 1) * l * / f t * / f t * Cpower (f t) (- s - 1)).
Proof.
  intros P H. assert (N : f t <> 0) by (intros E; pose proof (P t) as Q; rewrite E in Q; cbn in Q; lra).
  eapply der_eq; [apply der_mult; [apply der_P; [exact P|exact H]|apply der_inv; [exact H|exact N]]|]. cbv beta. field. exact N.
Qed.
Lemma few_cycle_paraxial : paraxial_pulse dir fu.
Proof.
  set (Pw := fun x y z zeta : R => Cpower (fW x y z zeta) (- s - 1)).
  exists (fun x y z zeta : R => fA * / fq z * (fn * (fb * x * / fq z) * / fW x y z zeta * Pw x y z zeta)),
    (fun x y z zeta : R => fA * / fq z * fn * (fb * / fq z) * (Pw x y z zeta * / fW x y z zeta + x * ((fn - 1) * (fb * x * / fq z) * / fW x y z zeta * / fW x y z zeta * Pw x y z zeta))),
    (fun x y z zeta : R => fA * / fq z * (fn * (fb * y * / fq z) * / fW x y z zeta * Pw x y z zeta)),
    (fun x y z zeta : R => fA * / fq z * fn * (fb * / fq z) * (Pw x y z zeta * / fW x y z zeta + y * ((fn - 1) * (fb * y * / fq z) * / fW x y z zeta * / fW x y z zeta * Pw x y z zeta))),
    (fun x y z zeta : R => fA * / fq z * (fn * fb * / fW x y z zeta * Pw x y z zeta)),
    (fun x y z zeta : R => fA * fn * fb * (- (dir / (fq z * fq z)) * (Pw x y z zeta * / fW x y z zeta) + / fq z * ((fn - 1) * (- (fb * (0.5 * (x ^ 2 + y ^ 2))%R * dir * / (fq z * fq z))) * / fW x y z zeta * / fW x y z zeta * Pw x y z zeta))).
  intros x y z zeta. unfold Pw. clear Pw.
  split; [exact (der_scal _ _ _ _ (der_P (fun x => fW x y z zeta) x _ (fun _ => fW_pos _ _ _ _) (fW_x x y z zeta)))|].
  split.
  { eapply (der_ext (fun x : R => fA * / fq z * fn * (fb * / fq z) * (x * (Cpower (fW x y z zeta) (- s - 1) * / fW x y z zeta)))); [intros; ring|].
    apply der_scal. eapply der_eq; [apply der_mult; [apply (der_real (fun x => x)), (is_derive_id (K := R_AbsRing))|exact (der_PW (fun x => fW x y z zeta) x _ (fun _ => fW_pos _ _ _ _) (fW_x x y z zeta))]|]. change (RtoC one) with (RtoC 1). cbv beta. ring. }
  split; [exact (der_scal _ _ _ _ (der_P (fun y => fW x y z zeta) y _ (fun _ => fW_pos _ _ _ _) (fW_y x y z zeta)))|].
  split.
  { eapply (der_ext (fun y : R => fA * / fq z * fn * (fb * / fq z) * (y * (Cpower (fW x y z zeta) (- s - 1) * / fW x y z zeta)))); [intros; ring|].
    apply der_scal. eapply der_eq; [apply der_mult; [apply (der_real (fun x => x)), (is_derive_id (K := R_AbsRing))|exact (der_PW (fun y => fW x y z zeta) y _ (fun _ => fW_pos _ _ _ _) (fW_y x y z zeta))]|]. change (RtoC one) with (RtoC 1). cbv beta. ring. }
  split; [exact (der_scal _ _ _ _ (der_P (fun zeta => fW x y z zeta) zeta _ (fun _ => fW_pos _ _ _ _) (fW_s x y z zeta)))|].
  split.
  { eapply (der_ext (fun z : R => fA * fn * fb * (/ fq z * (Cpower (fW x y z zeta) (- s - 1) * / fW x y z zeta)))); [intros; ring|].
    apply der_scal. apply der_mult; [apply der_inv; [apply der_fq|apply fq_neq]|exact (der_PW (fun z => fW x y z zeta) z _ (fun _ => fW_pos _ _ _ _) (fW_z x y z zeta))]. }
  set (P := Cpower _ _). pose proof (fW_neq x y z zeta) as NW. pose proof (fq_neq z) as NQ. set (W := fW x y z zeta) in *. set (q := fq z) in *.
  replace (RtoC (0.5 * (x ^ 2 + y ^ 2))) with (/ 2 * (RtoC x * RtoC x + RtoC y * RtoC y)).
  2:{ rewrite <- !RtoC_mult, <- RtoC_plus, <- RtoC_inv, <- RtoC_mult by lra. f_equal. lra. }
  assert (N2 : RtoC 2 <> 0) by (apply RtoC_neq; lra). unfold Cdiv. rewrite RtoC_2 in *. field. auto.
Qed.

(** The field is never larger than in the centre of the focus. *)
Lemma few_cycle_bound x y z zeta : (0 <= s)%R -> (Cmod (fu x y z zeta) <= 1)%R.
Proof.
  intros Hs. unfold fu, fA. rewrite !Cmod_mult. replace (Cmod Ci) with 1%R by (unfold Cmod, Ci; cbn; replace (0 * (0 * 1) + 1 * (1 * 1))%R with 1%R by ring; symmetry; apply sqrt_1).
  rewrite Cexp_imag, Cmod_cis, Cmod_R, Rabs_right by lra. rewrite Cmod_inv by apply fq_neq. rewrite Cmod_Cpower.
  assert (Q : (zr <= Cmod (fq z))%R).
  { rewrite <- (Rabs_right zr) by lra. replace zr with (Im (fq z)) by (unfold fq, Im, Cplus, Cmult, Ci, RtoC; cbn; ring). apply Rle_trans with (2 := Rmax_r _ _ ) || idtac.
    pose proof (Cmod_sq (fq z)) as E. apply Rsqr_incr_0_var; [|apply Cmod_ge_0]. rewrite <- Rsqr_abs. unfold Rsqr. nra. }
  assert (Wb : (1 <= Cmod (fW x y z zeta))%R).
  { pose proof (fW_ge x y z zeta). pose proof (Cmod_sq (fW x y z zeta)) as E. pose proof (Cmod_ge_0 (fW x y z zeta)). nra. }
  assert (L : (exp ((- s - 1) * ln (Cmod (fW x y z zeta))) <= 1)%R).
  { assert (L0 : (0 <= ln (Cmod (fW x y z zeta)))%R) by (rewrite <- ln_1; destruct Wb as [Wb|Wb]; [left; apply ln_increasing; lra|rewrite <- Wb; lra]).
    assert (L1 : ((- s - 1) * ln (Cmod (fW x y z zeta)) <= 0)%R) by nra. destruct L1 as [L1|L1]; [left; apply exp_increasing in L1; rewrite exp_0 in L1; exact L1|rewrite L1, exp_0; lra]. }
  assert (Z : (0 <= zr * / Cmod (fq z) <= 1)%R).
  { split; [apply Rmult_le_pos; [lra|left; apply Rinv_0_lt_compat; lra]|]. apply (Rmult_le_reg_r (Cmod (fq z))); [lra|]. rewrite Rmult_assoc, Rinv_l by lra. lra. }
  pose proof (exp_pos ((- s - 1) * ln (Cmod (fW x y z zeta)))). nra.
Qed.
Lemma few_cycle_centre : fu 0 0 zf (dir * z0) = cis cep.
Proof.
  unfold fu. assert (EW : fW 0 0 zf (dir * z0) = 1).
  { unfold fW. replace (dir * z0 - dir * z0)%R with 0%R by ring. replace (0.5 * (0 ^ 2 + 0 ^ 2))%R with 0%R by ring. ring. }
  assert (EQ : fq zf = Ci * zr) by (unfold fq; replace (dir * (zf - zf))%R with 0%R by ring; ring).
  rewrite EW, EQ. unfold Cpower. rewrite Cmod_1, ln_1, angle_atan by (cbn; lra). unfold Re, Im. cbn [fst snd RtoC]. unfold Rdiv. rewrite Rmult_0_l, atan_0, !Rmult_0_r, exp_0, cis_0.
  unfold fA. rewrite Cexp_imag. assert (RtoC zr <> 0) by (apply RtoC_neq; lra). assert (Ci <> 0) by (intros E; injection E; lra). field. auto.
Qed.
(** The intensity at the centre of the focal plane. *)
Lemma few_cycle_intensity zeta : (Cmod (fu 0 0 zf zeta) ^ 2 = exp (- (s + 1) * ln (1 + (k0 / s * (zeta - dir * z0)) ^ 2)))%R.
Proof.
  unfold fu, fA. rewrite !Cmod_mult. replace (Cmod Ci) with 1%R by (unfold Cmod, Ci; cbn; replace (0 * (0 * 1) + 1 * (1 * 1))%R with 1%R by ring; symmetry; apply sqrt_1).
  rewrite Cexp_imag, Cmod_cis, Cmod_R, Rabs_right by lra. rewrite Cmod_inv by apply fq_neq. rewrite Cmod_Cpower.
  assert (EQ : Cmod (fq zf) = zr).
  { unfold fq. replace (dir * (zf - zf))%R with 0%R by ring. replace (0 + Ci * zr) with (Ci * zr) by ring. rewrite Cmod_mult, Cmod_R, Rabs_right by lra.
    replace (Cmod Ci) with 1%R by (unfold Cmod, Ci; cbn; replace (0 * (0 * 1) + 1 * (1 * 1))%R with 1%R by ring; symmetry; apply sqrt_1). ring. }
  rewrite EQ. set (u := (k0 / s * (zeta - dir * z0))%R).
  assert (EW : Cmod (fW 0 0 zf zeta) = sqrt (1 + u ^ 2)).
  { unfold fW. replace (0.5 * (0 ^ 2 + 0 ^ 2))%R with 0%R by ring. unfold Cmod. f_equal. unfold fb, u. unfold Cplus, Cmult, Ci, RtoC. cbn. ring. }
  rewrite EW. assert (U : (0 < 1 + u ^ 2)%R) by nra. rewrite <- (Rpower_sqrt (1 + u ^ 2) U). unfold Rpower. rewrite ln_exp.
  replace (1 * 1 * zr * / zr * exp ((- s - 1) * (/ 2 * ln (1 + u ^ 2))))%R with (exp ((- s - 1) * (/ 2 * ln (1 + u ^ 2)))) by (field; lra).
  set (E := (_ * (/ 2 * _))%R). replace (exp E ^ 2)%R with (exp E * exp E)%R by ring. rewrite <- exp_plus. f_equal. unfold E. field.
Qed.
End FewCycle.
