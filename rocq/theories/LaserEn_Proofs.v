(** Proofs for the energy of a laser (C69). *)
From Verif Require Import Base Fourier_Lib Psatd_Proofs Laser_Model Laser_Spec Laser_Calc Laser_Laguerre Laser_Paraxial Laser_Proofs Laser_Wave Gauss_Lib LagNorm_Lib LaserEn_Spec.
From Coq Require Import Reals Lra Lia Psatz.
From Coquelicot Require Import Coquelicot.
Open Scope R_scope.

(** ** Plane integrals *)
Lemma plane_separable (f : R -> R -> R) (A k l Q : R) (h q : R -> R) : 0 < k ->
  (forall r th, 0 < r -> f (r * cos th) (r * sin th) = A * h (k * r ^ 2) * q th) ->
  is_RInt (V := R_NormedModule) q 0 (2 * PI) Q -> (forall x, continuous h x) -> prim h l ->
  plane_integral f (A * Q * l / (2 * k)).
Proof.
  intros Hk E IQ Ch Ph. exists (fun r => A * h (k * r ^ 2) * Q). split.
  - intros r Hr. apply (is_RInt_ext (V := R_NormedModule) (fun th => scal (A * h (k * r ^ 2)) (q th))).
    + intros th _. symmetry. apply E, Hr.
    + apply (is_RInt_scal (V := R_NormedModule) q 0 (2 * PI) (A * h (k * r ^ 2)) Q IQ).
  - change (int_half (fun r => r * (A * h (k * r ^ 2) * Q)) (A * Q * l / (2 * k))).
    apply prim_int.
    + intros r. apply (continuous_mult (K := R_AbsRing) (fun r : R => r) (fun r => A * h (k * r ^ 2) * Q)); [apply continuous_id|].
      apply (continuous_mult (K := R_AbsRing) (fun r => A * h (k * r ^ 2)) (fun _ => Q)); [|apply continuous_const].
      apply (continuous_mult (K := R_AbsRing) (fun _ => A) (fun r => h (k * r ^ 2))); [apply continuous_const|].
      apply (continuous_comp (fun r => k * r ^ 2) h); [|apply Ch].
      apply (ex_derive_continuous (K := R_AbsRing) (V := R_NormedModule)). auto_derive. exact I.
    + apply (prim_ext (fun r => (A * Q) * (r * h (k * r ^ 2)))); [intros; ring|].
      replace (A * Q * l / (2 * k)) with (A * Q * (l / (2 * k))) by (unfold Rdiv; ring). apply prim_scal, prim_square; assumption.
Qed.
Lemma int_one : is_RInt (V := R_NormedModule) (fun _ => 1) 0 (2 * PI) (2 * PI).
Proof. apply (is_RInt_val _ _ _ (scal (2 * PI - 0) 1)); [apply (is_RInt_const (V := R_NormedModule))|]. unfold scal; simpl; unfold mult; simpl. ring. Qed.
Lemma sin_period' x (n : nat) : sin (x + 2 * INR n * PI) = sin x.
Proof. apply sin_period. Qed.
Lemma int_cos2 (m : nat) th0 : (0 < m)%nat -> is_RInt (V := R_NormedModule) (fun th => cos (INR m * (th - th0)) ^ 2) 0 (2 * PI) PI.
Proof.
  intros Hm. assert (Pm : 0 < INR m) by (apply lt_0_INR; exact Hm).
  set (F := fun th => th / 2 + sin (2 * (INR m * (th - th0))) / (4 * INR m)).
  apply (is_RInt_val _ _ _ (minus (F (2 * PI)) (F 0))).
  - apply (is_RInt_derive (V := R_CompleteNormedModule) F).
    + intros x _. unfold F. auto_derive; [exact I|]. change (@eq R_NormedModule) with (@eq R). rewrite cos_2a_cos. unfold Rminus at 2. set (cc := cos (INR m * (x + - th0))). field. lra.
    + intros x _. apply (ex_derive_continuous (K := R_AbsRing) (V := R_NormedModule)). auto_derive. exact I.
  - unfold minus, plus, opp; simpl. unfold F.
    replace (2 * (INR m * (2 * PI - th0))) with (2 * (INR m * (0 - th0)) + 2 * INR (2 * m) * PI) by (rewrite mult_INR; simpl (INR 2); ring).
    rewrite sin_period'. change (2 * PI / 2 + sin (2 * (INR m * (0 - th0))) / (4 * INR m) + - (0 / 2 + sin (2 * (INR m * (0 - th0))) / (4 * INR m)) = PI). field. lra.
Qed.

(** ** Moduli *)
Lemma Re_scal_inv (a : R) (D : C) : D <> 0%C -> Re D = 1 -> Re (- (RtoC a / D))%C = - (a / Cmod D ^ 2).
Proof.
  intros N E1. rewrite Cmod_sq. destruct D as [u v]. unfold Re, Im in *. cbn in *. subst u.
  assert (1 * 1 + v * v <> 0). { nra. }
  field. lra.
Qed.
Lemma exp_sq x : exp x ^ 2 = exp (2 * x).
Proof. replace (2 * x) with (x + x) by ring. rewrite exp_plus. ring. Qed.
(** |exp(-s/(w0^2 D))/D|^2 *)
Lemma gauss_sq (w0 s : R) (D : C) : 0 < w0 -> D <> 0%C -> Re D = 1 ->
  (Cmod (Cexp (- (RtoC s / (RtoC (w0 ^ 2) * D)))%C) / Cmod D) ^ 2 = / Cmod D ^ 2 * exp (- (2 * s / (w0 * Cmod D) ^ 2)).
Proof.
  intros Hw N R1. assert (P : 0 < Cmod D) by (apply Cmod_gt_0; exact N). rewrite Cmod_Cexp.
  replace (- (RtoC s / (RtoC (w0 ^ 2) * D)))%C with (- (RtoC (s / w0 ^ 2) / D))%C.
  - rewrite (Re_scal_inv _ _ N R1). replace ((exp (- (s / w0 ^ 2 / Cmod D ^ 2)) / Cmod D) ^ 2) with (/ Cmod D ^ 2 * exp (- (s / w0 ^ 2 / Cmod D ^ 2)) ^ 2) by (field; lra).
    rewrite exp_sq. f_equal. f_equal. field. lra.
  - unfold Rdiv. rewrite RtoC_mult, RtoC_inv by nra. field. split; [exact N|apply RtoC_neq; nra].
Qed.
Lemma Cexp_phase (a : C) (b : R) : Cmod (Cexp (a - Ci * b)%C) = Cmod (Cexp a).
Proof. rewrite !Cmod_Cexp. f_equal. unfold Cminus, Re, Cplus, Copp, Cmult, Ci, RtoC. cbn [fst snd]. ring. Qed.
Lemma sqrt_pow_sq v n : 0 <= v -> (sqrt v ^ n) ^ 2 = v ^ n.
Proof. intros H. rewrite <- pow_mult, Nat.mul_comm, pow_mult, pow2_sqrt by exact H. reflexivity. Qed.

(** The integrand v^m L_p^m(v)^2 exp(-v). *)
Definition lagsq (p q m : nat) (v : R) : R := v ^ m * genlaguerre p m v * genlaguerre q m v * exp (- v).
Lemma lagsq_cont p q m x : continuous (lagsq p q m) x.
Proof.
  apply (ex_derive_continuous (K := R_AbsRing) (V := R_NormedModule)). unfold lagsq.
  pose proof (lag_d1 p m x) as D1. pose proof (lag_d1 q m x) as D2.
  apply ex_derive_mult; [|auto_derive; exact I]. apply ex_derive_mult; [|eexists; exact D2]. apply ex_derive_mult; [auto_derive; exact I|eexists; exact D1].
Qed.

Section Profile.
Context (t : transverse) (z : R) (Hw : 0 < t_w0 t).
Let D := diffract_factor t z.
Let k := 2 / (t_w0 t * Cmod D) ^ 2.
Lemma D_neq : D <> 0%C.
Proof. unfold D. rewrite diffract_D. apply Dz_neq. Qed.
Lemma D_re : Re D = 1.
Proof. unfold D. rewrite diffract_D. unfold Dz, Re, Cplus, Cmult, Ci, RtoC. cbn. ring. Qed.
Lemma D_pos : 0 < Cmod D.
Proof. apply Cmod_gt_0, D_neq. Qed.
Lemma k_pos : 0 < k.
Proof. pose proof D_pos. unfold k. apply Rdiv_lt_0_compat; [lra|]. apply pow_lt. nra. Qed.
Lemma k_half A : / Cmod D ^ 2 * A / (2 * k) = A * t_w0 t ^ 2 / 4.
Proof. pose proof D_pos. unfold k. field. lra. Qed.

Lemma gauss_integral : plane_integral (fun x y => Cmod (gauss_evaluate t x y z) ^ 2) (0.5 * PI * t_w0 t ^ 2).
Proof.
  replace (0.5 * PI * t_w0 t ^ 2) with (/ Cmod D ^ 2 * (2 * PI) * 1 / (2 * k)).
  2:{ rewrite Rmult_1_r, k_half. lra. }
  apply (plane_separable _ _ _ _ _ (lagsq 0 0 0) (fun _ => 1)); [apply k_pos| |apply int_one|apply lagsq_cont|].
  - intros r th _. unfold gauss_evaluate. rewrite polar_sq. fold D. rewrite Cmod_div by apply D_neq.
    replace (- RtoC (r ^ 2) / (RtoC (t_w0 t ^ 2) * D))%C with (- (RtoC (r ^ 2) / (RtoC (t_w0 t ^ 2) * D)))%C by (unfold Cdiv; ring).
    rewrite gauss_sq by (auto using D_neq, D_re).
    assert (E1 : forall x, genlaguerre 0 0 x = 1) by (intros; unfold genlaguerre, factR; cbn; field).
    unfold lagsq. rewrite E1, !pow_O, !Rmult_1_l, Rmult_1_r. f_equal. f_equal. f_equal. unfold k, Rdiv. ring.
  - pose proof (laguerre_norm 0 0 0) as H. cbn [Nat.eqb] in H. replace (factR (0 + 0) / factR 0) with 1 in H by (cbn [Nat.add]; field; apply factR_neq). exact H.
Qed.
Lemma donut_integral p m amp : amp ^ 2 = factR p / factR (Z.abs_nat m + p) ->
  plane_integral (fun x y => Cmod (donut_evaluate {| d_t := t; d_p := p; d_m := m; d_scaled_amplitude := amp |} x y z) ^ 2) (0.5 * PI * t_w0 t ^ 2).
Proof.
  intros Ha. set (am := Z.abs_nat m) in *.
  replace (0.5 * PI * t_w0 t ^ 2) with (amp ^ 2 * / Cmod D ^ 2 * (2 * PI) * (factR (p + am) / factR p) / (2 * k)).
  2:{ replace (amp ^ 2 * / Cmod D ^ 2 * (2 * PI) * (factR (p + am) / factR p)) with (/ Cmod D ^ 2 * (2 * PI * (amp ^ 2 * (factR (p + am) / factR p)))) by ring.
      rewrite k_half, Ha. replace (am + p)%nat with (p + am)%nat by lia. replace (factR p / factR (p + am) * (factR (p + am) / factR p)) with 1 by (field; split; apply factR_neq). lra. }
  apply (plane_separable _ _ _ _ _ (lagsq p p am) (fun _ => 1)); [apply k_pos| |apply int_one|apply lagsq_cont|].
  - intros r th _. unfold donut_evaluate. cbn [d_t d_p d_m d_scaled_amplitude]. cbv zeta. rewrite polar_sq. fold am D.
    replace (2 * r ^ 2 / (t_w0 t * Cmod D) ^ 2) with (k * r ^ 2) by (unfold k, Rdiv; ring).
    assert (V : 0 <= k * r ^ 2) by (pose proof k_pos; nra).
    rewrite !Cmod_mult, Cmod_div by apply D_neq. rewrite !Cmod_R, Cexp_phase.
    match goal with |- context [Cexp (- Ci * RtoC ?b - ?s)%C] => replace (- Ci * RtoC b - s)%C with (- s - Ci * RtoC b)%C by ring end. rewrite Cexp_phase.
    rewrite !Rpow_mult_distr, gauss_sq, !pow2_abs, sqrt_pow_sq by (auto using D_neq, D_re). unfold lagsq.
    replace (2 * r ^ 2 / (t_w0 t * Cmod D) ^ 2) with (k * r ^ 2) by (unfold k, Rdiv; ring). ring.
  - pose proof (laguerre_norm p p am) as H. rewrite Nat.eqb_refl in H. exact H.
Qed.
Lemma angle_polar m r th th0 : 0 < r -> cos (INR m * (angle (RtoC (r * cos th) + Ci * RtoC (r * sin th))%C - th0)) = cos (INR m * (th - th0)).
Proof.
  intros Hr. set (X := (RtoC (r * cos th) + Ci * RtoC (r * sin th))%C).
  assert (EX : X = (RtoC r * cis th)%C) by (unfold X, cis, Ci, Cplus, Cmult, RtoC; cbn; f_equal; ring).
  assert (CX : Cmod X = r) by (rewrite EX, Cmod_mult, Cmod_cis, Cmod_R, Rabs_right; lra).
  pose proof (angle_spec X) as A. rewrite CX in A. rewrite EX in A at 1.
  assert (NR : RtoC r <> 0%C) by (apply RtoC_neq; lra).
  assert (B : cis th = cis (angle X)).
  { transitivity (/ RtoC r * (RtoC r * cis th))%C; [field; exact NR|]. rewrite A. field. exact NR. }
  assert (G : cis (INR m * (th - th0)) = cis (INR m * (angle X - th0))).
  { replace (INR m * (th - th0)) with (INR m * th + INR m * - th0) by ring. replace (INR m * (angle X - th0)) with (INR m * angle X + INR m * - th0) by ring.
    rewrite !cis_add, <- (cis_cpow th), <- (cis_cpow (angle X)), B. reflexivity. }
  apply (f_equal Re) in G. unfold cis, Re in G. cbn in G. symmetry. exact G.
Qed.
Lemma laguerre_integral p m amp theta0 : amp ^ 2 = (match m with O => 1 | _ => 2 end) * (factR p / factR (m + p)) ->
  plane_integral (fun x y => Cmod (laguerre_evaluate {| l_t := t; l_p := p; l_m := m; l_scaled_amplitude := amp; l_theta0 := theta0 |} x y z) ^ 2) (0.5 * PI * t_w0 t ^ 2).
Proof.
  intros Ha. set (Q := match m with O => 2 * PI | _ => PI end).
  replace (0.5 * PI * t_w0 t ^ 2) with (amp ^ 2 * / Cmod D ^ 2 * Q * (factR (p + m) / factR p) / (2 * k)).
  2:{ replace (amp ^ 2 * / Cmod D ^ 2 * Q * (factR (p + m) / factR p)) with (/ Cmod D ^ 2 * (Q * (amp ^ 2 * (factR (p + m) / factR p)))) by ring.
      rewrite k_half, Ha. replace (m + p)%nat with (p + m)%nat by lia.
      replace (Q * ((match m with O => 1 | _ => 2 end) * (factR p / factR (p + m)) * (factR (p + m) / factR p))) with (Q * (match m with O => 1 | _ => 2 end)) by (field; split; apply factR_neq).
      unfold Q. destruct m; lra. }
  apply (plane_separable _ _ _ _ _ (lagsq p p m) (fun th => cos (INR m * (th - theta0)) ^ 2)); [apply k_pos| | |apply lagsq_cont|].
  - intros r th Hr. unfold laguerre_evaluate. cbn [l_t l_p l_m l_scaled_amplitude l_theta0]. cbv zeta. rewrite polar_sq. fold D. rewrite angle_polar by exact Hr.
    replace (2 * r ^ 2 / (t_w0 t * Cmod D) ^ 2) with (k * r ^ 2) by (unfold k, Rdiv; ring).
    assert (V : 0 <= k * r ^ 2) by (pose proof k_pos; nra).
    rewrite !Cmod_mult, Cmod_div by apply D_neq. rewrite !Cmod_R, Cexp_phase.
    replace (- RtoC (r ^ 2) / (RtoC (t_w0 t ^ 2) * D))%C with (- (RtoC (r ^ 2) / (RtoC (t_w0 t ^ 2) * D)))%C by (unfold Cdiv; ring).
    rewrite !Rpow_mult_distr, gauss_sq, !pow2_abs, sqrt_pow_sq by (auto using D_neq, D_re). unfold lagsq.
    replace (2 * r ^ 2 / (t_w0 t * Cmod D) ^ 2) with (k * r ^ 2) by (unfold k, Rdiv; ring). ring.
  - unfold Q. destruct m as [|m]; [|apply int_cos2; lia].
    apply (is_RInt_ext (V := R_NormedModule) (fun _ => 1)); [|apply int_one]. intros x _. cbn [INR]. rewrite Rmult_0_l, cos_0. symmetry. apply pow1.
  - pose proof (laguerre_norm p p m) as H. rewrite Nat.eqb_refl in H. exact H.
Qed.

(** |sum a_n exp(-i n s)|^2 *)
Lemma csum_sq n (a : nat -> R) (s : R) : Cmod (csum n (fun i => RtoC (a i) * cis (- (INR i * s)))%C) ^ 2 = rsum n (fun i => rsum n (fun j => a i * a j * cos (INR i * s - INR j * s))).
Proof.
  assert (E : csum n (fun i => RtoC (a i) * cis (- (INR i * s)))%C = (rsum n (fun i => a i * cos (INR i * s)), - rsum n (fun i => a i * sin (INR i * s)))).
  { induction n as [|n IH]; cbn [csum rsum]; [unfold RtoC; f_equal; ring|]. rewrite IH. unfold cis, Cplus, Cmult, RtoC. cbn [fst snd]. rewrite cos_neg, sin_neg. f_equal; ring. }
  rewrite E, Cmod_sq. unfold Re, Im. cbn [fst snd].
  replace (rsum n (fun i => a i * cos (INR i * s)) ^ 2 + (- rsum n (fun i => a i * sin (INR i * s))) ^ 2) with
    (rsum n (fun i => a i * cos (INR i * s)) * rsum n (fun i => a i * cos (INR i * s)) + rsum n (fun i => a i * sin (INR i * s)) * rsum n (fun i => a i * sin (INR i * s))) by ring.
  rewrite !rsum_mult, <- rsum_plus. apply rsum_ext. intros i _. rewrite <- rsum_plus. apply rsum_ext. intros j _. rewrite cos_minus. ring.
Qed.
Lemma cont_rsum n (f : nat -> R -> R) x : (forall i, continuous (f i) x) -> continuous (fun x => rsum n (fun i => f i x)) x.
Proof.
  intros H. induction n as [|n IH]; cbn [rsum]; [apply continuous_const|].
  apply (continuous_plus (V := R_NormedModule) (fun x => rsum n (fun i => f i x)) (f n)); [exact IH|apply H].
Qed.
Lemma flattened_integral N (cn : nat -> R) :
  plane_integral (fun x y => Cmod (flattened_evaluate {| f_t := t; f_N := N; f_cn := cn |} x y z) ^ 2) (0.5 * PI * t_w0 t ^ 2 * rsum (N + 1) (fun n => cn n ^ 2)).
Proof.
  set (psi := angle D).
  set (co := fun i j => cn i * cn j * cos (INR i * (2 * psi) - INR j * (2 * psi))).
  replace (0.5 * PI * t_w0 t ^ 2 * rsum (N + 1) (fun n => cn n ^ 2)) with
    (/ Cmod D ^ 2 * (2 * PI) * rsum (N + 1) (fun i => rsum (N + 1) (fun j => co i j * (if Nat.eqb i j then factR (i + 0) / factR i else 0))) / (2 * k)).
  2:{ replace (/ Cmod D ^ 2 * (2 * PI) * rsum (N + 1) (fun i => rsum (N + 1) (fun j => co i j * (if Nat.eqb i j then factR (i + 0) / factR i else 0)))) with
       (/ Cmod D ^ 2 * (2 * PI * rsum (N + 1) (fun i => rsum (N + 1) (fun j => co i j * (if Nat.eqb i j then factR (i + 0) / factR i else 0))))) by ring. rewrite k_half.
      rewrite (rsum_ext (N + 1) _ (fun n => cn n ^ 2)); [lra|].
      intros i Hi. transitivity (co i i).
      - replace (N + 1)%nat with (i + S (N - i))%nat by lia. rewrite rsum_split, rsum_first.
        rewrite (rsum_ext i _ (fun _ => 0)) by (intros j Hj; destruct (Nat.eqb_spec i j); [lia|ring]).
        rewrite (rsum_ext (N - i) _ (fun _ => 0)) by (intros j Hj; destruct (Nat.eqb_spec i (i + S j)); [lia|ring]).
        rewrite !rsum_zero, !Nat.add_0_r, Nat.eqb_refl. field. apply factR_neq.
      - unfold co. replace (INR i * (2 * psi) - INR i * (2 * psi)) with 0 by ring. rewrite cos_0. ring. }
  apply (plane_separable _ _ _ _ _ (fun v => rsum (N + 1) (fun i => rsum (N + 1) (fun j => co i j * lagsq i j 0 v))) (fun _ => 1)); [apply k_pos| |apply int_one| |].
  - intros r th _. unfold flattened_evaluate. cbn [f_t f_N f_cn]. cbv zeta. rewrite polar_sq. fold D psi.
    replace (2 * r ^ 2 / (t_w0 t * Cmod D) ^ 2) with (k * r ^ 2) by (unfold k, Rdiv; ring).
    rewrite Cmod_div by apply D_neq. rewrite Cmod_mult.
    replace (- RtoC (r ^ 2) / (RtoC (t_w0 t ^ 2) * D))%C with (- (RtoC (r ^ 2) / (RtoC (t_w0 t ^ 2) * D)))%C by (unfold Cdiv; ring).
    unfold Rdiv at 1. rewrite Rmult_assoc. fold (Cmod (Cexp (- (RtoC (r ^ 2) / (RtoC (t_w0 t ^ 2) * D)))%C) / Cmod D).
    rewrite Rpow_mult_distr, gauss_sq by (auto using D_neq, D_re).
    replace (2 * r ^ 2 / (t_w0 t * Cmod D) ^ 2) with (k * r ^ 2) by (unfold k, Rdiv; ring).
    set (v := k * r ^ 2).
    rewrite (csum_ext (N + 1) _ (fun i => RtoC (cn i * genlaguerre i 0 v) * cis (- (INR i * (2 * psi))))%C).
    2:{ intros i _. rewrite laguerre_rec_fst. replace (- (2 * Ci * RtoC (INR i)) * RtoC psi)%C with (Ci * RtoC (- (INR i * (2 * psi))))%C by (rewrite RtoC_opp, !RtoC_mult, RtoC_2; ring). rewrite Cexp_imag, RtoC_mult. ring. }
    rewrite csum_sq. rewrite Rmult_1_r, <- Rmult_assoc, (Rmult_comm (rsum _ _)), Rmult_assoc. f_equal. rewrite Rmult_comm, <- rsum_scal. apply rsum_ext. intros i _. rewrite <- rsum_scal. apply rsum_ext. intros j _. unfold co, lagsq. rewrite pow_O. ring.
  - intros x. apply (cont_rsum (N + 1) (fun i v => rsum (N + 1) (fun j => co i j * lagsq i j 0 v))). intros i. apply (cont_rsum (N + 1) (fun j v => co i j * lagsq i j 0 v)). intros j.
    apply (continuous_mult (K := R_AbsRing) (fun _ => co i j) (lagsq i j 0)); [apply continuous_const|apply lagsq_cont].
  - apply (prim_rsum (N + 1) (fun i v => rsum (N + 1) (fun j => co i j * lagsq i j 0 v))). intros i. apply (prim_rsum (N + 1) (fun j v => co i j * lagsq i j 0 v)). intros j. apply prim_scal. exact (laguerre_norm i j 0).
Qed.
End Profile.

Lemma transverse_init_w waist zf lambda0 dir t : transverse_init waist zf lambda0 dir = Ok t -> t_w0 t = waist.
Proof. unfold transverse_init. destruct ((dir =? -1) || (dir =? 1))%Z; [|discriminate]. intros H. injection H as <-. reflexivity. Qed.
Theorem transverse_ok k0 dir u l : transverse_profile k0 dir u l -> forall z, plane_integral (fun x y => Cmod (u x y z) ^ 2) l.
Proof.
  intros [waist zf lambda0 d t Hw Hl T|p m waist zf lambda0 th0 d lg Hw Hl T|p m waist zf lambda0 d lg Hw Hl T|w0 N zf lambda0 d lg Hw Hl T] z.
  - apply transverse_init_w in T. apply gauss_integral. lra.
  - unfold laguerre_init in T. destruct (transverse_init waist zf lambda0 d) as [t|] eqn:T0; [|discriminate]. cbn [bind] in T. destruct (m <? 0)%Z; [discriminate|].
    injection T as <-. cbn [l_t]. apply transverse_init_w in T0. apply laguerre_integral; [lra|].
    assert (P : 0 <= factR p / factR (Z.to_nat m + p)) by (left; apply Rdiv_lt_0_compat; apply factR_pos).
    destruct (Z.to_nat m) as [|n]; [cbn [Nat.add]; field; apply factR_neq|]. rewrite Rpow_mult_distr, !pow2_sqrt by lra. ring.
  - unfold donut_init in T. destruct (transverse_init waist zf lambda0 d) as [t|] eqn:T0; [|discriminate]. cbn [bind] in T. injection T as <-. cbn [d_t].
    apply transverse_init_w in T0. apply donut_integral; [lra|]. apply pow2_sqrt. left. apply Rdiv_lt_0_compat; apply factR_pos.
  - unfold flattened_init in T. cbv zeta in T. destruct (transverse_init _ zf lambda0 d) as [t|] eqn:T0; [|discriminate]. cbn [bind] in T. injection T as <-. unfold flattened_squared_integral. cbn [f_t f_N f_cn].
    apply transverse_init_w in T0. apply flattened_integral. rewrite T0. pose proof (pos_INR N). apply Rmult_lt_0_compat; [exact Hw|apply sqrt_lt_R0; lra].
Qed.

(** ** Longitudinal profile *)
Lemma longitudinal_ok c tau z0 lambda0 cep phi2 dir g t : c <> 0 -> tau <> 0 -> longitudinal_init c tau z0 lambda0 cep phi2 dir = Ok g ->
  line_integral (fun z => Cmod (longitudinal_evaluate c g z t) ^ 2) (longitudinal_squared_integral g).
Proof.
  intros Hc Ht G. pose proof (fun z => longitudinal_form c tau z0 lambda0 cep phi2 dir g z t Hc Ht G) as LF.
  assert (D2 : IZR dir * IZR dir = 1) by (destruct (LF 0) as [_ [-> | ->]]; lra).
  assert (GI : g_inv_ctau2 g = 1 / (c * tau) ^ 2) by (unfold longitudinal_init in G; destruct ((dir =? -1) || (dir =? 1))%Z; [|discriminate]; injection G as <-; reflexivity).
  set (S := chirp_stretch tau phi2) in *. assert (PS : 0 < S) by (pose proof (chirp_stretch_pos tau phi2); unfold S; lra).
  set (a := Rabs (c * tau)). assert (Pa : 0 < a) by (apply Rabs_pos_lt; apply Rmult_integral_contrapositive_currified; assumption).
  assert (A2 : a ^ 2 = (c * tau) ^ 2) by apply pow2_abs. assert (P2 : 0 < sqrt 2) by (apply sqrt_lt_R0; lra). assert (PQ : 0 < sqrt S) by (apply sqrt_lt_R0; exact PS).
  assert (S2 : sqrt 2 ^ 2 = 2) by (apply pow2_sqrt; lra). assert (SS : sqrt S ^ 2 = S) by (apply pow2_sqrt; lra).
  set (s := a * sqrt S / sqrt 2). assert (Ps : 0 < s) by (unfold s; apply Rdiv_lt_0_compat; nra).
  replace (longitudinal_squared_integral g) with (/ sqrt S * (s * sqrt PI)).
  - apply (int_R_ext (fun z => / sqrt S * exp (- ((z - (z0 + IZR dir * (c * t))) / s) ^ 2))).
    + intros z. destruct (LF z) as [-> _]. unfold chirped_waveform. rewrite Cmod_mult, Cmod_cis, Cmod_R, Rmult_1_r, pow2_abs. unfold chirped_amplitude. fold S.
      rewrite Rpow_mult_distr, exp_sq, pow_inv, pow2_sqrt by lra. f_equal. f_equal.
      replace (((z - (z0 + IZR dir * (c * t))) / s) ^ 2) with (2 * ((z - (z0 + IZR dir * (c * t))) ^ 2 / (c ^ 2 * tau ^ 2 * S))).
      * replace ((IZR dir * (z - z0) - c * t) ^ 2) with ((z - (z0 + IZR dir * (c * t))) ^ 2); [ring|].
        transitivity ((z - z0) ^ 2 - 2 * IZR dir * (c * t) * (z - z0) + (IZR dir * IZR dir) * (c * t) ^ 2); [ring|].
        transitivity ((IZR dir * IZR dir) * (z - z0) ^ 2 - 2 * IZR dir * (c * t) * (z - z0) + (c * t) ^ 2); [rewrite D2; ring|ring].
      * replace (((z - (z0 + IZR dir * (c * t))) / s) ^ 2) with ((z - (z0 + IZR dir * (c * t))) ^ 2 / s ^ 2) by (field; lra).
        replace (s ^ 2) with (a ^ 2 * sqrt S ^ 2 / sqrt 2 ^ 2) by (unfold s; field; lra). rewrite S2, SS, A2. field. repeat split; nra.
    + apply int_R_scal. apply gaussian. exact Ps.
  - unfold longitudinal_squared_integral. rewrite GI. unfold s.
    replace (0.5 * PI * 1 / (1 / (c * tau) ^ 2)) with (a ^ 2 * (PI / 2)) by (rewrite A2; unfold Rdiv; rewrite Rmult_1_l, Rinv_inv; lra).
    pose proof PI_RGT_0. rewrite sqrt_mult, sqrt_pow2, sqrt_div by (try lra; nra). field. lra.
Qed.

(** ** The pulse *)
Lemma plane_scal (f : R -> R -> R) a l : plane_integral f l -> plane_integral (fun x y => a * f x y) (a * l).
Proof.
  intros (g & A & B). exists (fun r => a * g r). split.
  - intros r Hr. apply (is_RInt_scal (V := R_NormedModule) (fun th => f (r * cos th) (r * sin th)) 0 (2 * PI) a (g r)), A, Hr.
  - refine (is_RInt_gen_ext _ _ _ _ (is_RInt_gen_scal (V := R_NormedModule) (fun r => r * g r) a l B)). apply filter_forall. intros ab x _. unfold scal; simpl; unfold mult; simpl.
    change (a * (x * g x) = x * (a * g x)). ring.
Qed.
Lemma plane_ext (f h : R -> R -> R) l : (forall x y, f x y = h x y) -> plane_integral f l -> plane_integral h l.
Proof.
  intros E (g & A & B). exists g. split; [|exact B]. intros r Hr. apply (is_RInt_ext (V := R_NormedModule) (fun th => f (r * cos th) (r * sin th))); [intros; apply E|apply A, Hr].
Qed.
Lemma longitudinal_cep c tau z0 lambda0 cep phi2 dir g1 g2 z t : c <> 0 -> tau <> 0 ->
  longitudinal_init c tau z0 lambda0 cep phi2 dir = Ok g1 -> longitudinal_init c tau z0 lambda0 (cep + PI / 2) phi2 dir = Ok g2 ->
  longitudinal_evaluate c g2 z t = (- Ci * longitudinal_evaluate c g1 z t)%C.
Proof.
  intros Hc Ht G1 G2. destruct (longitudinal_form _ _ _ _ _ _ _ _ z t Hc Ht G1) as [-> _]. destruct (longitudinal_form _ _ _ _ _ _ _ _ z t Hc Ht G2) as [-> _].
  unfold chirped_waveform. set (zeta := IZR dir * (z - z0) - c * t).
  replace (chirped_phase c tau (2 * PI / lambda0) (cep + PI / 2) phi2 zeta) with (chirped_phase c tau (2 * PI / lambda0) cep phi2 zeta + - (PI / 2)) by (unfold chirped_phase; ring).
  rewrite cis_add. assert (E : cis (- (PI / 2)) = (- Ci)%C) by (unfold cis, Ci, Copp; cbn; rewrite cos_neg, sin_neg, cos_PI2, sin_PI2; f_equal; ring). rewrite E. ring.
Qed.
Lemma energy_ok c eps0 tau z0 lambda0 cep phi2 dir g1 g2 k0 d u l E theta l1 l2 t :
  c <> 0 -> tau <> 0 -> 0 < eps0 -> 0 <= E -> transverse_profile k0 d u l ->
  longitudinal_init c tau z0 lambda0 cep phi2 dir = Ok g1 -> longitudinal_init c tau z0 lambda0 (cep + PI / 2) phi2 dir = Ok g2 ->
  paraxial_laser c eps0 g1 k0 d u l E theta = Ok l1 -> paraxial_laser c eps0 g2 k0 d u l E theta = Ok l2 -> 0 < l ->
  space_integral (fun x y z => (energy_density eps0 l1 x y z t + energy_density eps0 l2 x y z t) / 2) E.
Proof.
  intros Hc Ht He HE T G1 G2 L1 L2 Hl.
  assert (LS : longitudinal_squared_integral g2 = longitudinal_squared_integral g1).
  { unfold longitudinal_init in G1, G2. destruct ((dir =? -1) || (dir =? 1))%Z; [|discriminate]. injection G1 as <-. injection G2 as <-. reflexivity. }
  assert (LP : 0 < longitudinal_squared_integral g1).
  { unfold longitudinal_init in G1. destruct ((dir =? -1) || (dir =? 1))%Z; [|discriminate]. injection G1 as <-. unfold longitudinal_squared_integral. cbn [g_inv_ctau2]. apply sqrt_lt_R0.
    pose proof PI_RGT_0. assert (0 < (c * tau) ^ 2) by (assert (c * tau <> 0) by (apply Rmult_integral_contrapositive_currified; assumption); nra).
    apply Rdiv_lt_0_compat; [lra|]. apply Rdiv_lt_0_compat; lra. }
  set (li := longitudinal_squared_integral g1) in *.
  unfold paraxial_laser in L1, L2. rewrite LS in L2. fold li in L1, L2. destruct (Req_EM_T (g_dir g1) d); [|discriminate]. destruct (Req_EM_T (g_k0 g1) k0); [|discriminate]. injection L1 as <-.
  destruct (Req_EM_T (g_dir g2) d); [|discriminate]. destruct (Req_EM_T (g_k0 g2) k0); [|discriminate]. injection L2 as <-.
  set (E0 := sqrt (2 * E / (eps0 * li * l))).
  assert (E02 : E0 ^ 2 = 2 * E / (eps0 * li * l)) by (apply pow2_sqrt; apply Rdiv_le_0_compat; [lra|]; apply Rmult_lt_0_compat; [apply Rmult_lt_0_compat|]; assumption).
  exists (fun z => eps0 / 2 * E0 ^ 2 * Cmod (longitudinal_evaluate c g1 z t) ^ 2 * l). split.
  - intros z. eapply plane_ext; [|apply plane_scal; apply (transverse_ok k0 d u l T z)]. intros x y. unfold energy_density. cbn [E_field]. unfold combine.
    rewrite (longitudinal_cep c tau z0 lambda0 cep phi2 dir g1 g2 z t Hc Ht G1 G2).
    set (f := longitudinal_evaluate c g1 z t). set (h := u x y z).
    assert (Q : forall a p, Re (RtoC a * p)%C = a * Re p) by (intros; unfold Re, Cmult, RtoC; cbn; ring). rewrite !Q.
    replace (Re (- Ci * f * h)%C) with (Im (f * h)%C) by (unfold Re, Im, Ci, Copp, Cmult; cbn; ring).
    assert (CS : cos theta ^ 2 + sin theta ^ 2 = 1) by (pose proof (sin2_cos2 theta) as X; unfold Rsqr in X; lra).
    transitivity (eps0 / 2 * E0 ^ 2 * (cos theta ^ 2 + sin theta ^ 2) * (Re (f * h)%C ^ 2 + Im (f * h)%C ^ 2)); [|field].
    rewrite <- Cmod_sq, Cmod_mult, CS. ring.
  - replace E with (eps0 / 2 * E0 ^ 2 * l * li) by (rewrite E02; field; lra).
    apply (int_R_ext (fun z => eps0 / 2 * E0 ^ 2 * l * Cmod (longitudinal_evaluate c g1 z t) ^ 2)); [intros; ring|].
    apply int_R_scal. exact (longitudinal_ok c tau z0 lambda0 cep phi2 dir g1 t Hc Ht G1).
Qed.

Lemma rsum_pos' n f : (0 < n)%nat -> (forall i, (i < n)%nat -> 0 < f i) -> 0 < rsum n f.
Proof.
  intros Hn H. destruct n as [|n]; [lia|]. clear Hn. induction n as [|n IH]; cbn [rsum].
  - rewrite Rplus_0_l. apply H. lia.
  - cbn [rsum] in IH. apply Rplus_lt_0_compat; [apply IH; intros; apply H; lia|apply H; lia].
Qed.
Lemma binom_pos n k : 0 < binom n k.
Proof. unfold binom, Binomial.C. apply Rdiv_lt_0_compat; [apply INR_fact_lt_0|]. apply Rmult_lt_0_compat; apply INR_fact_lt_0. Qed.
Lemma transverse_pos k0 dir u l : transverse_profile k0 dir u l -> 0 < l.
Proof.
  assert (G : forall w, 0 < w -> 0 < 0.5 * PI * w ^ 2) by (intros; pose proof PI_RGT_0; apply Rmult_lt_0_compat; [lra|apply pow_lt; assumption]).
  intros [waist zf lambda0 d t Hw Hl T|p m waist zf lambda0 th0 d lg Hw Hl T|p m waist zf lambda0 d lg Hw Hl T|w0 N zf lambda0 d lg Hw Hl T].
  - apply transverse_init_w in T. apply G. lra.
  - unfold laguerre_init in T. destruct (transverse_init waist zf lambda0 d) as [t|] eqn:T0; [|discriminate]. cbn [bind] in T. destruct (m <? 0)%Z; [discriminate|].
    injection T as <-. apply transverse_init_w in T0. apply G. cbn. lra.
  - unfold donut_init in T. destruct (transverse_init waist zf lambda0 d) as [t|] eqn:T0; [|discriminate]. cbn [bind] in T. injection T as <-.
    apply transverse_init_w in T0. apply G. cbn. lra.
  - unfold flattened_init in T. cbv zeta in T. destruct (transverse_init _ zf lambda0 d) as [t|] eqn:T0; [|discriminate]. cbn [bind] in T. injection T as <-. unfold flattened_squared_integral. cbn [f_t f_N f_cn].
    apply transverse_init_w in T0. pose proof (pos_INR N). apply Rmult_lt_0_compat.
    + apply G. rewrite T0. apply Rmult_lt_0_compat; [exact Hw|apply sqrt_lt_R0; lra].
    + apply rsum_pos'; [lia|]. intros i Hi. apply pow_lt. apply Rdiv_lt_0_compat; [|lra]. apply rsum_pos'; [lia|]. intros j Hj. apply Rmult_lt_0_compat; [apply pow_lt; lra|apply binom_pos].
Qed.
