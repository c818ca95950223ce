From Verif Require Import Base Fourier_Lib Deposit_Model Deposit_Spec Boost_Model Decomp_Model Hankel_Model Hankel_Spec Hankel_Proofs Psatd_Model Psatd_Spec
  Psatd_Proofs Maxwell_Spec Maxwell_Proofs Smooth_Model Smooth_Spec Smooth_Passes Laser_Model Laser_Calc ExtField_Spec Direct_Model Direct_Spec.
From Coq Require Import Reals Lra Lia.
From Coquelicot Require Import Coquelicot.
Open Scope R_scope.

Lemma Re_plus (a b : C) : Re (a + b)%C = Re a + Re b. Proof. reflexivity. Qed.
(** ** Azimuthal decomposition *)
Notation rs := Laser_Model.rsum.
Lemma rs_ext n f g : (forall k, (k < n)%nat -> f k = g k) -> rs n f = rs n g.
Proof. induction n as [|n IH]; intros H; cbn; [reflexivity|]. rewrite IH, H by auto. reflexivity. Qed.
Lemma rs_plus n f g : rs n (fun k => f k + g k) = rs n f + rs n g.
Proof. induction n as [|n IH]; cbn; [ring|]. rewrite IH. ring. Qed.
Lemma rs_scal n a f : rs n (fun k => a * f k) = a * rs n f.
Proof. induction n as [|n IH]; cbn; [ring|]. rewrite IH. ring. Qed.
Lemma rs_zero n f : (forall k, (k < n)%nat -> f k = 0) -> rs n f = 0.
Proof. induction n as [|n IH]; intros H; cbn; [reflexivity|]. rewrite IH, H by auto. ring. Qed.
Lemma rs_single n f k : (k < n)%nat -> (forall j, (j < n)%nat -> j <> k -> f j = 0) -> rs n f = f k.
Proof.
  revert k. induction n as [|n IH]; intros k Hk H; [lia|]. cbn. destruct (Nat.eq_dec k n) as [->|N].
  - rewrite rs_zero; [ring|]. intros j Hj. apply H; lia.
  - rewrite (IH k), (H n) by (intros; try apply H; lia). ring.
Qed.

Definition decomposed (Nm : nat) (f : R -> R) (m : nat) : C := idft (2 * Nm) (fun j => RtoC (f (theta_of Nm j))) m.
Lemma idft_plus N F G k : idft N (fun j => F j + G j)%C k = (idft N F k + idft N G k)%C.
Proof. unfold idft. rewrite (csum_ext N _ (fun j => F j * cis (2 * PI * INR k * INR j / INR N) + G j * cis (2 * PI * INR k * INR j / INR N))%C) by (intros; ring). rewrite csum_plus. unfold Cdiv. ring. Qed.
Lemma idft_scal N a F k : idft N (fun j => a * F j)%C k = (a * idft N F k)%C.
Proof. unfold idft. rewrite (csum_ext N _ (fun j => a * (F j * cis (2 * PI * INR k * INR j / INR N)))%C) by (intros; ring). rewrite csum_scal. unfold Cdiv. ring. Qed.
Lemma decomposed_plus Nm f g m : decomposed Nm (fun t => f t + g t) m = (decomposed Nm f m + decomposed Nm g m)%C.
Proof. unfold decomposed. rewrite <- idft_plus. unfold idft. f_equal. apply csum_ext. intros k _. rewrite RtoC_plus. reflexivity. Qed.
Lemma decomposed_ext Nm f g m : (forall t, f t = g t) -> decomposed Nm f m = decomposed Nm g m.
Proof. intros H. unfold decomposed, idft. f_equal. apply csum_ext. intros k _. rewrite H. reflexivity. Qed.
Lemma decomposed_scal Nm a f m : decomposed Nm (fun t => a * f t) m = (RtoC a * decomposed Nm f m)%C.
Proof. unfold decomposed. rewrite <- idft_scal. unfold idft. f_equal. apply csum_ext. intros k _. rewrite RtoC_mult. reflexivity. Qed.
Lemma azimuthal_ext Nm F G t : (forall m, (m < Nm)%nat -> F m = G m) -> azimuthal Nm F t = azimuthal Nm G t.
Proof. intros H. apply rs_ext. intros k Hk. rewrite H by exact Hk. reflexivity. Qed.
Lemma azimuthal_plus Nm F G t : azimuthal Nm (fun m => F m + G m)%C t = azimuthal Nm F t + azimuthal Nm G t.
Proof.
  unfold azimuthal. rewrite <- rs_plus. apply rs_ext. intros k _.
  replace ((F k + G k) * cis (- (INR k * t)))%C with (F k * cis (- (INR k * t)) + G k * cis (- (INR k * t)))%C by ring. rewrite Re_plus. ring.
Qed.
Lemma azimuthal_scal Nm a F t : azimuthal Nm (fun m => RtoC a * F m)%C t = a * azimuthal Nm F t.
Proof.
  unfold azimuthal. rewrite <- rs_scal. apply rs_ext. intros k _.
  replace (RtoC a * F k * cis (- (INR k * t)))%C with (RtoC a * (F k * cis (- (INR k * t))))%C by ring.
  replace (Re (RtoC a * (F k * cis (- (INR k * t))))%C) with (a * Re (F k * cis (- (INR k * t)))%C) by (unfold Re, Cmult, RtoC; cbn; ring). ring.
Qed.

(** One harmonic *)
Definition wave (Nm : nat) (d : Z) (m : nat) : C := idft (2 * Nm) (fun j => cis (IZR d * theta_of Nm j)) m.
Lemma wave_value Nm d m : (0 < Nm)%nat -> (m < Nm)%nat -> (- Z.of_nat Nm < d < Z.of_nat Nm)%Z ->
  wave Nm d m = if (Z.of_nat m + d =? 0)%Z then RtoC 1 else RtoC 0.
Proof.
  intros HN Hm Hd. unfold wave, idft. assert (P : 0 < INR (2 * Nm)) by (apply lt_0_INR; lia).
  rewrite (csum_ext _ _ (fun j => cis (2 * PI * IZR (Z.of_nat m + d) * INR j / INR (2 * Nm)))).
  - rewrite orthogonality by lia. assert (N0 : RtoC (INR (2 * Nm)) <> RtoC 0) by (apply RtoC_neq; lra).
    destruct (Z.eqb_spec (Z.of_nat m + d) 0) as [E|E].
    + rewrite E, Z.mod_0_l by lia. cbn [Z.eqb]. field. exact N0.
    + replace ((Z.of_nat m + d) mod Z.of_nat (2 * Nm) =? 0)%Z with false; [unfold Cdiv; ring|]. symmetry. apply Z.eqb_neq.
      intros X. apply Z.mod_divide in X; [|lia]. destruct X as [q Q]. assert (q = 0 \/ q <= -1 \/ 1 <= q)%Z as [->|[L|L]] by lia; nia.
  - intros j _. rewrite <- cis_add. f_equal. unfold theta_of. rewrite plus_IZR, <- INR_IZR_INZ. field. lra.
Qed.
Lemma cos_waves Nm n m : decomposed Nm (fun t => cos (INR n * t)) m = (RtoC (1 / 2) * (wave Nm (Z.of_nat n) m + wave Nm (- Z.of_nat n) m))%C.
Proof.
  unfold decomposed, wave. rewrite <- idft_plus, <- idft_scal. unfold idft. f_equal. apply csum_ext. intros j _. f_equal.
  rewrite opp_IZR, <- INR_IZR_INZ. set (x := theta_of Nm j). replace (- INR n * x) with (- (INR n * x)) by ring. unfold cis. rewrite cos_neg, sin_neg.
  unfold RtoC, Cplus, Cmult. cbn. f_equal; field.
Qed.
Lemma sin_waves Nm n m : decomposed Nm (fun t => sin (INR n * t)) m = (RtoC (- (1 / 2)) * Ci * (wave Nm (Z.of_nat n) m + - wave Nm (- Z.of_nat n) m))%C.
Proof.
  replace (- wave Nm (- Z.of_nat n) m)%C with ((- (1)) * wave Nm (- Z.of_nat n) m)%C by ring.
  unfold decomposed, wave. rewrite <- idft_scal, <- idft_plus, <- idft_scal. unfold idft. f_equal. apply csum_ext. intros j _. f_equal.
  rewrite opp_IZR, <- INR_IZR_INZ. set (x := theta_of Nm j). replace (- INR n * x) with (- (INR n * x)) by ring. unfold cis. rewrite cos_neg, sin_neg.
  unfold RtoC, Cplus, Cmult, Copp, Ci. cbn. f_equal; field.
Qed.
Lemma cos_back Nm n t : (n < Nm)%nat -> azimuthal Nm (decomposed Nm (fun t => cos (INR n * t))) t = cos (INR n * t).
Proof.
  intros Hn. assert (V : forall m, (m < Nm)%nat -> decomposed Nm (fun t => cos (INR n * t)) m = if Nat.eqb m n then RtoC (match n with O => 1 | _ => 1 / 2 end) else RtoC 0).
  { intros m Hm. rewrite cos_waves, !wave_value by lia. destruct (Nat.eqb_spec m n) as [->|N].
    - rewrite (proj2 (Z.eqb_eq (Z.of_nat n + - Z.of_nat n) 0)) by lia. destruct n as [|n].
      + cbn [Z.of_nat Z.opp Z.add Z.eqb]. rewrite <- RtoC_plus, <- RtoC_mult. f_equal. lra.
      + rewrite (proj2 (Z.eqb_neq (Z.of_nat (S n) + Z.of_nat (S n)) 0)) by lia. rewrite <- RtoC_plus, <- RtoC_mult. f_equal. lra.
    - rewrite (proj2 (Z.eqb_neq (Z.of_nat m + - Z.of_nat n) 0)) by lia.
      destruct (Z.eqb_spec (Z.of_nat m + Z.of_nat n) 0); [lia|]. ring. }
  rewrite (azimuthal_ext _ _ _ _ V). unfold azimuthal. rewrite (rs_single _ _ n Hn).
  - rewrite Nat.eqb_refl. unfold Re, RtoC, Cmult, cis. cbn [fst snd]. rewrite cos_neg. destruct n; field.
  - intros j Hj N. rewrite (proj2 (Nat.eqb_neq j n) N). unfold Re, RtoC, Cmult. cbn [fst snd]. ring.
Qed.
Lemma sin_back Nm n t : (n < Nm)%nat -> azimuthal Nm (decomposed Nm (fun t => sin (INR n * t))) t = sin (INR n * t).
Proof.
  intros Hn. assert (V : forall m, (m < Nm)%nat -> decomposed Nm (fun t => sin (INR n * t)) m = if Nat.eqb m n then (RtoC (match n with O => 0 | _ => 1 / 2 end) * Ci)%C else RtoC 0).
  { intros m Hm. rewrite sin_waves, !wave_value by lia. destruct (Nat.eqb_spec m n) as [->|N].
    - rewrite (proj2 (Z.eqb_eq (Z.of_nat n + - Z.of_nat n) 0)) by lia. destruct n as [|n].
      + cbn [Z.of_nat Z.opp Z.add Z.eqb]. ring.
      + rewrite (proj2 (Z.eqb_neq (Z.of_nat (S n) + Z.of_nat (S n)) 0)) by lia. rewrite RtoC_opp. ring.
    - rewrite (proj2 (Z.eqb_neq (Z.of_nat m + - Z.of_nat n) 0)) by lia.
      destruct (Z.eqb_spec (Z.of_nat m + Z.of_nat n) 0); [lia|]. ring. }
  rewrite (azimuthal_ext _ _ _ _ V). unfold azimuthal. rewrite (rs_single _ _ n Hn).
  - rewrite Nat.eqb_refl. unfold Re, RtoC, Cmult, cis, Ci. cbn [fst snd]. rewrite sin_neg. destruct n; [cbn [INR]; replace (0 * t) with 0 by ring; rewrite sin_0; ring|field].
  - intros j Hj N. rewrite (proj2 (Nat.eqb_neq j n) N). unfold Re, RtoC, Cmult. cbn [fst snd]. ring.
Qed.
Lemma sum_back Nm M a b t : (M <= Nm)%nat ->
  azimuthal Nm (decomposed Nm (fun t => rs M (fun n => a n * cos (INR n * t) + b n * sin (INR n * t)))) t = rs M (fun n => a n * cos (INR n * t) + b n * sin (INR n * t)).
Proof.
  induction M as [|M IH]; intros H; cbn [Laser_Model.rsum].
  - rewrite (azimuthal_ext _ _ (fun m => RtoC 0 * decomposed Nm (fun t => 0) m)%C); [rewrite azimuthal_scal; ring|].
    intros m _. rewrite <- decomposed_scal. apply decomposed_ext. intros; ring.
  - rewrite (azimuthal_ext _ _ (fun m => decomposed Nm (fun t => rs M (fun n => a n * cos (INR n * t) + b n * sin (INR n * t))%R) m +
      (RtoC (a M) * decomposed Nm (fun t => cos (INR M * t)%R) m + RtoC (b M) * decomposed Nm (fun t => sin (INR M * t)%R) m))%C).
    + rewrite azimuthal_plus, azimuthal_plus, !azimuthal_scal, IH, cos_back, sin_back by lia. reflexivity.
    + intros m _. rewrite <- !decomposed_scal, <- !decomposed_plus. reflexivity.
Qed.
Lemma trig_back Nm M f t : (M < Nm)%nat -> trig M f -> azimuthal Nm (decomposed Nm f) t = f t.
Proof.
  intros H (a & b & E). rewrite E. rewrite <- (sum_back Nm (S M) a b t) by lia. apply azimuthal_ext. intros m _. apply decomposed_ext. exact E.
Qed.

(** ** Trigonometric polynomials *)
Lemma trig_ext M f g : (forall t, f t = g t) -> trig M f -> trig M g.
Proof. intros H (a & b & E). exists a, b. intros t. rewrite <- H. apply E. Qed.
Lemma trig_plus M f g : trig M f -> trig M g -> trig M (fun t => f t + g t).
Proof.
  intros (a & b & E) (a' & b' & E'). exists (fun n => a n + a' n), (fun n => b n + b' n). intros t. rewrite E, E', <- rs_plus. apply rs_ext. intros; ring.
Qed.
Lemma trig_scal M k f : trig M f -> trig M (fun t => k * f t).
Proof. intros (a & b & E). exists (fun n => k * a n), (fun n => k * b n). intros t. rewrite E, <- rs_scal. apply rs_ext. intros; ring. Qed.
Lemma trig_cos M n : (n <= M)%nat -> trig M (fun t => cos (INR n * t)).
Proof.
  intros H. exists (fun k => if Nat.eqb k n then 1 else 0), (fun _ => 0). intros t. rewrite (rs_single _ _ n) by (try lia; intros j _ N; rewrite (proj2 (Nat.eqb_neq j n) N); ring).
  rewrite Nat.eqb_refl. ring.
Qed.
Lemma trig_sin M n : (n <= M)%nat -> trig M (fun t => sin (INR n * t)).
Proof.
  intros H. exists (fun _ => 0), (fun k => if Nat.eqb k n then 1 else 0). intros t. rewrite (rs_single _ _ n) by (try lia; intros j _ N; rewrite (proj2 (Nat.eqb_neq j n) N); ring).
  rewrite Nat.eqb_refl. ring.
Qed.
Lemma trig_const M k : trig M (fun _ => k).
Proof. apply (trig_ext M (fun t => k * cos (INR 0 * t))); [intros t; cbn [INR]; rewrite Rmult_0_l, cos_0; ring|]. apply trig_scal, trig_cos. lia. Qed.
Lemma trig_rs M n (f : nat -> R -> R) : (forall k, (k < n)%nat -> trig M (f k)) -> trig M (fun t => rs n (fun k => f k t)).
Proof. induction n as [|n IH]; intros H; cbn [Laser_Model.rsum]; [apply trig_const|]. apply trig_plus; [apply IH; auto|apply H; lia]. Qed.
Lemma trig_shift M n p q : (n <= M)%nat -> trig M (fun t => p * cos (INR n * t) + q * sin (INR n * t)).
Proof. intros H. apply trig_plus; apply trig_scal; [apply trig_cos|apply trig_sin]; exact H. Qed.
Lemma trig_times_cos M f : trig M f -> trig (S M) (fun t => f t * cos t).
Proof.
  intros (a & b & E). apply (trig_ext _ (fun t => rs (S M) (fun n => a n * (cos (INR n * t) * cos t) + b n * (sin (INR n * t) * cos t)))).
  - intros t. rewrite E, (Rmult_comm _ (cos t)), <- rs_scal. apply rs_ext. intros; ring.
  - apply trig_rs. intros n Hn. destruct n as [|n].
    + apply (trig_ext _ (fun t => a O * cos (INR 1 * t))); [intros t; cbn [INR]; rewrite Rmult_0_l, Rmult_1_l, cos_0, sin_0; ring|]. apply trig_scal, trig_cos. lia.
    + apply (trig_ext _ (fun t => (a (S n) / 2) * cos (INR (S (S n)) * t) + (b (S n) / 2) * sin (INR (S (S n)) * t) + ((a (S n) / 2) * cos (INR n * t) + (b (S n) / 2) * sin (INR n * t)))).
      * intros t. replace (INR (S (S n)) * t) with (INR (S n) * t + t) by (rewrite (S_INR (S n)); ring). replace (INR n * t) with (INR (S n) * t - t) by (rewrite S_INR; ring).
        rewrite cos_plus, sin_plus, cos_minus, sin_minus. field.
      * apply trig_plus; apply trig_shift; lia.
Qed.
Lemma trig_times_sin M f : trig M f -> trig (S M) (fun t => f t * sin t).
Proof.
  intros (a & b & E). apply (trig_ext _ (fun t => rs (S M) (fun n => a n * (cos (INR n * t) * sin t) + b n * (sin (INR n * t) * sin t)))).
  - intros t. rewrite E, (Rmult_comm _ (sin t)), <- rs_scal. apply rs_ext. intros; ring.
  - apply trig_rs. intros n Hn. destruct n as [|n].
    + apply (trig_ext _ (fun t => a O * sin (INR 1 * t))); [intros t; cbn [INR]; rewrite Rmult_0_l, Rmult_1_l, cos_0, sin_0; ring|]. apply trig_scal, trig_sin. lia.
    + apply (trig_ext _ (fun t => (- (b (S n) / 2)) * cos (INR (S (S n)) * t) + (a (S n) / 2) * sin (INR (S (S n)) * t) + ((b (S n) / 2) * cos (INR n * t) + (- (a (S n) / 2)) * sin (INR n * t)))).
      * intros t. replace (INR (S (S n)) * t) with (INR (S n) * t + t) by (rewrite (S_INR (S n)); ring). replace (INR n * t) with (INR (S n) * t - t) by (rewrite S_INR; ring).
        rewrite cos_plus, sin_plus, cos_minus, sin_minus. field.
      * apply trig_plus; apply trig_shift; lia.
Qed.
Lemma trig_cis M n (z : C) s : (n <= M)%nat -> s = 1 \/ s = -1 -> trig M (fun t => Re (z * cis (s * (INR n * t)))%C).
Proof.
  intros H Hs. apply (trig_ext _ (fun t => Re z * cos (INR n * t) + (- s * Im z) * sin (INR n * t))); [|apply trig_shift; exact H].
  intros t. unfold cis, Re, Im, Cmult. cbn [fst snd]. destruct Hs as [-> | ->].
  - rewrite Rmult_1_l. ring.
  - replace (-1 * (INR n * t)) with (- (INR n * t)) by ring. rewrite cos_neg, sin_neg. ring.
Qed.

Lemma sample_radial cl l time z r theta : sample cl l None time z r theta =
  (radial (E_field l (r * cos theta) (r * sin theta) z time) theta, tangential (E_field l (r * cos theta) (r * sin theta) z time) theta).
Proof. unfold sample, radial, tangential. cbv zeta. destruct (E_field _ _ _ _ _) as [Ex Ey]. cbn [fst snd]. f_equal; ring. Qed.
Lemma sample_boost cl l b time z r theta : sample cl l (Some b) time z r theta =
  (let v := E_field l (r * cos theta) (r * sin theta) (gamma0 b * (z + beta0 b * cl * time)) (gamma0 b * (time + (beta0 b * 1 / cl) * z)) in
   (1 / (gamma0 b * (1 + beta0 b)) * radial v theta, 1 / (gamma0 b * (1 + beta0 b)) * tangential v theta)).
Proof. unfold sample, radial, tangential. cbv zeta. destruct (E_field _ _ _ _ _) as [Ex Ey]. cbn [fst snd]. f_equal; ring. Qed.
Lemma cyl_rad M l r z t : cylindrical M l -> 0 <= r ->
  trig (S M) (fun theta => radial (E_field l (r * cos theta) (r * sin theta) z t) theta) /\ trig (S M) (fun theta => tangential (E_field l (r * cos theta) (r * sin theta) z t) theta).
Proof.
  intros H Hr. destruct (H r z t Hr) as [A B]. unfold radial, tangential. split; apply trig_plus; try apply trig_times_cos; try apply trig_times_sin; auto.
  apply (trig_ext _ (fun theta => -1 * fst (E_field l (r * cos theta) (r * sin theta) z t))); [intros; ring|]. apply trig_scal. exact A.
Qed.
Lemma sample_trig M cl l boost time z r : cylindrical M l -> 0 <= r ->
  trig (S M) (fun theta => fst (sample cl l boost time z r theta)) /\ trig (S M) (fun theta => snd (sample cl l boost time z r theta)).
Proof.
  intros H Hr. destruct boost as [b|].
  - destruct (cyl_rad M l r (gamma0 b * (z + beta0 b * cl * time)) (gamma0 b * (time + (beta0 b * 1 / cl) * z)) H Hr) as [A B].
    split; (eapply trig_ext; [intros t; rewrite sample_boost; reflexivity|]); cbn [fst snd]; apply trig_scal; assumption.
  - destruct (cyl_rad M l r z time H Hr) as [A B]. split; (eapply trig_ext; [intros t; rewrite sample_radial; reflexivity|]); cbn [fst snd]; assumption.
Qed.
Lemma modes_back cl l boost time Nm M z r theta : (M + 2 <= Nm)%nat -> cylindrical M l -> 0 <= r ->
  (azimuthal Nm (fun m => fst (get_laser_Er_Et cl l boost time Nm z r m)) theta, azimuthal Nm (fun m => snd (get_laser_Er_Et cl l boost time Nm z r m)) theta) =
  sample cl l boost time z r theta.
Proof.
  intros HN H Hr. destruct (sample_trig M cl l boost time z r H Hr) as [A B]. rewrite (surjective_pairing (sample cl l boost time z r theta)).
  f_equal; unfold get_laser_Er_Et; cbn [fst snd]; [apply (trig_back Nm (S M) (fun th => fst (sample cl l boost time z r th)))|apply (trig_back Nm (S M) (fun th => snd (sample cl l boost time z r th)))]; auto; lia.
Qed.
Lemma cyl_represented M l : cylindrical M l -> represented l M.
Proof.
  intros H cl time Nm z r theta HN Hr F E. pose proof (modes_back cl l None time Nm M z r theta HN H Hr) as P. rewrite sample_radial in P.
  split; [exact (f_equal fst P)|exact (f_equal snd P)].
Qed.
