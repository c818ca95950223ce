(** Complex exponential, argument, powers, and their derivatives. *)
From Verif Require Import Base Fourier_Lib Psatd_Model Psatd_Spec Psatd_Proofs Maxwell_Spec Maxwell_Proofs Laser_Model Laser_Spec.
From Coq Require Import Reals Lra Lia.
From Coquelicot Require Import Coquelicot.
Open Scope C_scope.

(** ** Algebra *)
Lemma Cexp_add a b : Cexp (a + b) = Cexp a * Cexp b.
Proof.
  unfold Cexp. replace (Re (a + b)) with (Re a + Re b)%R by reflexivity. replace (Im (a + b)) with (Im a + Im b)%R by reflexivity.
  rewrite exp_plus, cis_add, RtoC_mult. ring.
Qed.
Lemma Cexp_0 : Cexp 0 = 1.
Proof. unfold Cexp. replace (Re 0) with 0%R by reflexivity. replace (Im 0) with 0%R by reflexivity. rewrite exp_0, cis_0. ring. Qed.
Lemma Cexp_real (a : R) : Cexp a = RtoC (exp a).
Proof. unfold Cexp. replace (Re a) with a by reflexivity. replace (Im a) with 0%R by reflexivity. rewrite cis_0. ring. Qed.
Lemma Cexp_imag (a : R) : Cexp (Ci * a) = cis a.
Proof. unfold Cexp. replace (Re (Ci * a)) with 0%R by (unfold Re, Im, Cmult, RtoC, cis; simpl; ring). replace (Im (Ci * a)) with a by (cbn; ring). rewrite exp_0. ring. Qed.
Lemma Cmod_Cexp z : Cmod (Cexp z) = exp (Re z).
Proof. unfold Cexp. rewrite Cmod_mult, Cmod_cis, Cmod_R, Rmult_1_r. apply Rabs_right. left. apply exp_pos. Qed.
Lemma Cexp_neq z : Cexp z <> 0.
Proof. intros H. pose proof (Cmod_Cexp z) as E. rewrite H, Cmod_0 in E. pose proof (exp_pos (Re z)). lra. Qed.
Lemma cpow_mult (a b : C) n : cpow (a * b) n = cpow a n * cpow b n.
Proof. induction n as [|n IH]; cbn [cpow]; [ring|rewrite IH; ring]. Qed.
Lemma cpow_add a n m : cpow a (n + m) = cpow a n * cpow a m.
Proof. induction n as [|n IH]; cbn [cpow Nat.add]; [ring|rewrite IH; ring]. Qed.
Lemma cpow_R (a : R) n : cpow a n = RtoC (a ^ n).
Proof. induction n as [|n IH]; cbn [cpow pow]; [reflexivity|rewrite IH, <- RtoC_mult; f_equal; ring]. Qed.
Lemma cpow_neq (a : C) n : a <> 0 -> cpow a n <> 0.
Proof. intros H. induction n as [|n IH]; cbn [cpow]; [intros E; injection E; lra|apply Cmult_neq_0; assumption]. Qed.
Lemma cpow_inv (a : C) n : a <> 0 -> cpow (/ a) n = / cpow a n.
Proof. intros H. induction n as [|n IH]; cbn [cpow]; [field; intros E; injection E; lra|]. rewrite IH. field. split; [exact H|apply cpow_neq; exact H]. Qed.

(** np.angle *)
Lemma Re_sq_le z : ((Re z) ^ 2 <= Cmod z ^ 2)%R.
Proof. unfold Cmod. rewrite pow2_sqrt; [unfold Re; nra|nra]. Qed.
Lemma Cmod_sq z : (Cmod z ^ 2 = Re z ^ 2 + Im z ^ 2)%R.
Proof. unfold Cmod, Re, Im. apply pow2_sqrt. nra. Qed.
Lemma angle_spec z : z = Cmod z * cis (angle z).
Proof.
  unfold angle. destruct (Ceq_dec z 0) as [->|N]; [rewrite Cmod_0; ring|].
  assert (P : (0 < Cmod z)%R) by (apply Cmod_gt_0; exact N). pose proof (Cmod_sq z) as Q.
  assert (B : (-1 <= Re z / Cmod z <= 1)%R).
  { pose proof (Re_sq_le z). split.
    - apply (Rmult_le_reg_r (Cmod z)); [exact P|]. unfold Rdiv. rewrite Rmult_assoc, Rinv_l by lra. nra.
    - apply (Rmult_le_reg_r (Cmod z)); [exact P|]. unfold Rdiv. rewrite Rmult_assoc, Rinv_l by lra. nra. }
  assert (S : (sqrt (1 - (Re z / Cmod z)²) = Rabs (Im z) / Cmod z)%R).
  { replace (1 - (Re z / Cmod z)²)%R with ((Rabs (Im z) / Cmod z)²)%R.
    - apply sqrt_Rsqr. apply Rdiv_le_0_compat; [apply Rabs_pos|exact P].
    - unfold Rsqr. replace (Rabs (Im z) / Cmod z * (Rabs (Im z) / Cmod z))%R with ((Rabs (Im z) * Rabs (Im z)) / (Cmod z ^ 2))%R by (field; lra).
      replace (Rabs (Im z) * Rabs (Im z))%R with (Im z ^ 2)%R by (rewrite <- Rabs_mult, Rabs_right by nra; ring).
      replace (Im z ^ 2)%R with (Cmod z ^ 2 - Re z ^ 2)%R by (rewrite Q; ring). field. lra. }
  unfold cis. destruct (Rle_dec 0 (Im z)) as [I|I].
  - rewrite cos_acos, sin_acos by exact B. rewrite S. rewrite Rabs_right by lra. apply injective_projections; cbn; unfold Re, Im; field; lra.
  - rewrite cos_neg, sin_neg; rewrite cos_acos, sin_acos by exact B. rewrite S. rewrite Rabs_left by lra. apply injective_projections; cbn; unfold Re, Im; field; lra.
Qed.

(** ** Derivatives *)
Lemma der_comp (f : R -> C) (g : R -> R) (t : R) (l : C) (k : R) : der f (g t) l -> is_derive g t k -> der (fun t => f (g t)) t (k * l).
Proof.
  intros [A B] G. split.
  - replace (Re (k * l)) with (k * Re l)%R by (unfold Re, Cmult, RtoC; simpl; ring). exact (is_derive_comp (K := R_AbsRing) (V := R_NormedModule) (fun t => Re (f t)) g t _ _ A G).
  - replace (Im (k * l)) with (k * Im l)%R by (unfold Im, Cmult, RtoC; simpl; ring). exact (is_derive_comp (K := R_AbsRing) (V := R_NormedModule) (fun t => Im (f t)) g t _ _ B G).
Qed.
Lemma der_Cexp f t l : der f t l -> der (fun t => Cexp (f t)) t (l * Cexp (f t)).
Proof.
  intros [A B]. unfold Cexp. split.
  - apply (is_derive_ext (fun t => exp (Re (f t)) * cos (Im (f t)))%R); [intros; unfold Re, Im, Cmult, RtoC, cis; simpl; ring|].
    replace (Re (l * (exp (Re (f t)) * cis (Im (f t))))) with (Re l * exp (Re (f t)) * cos (Im (f t)) + exp (Re (f t)) * (Im l * - sin (Im (f t))))%R by (unfold Re, Im, Cmult, RtoC, cis; simpl; ring).
    apply (dR_mult (fun t => exp (Re (f t))) (fun t => cos (Im (f t)))%R).
    + exact (is_derive_comp exp (fun t => Re (f t)) t _ _ (is_derive_exp _) A).
    + exact (is_derive_comp cos (fun t => Im (f t)) t _ _ (is_derive_cos _) B).
  - apply (is_derive_ext (fun t => exp (Re (f t)) * sin (Im (f t)))%R); [intros; unfold Re, Im, Cmult, RtoC, cis; simpl; ring|].
    replace (Im (l * (exp (Re (f t)) * cis (Im (f t))))) with (Re l * exp (Re (f t)) * sin (Im (f t)) + exp (Re (f t)) * (Im l * cos (Im (f t))))%R by (unfold Re, Im, Cmult, RtoC, cis; simpl; ring).
    apply (dR_mult (fun t => exp (Re (f t))) (fun t => sin (Im (f t)))%R).
    + exact (is_derive_comp exp (fun t => Re (f t)) t _ _ (is_derive_exp _) A).
    + exact (is_derive_comp sin (fun t => Im (f t)) t _ _ (is_derive_sin _) B).
Qed.
Lemma der_cpow f n t l : der f t l -> der (fun t => cpow (f t) n) t (INR n * cpow (f t) (pred n) * l).
Proof.
  intros H. induction n as [|n IH].
  - cbn [cpow INR]. eapply der_eq; [apply der_const|ring].
  - cbn [cpow]. eapply der_eq; [apply der_mult; [exact IH|exact H]|]. cbn [pred]. rewrite S_INR, RtoC_plus.
    destruct n as [|n]; cbn [pred cpow INR]; ring.
Qed.
Lemma der_unique f t l l' : der f t l -> der f t l' -> l = l'.
Proof.
  intros [A B] [A' B']. apply injective_projections.
  - exact (eq_trans (eq_sym (is_derive_unique _ _ _ A)) (is_derive_unique _ _ _ A')).
  - exact (eq_trans (eq_sym (is_derive_unique _ _ _ B)) (is_derive_unique _ _ _ B')).
Qed.
(** The inverse of an affine function that does not vanish. *)
Lemma der_inv (f : R -> C) t l : der f t l -> f t <> 0 -> der (fun t => / f t) t (- (l / (f t * f t))).
Proof.
  intros [A B] N. assert (P : (Re (f t) * Re (f t) + Im (f t) * Im (f t) <> 0)%R).
  { intros E. apply N. apply injective_projections; cbn; unfold Re, Im in *; nra. }
  assert (ND : is_derive (fun t => Re (f t) * Re (f t) + Im (f t) * Im (f t))%R t (2 * (Re (f t) * Re l + Im (f t) * Im l))%R).
  { eapply (is_derive_ext (fun t => Re (f t) * Re (f t) + Im (f t) * Im (f t))%R); [reflexivity|].
    replace (2 * (Re (f t) * Re l + Im (f t) * Im l))%R with ((Re l * Re (f t) + Re (f t) * Re l) + (Im l * Im (f t) + Im (f t) * Im l))%R by ring.
    apply dR_plus; apply dR_mult; assumption. }
  pose proof (is_derive_inv _ _ _ ND P) as ID. split.
  - apply (is_derive_ext (fun t => Re (f t) * / (Re (f t) * Re (f t) + Im (f t) * Im (f t)))%R).
    { intros u. cbn. unfold Re, Im, Rdiv. rewrite !Rmult_1_r. reflexivity. }
    eapply (is_derive_ext _ _ _ _ (fun _ => eq_refl)). 
    match goal with |- is_derive _ _ ?r => replace r with (Re l * / (Re (f t) * Re (f t) + Im (f t) * Im (f t)) + Re (f t) * (- (2 * (Re (f t) * Re l + Im (f t) * Im l)) / (Re (f t) * Re (f t) + Im (f t) * Im (f t)) ^ 2))%R end.
    + apply (dR_mult (fun t => Re (f t)) (fun t => / (Re (f t) * Re (f t) + Im (f t) * Im (f t)))%R); [exact A|exact ID].
    + destruct (f t) as [a b]. destruct l as [l1 l2]. cbn in *. field. split; nra.
  - apply (is_derive_ext (fun t => - Im (f t) * / (Re (f t) * Re (f t) + Im (f t) * Im (f t)))%R).
    { intros u. cbn. unfold Re, Im, Rdiv. rewrite !Rmult_1_r. reflexivity. }
    match goal with |- is_derive _ _ ?r => replace r with (- Im l * / (Re (f t) * Re (f t) + Im (f t) * Im (f t)) + - Im (f t) * (- (2 * (Re (f t) * Re l + Im (f t) * Im l)) / (Re (f t) * Re (f t) + Im (f t) * Im (f t)) ^ 2))%R end.
    + apply (dR_mult (fun t => - Im (f t))%R (fun t => / (Re (f t) * Re (f t) + Im (f t) * Im (f t)))%R); [exact (is_derive_opp (K := R_AbsRing) (V := R_NormedModule) _ _ _ B)|exact ID].
    + destruct (f t) as [a b]. destruct l as [l1 l2]. cbn in *. field. split; nra.
Qed.
