(** Proofs for C62. *)
From Verif Require Import Base Fourier_Lib Psatd_Model Psatd_Spec Psatd_Proofs Psatd_Vacuum Maxwell_Spec.
From Coq Require Import Reals Lra.
From Coquelicot Require Import Coquelicot.
Open Scope C_scope.

(** ** Derivatives of complex functions *)
Lemma der_ext f g t l : (forall t, f t = g t) -> der f t l -> der g t l.
Proof. intros H [A B]. split; eapply is_derive_ext; eauto; intros x; cbn; rewrite H; reflexivity. Qed.
Lemma der_eq f t l l' : der f t l -> l = l' -> der f t l'.
Proof. intros H <-. exact H. Qed.
Lemma der_const a t : der (fun _ => a) t 0.
Proof. split; apply (is_derive_const (K := R_AbsRing) (V := R_NormedModule)). Qed.
Lemma der_plus f g t a b : der f t a -> der g t b -> der (fun t => f t + g t) t (a + b).
Proof. intros [A1 A2] [B1 B2]. split; cbn; apply (is_derive_plus (K := R_AbsRing) (V := R_NormedModule)); assumption. Qed.
Lemma dR_mult (f g : R -> R) t a b : is_derive f t a -> is_derive g t b -> is_derive (fun t => f t * g t)%R t (a * g t + f t * b)%R.
Proof. intros A B. exact (is_derive_mult (K := R_AbsRing) f g t a b A B Rmult_comm). Qed.
Lemma dR_minus (f g : R -> R) t a b : is_derive f t a -> is_derive g t b -> is_derive (fun t => f t - g t)%R t (a - b)%R.
Proof. intros A B. exact (is_derive_minus (K := R_AbsRing) (V := R_NormedModule) f g t a b A B). Qed.
Lemma dR_plus (f g : R -> R) t a b : is_derive f t a -> is_derive g t b -> is_derive (fun t => f t + g t)%R t (a + b)%R.
Proof. intros A B. exact (is_derive_plus (K := R_AbsRing) (V := R_NormedModule) f g t a b A B). Qed.
Lemma der_mult f g t a b : der f t a -> der g t b -> der (fun t => f t * g t) t (a * g t + f t * b).
Proof.
  intros [A1 A2] [B1 B2]. split.
  - replace (Re (a * g t + f t * b)) with (Re a * Re (g t) + Re (f t) * Re b - (Im a * Im (g t) + Im (f t) * Im b))%R by (unfold Re, Im; cbn; ring).
    exact (dR_minus _ _ _ _ _ (dR_mult _ _ _ _ _ A1 B1) (dR_mult _ _ _ _ _ A2 B2)).
  - replace (Im (a * g t + f t * b)) with (Re a * Im (g t) + Re (f t) * Im b + (Im a * Re (g t) + Im (f t) * Re b))%R by (unfold Re, Im; cbn; ring).
    exact (dR_plus _ _ _ _ _ (dR_mult _ _ _ _ _ A1 B2) (dR_mult _ _ _ _ _ A2 B1)).
Qed.
Lemma der_scal a f t l : der f t l -> der (fun t => a * f t) t (a * l).
Proof. intros H. eapply der_eq; [apply der_mult; [apply der_const|exact H]|]. cbn. ring. Qed.
Lemma der_real (f : R -> R) t l : is_derive f t l -> der (fun t => RtoC (f t)) t (RtoC l).
Proof. intros H. split; cbn; [exact H|apply (is_derive_const (K := R_AbsRing) (V := R_NormedModule))]. Qed.
Lemma der_cis k d t : der (fun t => cis (k * (d + t))) t (Ci * k * cis (k * (d + t))).
Proof. split; unfold cis, Re, Im; cbn; auto_derive; auto; ring. Qed.
Lemma der_0_const f dt : (0 < dt)%R -> (forall t, der f t 0) -> f dt = f 0%R.
Proof.
  intros Hd H. apply injective_projections.
  - apply (const_of_derive0 (fun t => Re (f t)) dt Hd). intros t. apply (H t).
  - apply (const_of_derive0 (fun t => Im (f t)) dt Hd). intros t. apply (H t).
Qed.

(** ** Vectors *)
Lemma dv_ext f g t l : (forall t, f t = g t) -> der_vec f t l -> der_vec g t l.
Proof. intros H (A & B & D). split; [|split]; eapply der_ext; eauto; intros x; cbn; rewrite H; reflexivity. Qed.
Lemma dv_eq f t l l' : der_vec f t l -> l = l' -> der_vec f t l'.
Proof. intros H <-. exact H. Qed.
Lemma dv_plus f g t a b : der_vec f t a -> der_vec g t b -> der_vec (fun t => vadd (f t) (g t)) t (vadd a b).
Proof. intros (A1 & A2 & A3) (B1 & B2 & B3). split; [|split]; cbn [vadd vp vm vz]; apply der_plus; assumption. Qed.
Lemma dv_scal f g t a b : der f t a -> der_vec g t b -> der_vec (fun t => vscal (f t) (g t)) t (vadd (vscal a (g t)) (vscal (f t) b)).
Proof. intros A (B1 & B2 & B3). split; [|split]; cbn [vadd vscal vp vm vz]; apply der_mult; assumption. Qed.
Definition v0 : vec := {| vp := 0; vm := 0; vz := 0 |}.
Lemma dv_const a t : der_vec (fun _ => a) t v0.
Proof. split; [|split]; apply der_const. Qed.
Lemma dv_scal_l l g t b : der_vec g t b -> der_vec (fun t => vscal l (g t)) t (vscal l b).
Proof. intros (B1 & B2 & B3). split; [|split]; cbn [vscal vp vm vz]; apply der_scal; assumption. Qed.
Lemma dv_scal_r f v t a : der f t a -> der_vec (fun t => vscal (f t) v) t (vscal a v).
Proof. intros A. eapply dv_eq; [apply (dv_scal f (fun _ => v)); [exact A|apply dv_const]|]. vec; ring. Qed.
Lemma dv_curl kz kr g t b : der_vec g t b -> der_vec (fun t => curl kz kr (g t)) t (curl kz kr b).
Proof.
  intros (B1 & B2 & B3). split; [|split]; cbn [curl vp vm vz].
  - apply (der_ext (fun t => kz * vp (g t) + (- (Ci * (kr / 2))) * vz (g t))); [intros; ring|].
    eapply der_eq; [apply der_plus; apply der_scal; eassumption|ring].
  - apply (der_ext (fun t => (- RtoC kz) * vm (g t) + (- (Ci * (kr / 2))) * vz (g t))); [intros; ring|].
    eapply der_eq; [apply der_plus; apply der_scal; eassumption|ring].
  - apply (der_ext (fun t => (Ci * kr) * (vp (g t) + vm (g t)))); [intros; ring|].
    eapply der_eq; [apply der_scal; apply der_plus; eassumption|ring].
Qed.
Lemma d_div kz kr g t b : der_vec g t b -> der (fun t => div kz kr (g t)) t (div kz kr b).
Proof.
  intros (B1 & B2 & B3). unfold div.
  apply (der_ext (fun t => (kr * vp (g t) + (- RtoC kr) * vm (g t)) + (Ci * kz) * vz (g t))); [intros; ring|].
  eapply der_eq; [apply der_plus; [apply der_plus|]; apply der_scal; eassumption|ring].
Qed.
Lemma dv_grad kz kr g t b : der g t b -> der_vec (fun t => grad kz kr (g t)) t (grad kz kr b).
Proof. intros H. split; [|split]; cbn [grad vp vm vz]; apply der_scal; exact H. Qed.

Lemma curl_curl_grad kz kr a : curl kz kr (curl kz kr a) = vadd (vscal (kz ^ 2 + kr ^ 2)%R a) (grad kz kr (div kz kr a)).
Proof.
  rewrite RtoC_plus. unfold curl, vadd, vscal, grad, div. cbn [vp vm vz]. rewrite !RtoC_half. cbn [pow]. rewrite !RtoC_mult. 
  replace (RtoC (kr / 2)) with (RtoC kr * RtoC (/ 2)) by (rewrite <- RtoC_mult; f_equal).
  assert (H2 : RtoC (/ 2) + RtoC (/ 2) = 1) by (rewrite <- RtoC_plus; f_equal; lra).
  assert (H4 : RtoC (/ 2) = 1 - RtoC (/ 2)) by (rewrite <- H2; ring).
  pose proof Ci2 as I2. f_equal.
  - transitivity (kz * kz * vp a - (Ci * Ci) * kr * kr * RtoC (/ 2) * (vp a + vm a) - Ci * kz * kr * RtoC (/ 2) * vz a); [ring|].
    rewrite I2. transitivity (kz * kz * vp a + kr * kr * (RtoC (/ 2) + RtoC (/ 2)) * vp a - kr * RtoC (/ 2) * kr * (vp a - vm a) - kr * RtoC (/ 2) * (Ci * kz * vz a)); [ring|]. rewrite H2. ring.
  - transitivity (kz * kz * vm a - (Ci * Ci) * kr * kr * RtoC (/ 2) * (vp a + vm a) + Ci * kz * kr * RtoC (/ 2) * vz a); [ring|].
    rewrite I2. transitivity (kz * kz * vm a + kr * kr * (RtoC (/ 2) + RtoC (/ 2)) * vm a + kr * RtoC (/ 2) * kr * (vp a - vm a) + kr * RtoC (/ 2) * (Ci * kz * vz a)); [ring|]. rewrite H2. ring.
  - transitivity (Ci * kr * kz * (vp a - vm a) - (Ci * Ci) * kr * kr * (RtoC (/ 2) + RtoC (/ 2)) * vz a); [ring|]. rewrite H2, I2.
    transitivity (Ci * kr * kz * (vp a - vm a) + kr * kr * vz a); [ring|].
    transitivity ((kz * kz + kr * kr) * vz a + Ci * kz * (kr * (vp a - vm a)) + (Ci * Ci) * kz * kz * vz a); [rewrite I2; ring|ring].
Qed.
Lemma curl_grad kz kr a : curl kz kr (grad kz kr a) = v0.
Proof.
  unfold curl, grad, v0. cbn [vp vm vz]. unfold Cdiv. pose proof Ci2 as I2. f_equal.
  - transitivity (- (1 + Ci * Ci) * kz * kr * / 2 * a); [ring|rewrite I2; ring].
  - transitivity (- (1 + Ci * Ci) * kz * kr * / 2 * a); [ring|rewrite I2; ring].
  - ring.
Qed.
Lemma div_grad kz kr a : div kz kr (grad kz kr a) = - (kz ^ 2 + kr ^ 2)%R * a.
Proof.
  unfold div, grad. cbn [vp vm vz]. rewrite !RtoC_half, RtoC_plus. cbn [pow]. rewrite !RtoC_mult.
  replace (RtoC kr * (- RtoC (kr / 2) * a - RtoC (kr / 2) * a)) with (- (RtoC kr * (RtoC (kr / 2) + RtoC (kr / 2)) * a)) by ring.
  rewrite <- RtoC_plus. replace (kr / 2 + kr / 2)%R with kr by field.
  transitivity (- (RtoC kr * kr * a) + (Ci * Ci) * kz * kz * a); [ring|]. rewrite Ci2. ring.
Qed.
Lemma Cplus_cancel (x y z : C) : x + z = y + z -> x = y.
Proof. intros H. replace x with (x + z - z) by ring. rewrite H. ring. Qed.
Lemma vadd_cancel a b x : vadd a x = vadd b x -> a = b.
Proof.
  intros H. apply vec_ext.
  - apply (Cplus_cancel _ _ (vp x)). exact (f_equal vp H).
  - apply (Cplus_cancel _ _ (vm x)). exact (f_equal vm H).
  - apply (Cplus_cancel _ _ (vz x)). exact (f_equal vz H).
Qed.
Lemma vec_determined kz kr a b : ~ (kz = 0%R /\ kr = 0%R) -> curl kz kr a = curl kz kr b -> div kz kr a = div kz kr b -> a = b.
Proof.
  intros N Hc Hd. assert (K : RtoC (kz ^ 2 + kr ^ 2) <> 0).
  { apply RtoC_neq. pose proof (pow2_ge_0 kz). pose proof (pow2_ge_0 kr). intros E. apply N. split; apply Rsqr_0_uniq; unfold Rsqr; cbn [pow] in *; lra. }
  assert (E : vscal (kz ^ 2 + kr ^ 2)%R a = vscal (kz ^ 2 + kr ^ 2)%R b).
  { pose proof (curl_curl_grad kz kr a) as A. pose proof (curl_curl_grad kz kr b) as B. rewrite Hc, Hd in A. rewrite A in B.
    apply (vadd_cancel _ _ _ B). }
  assert (R : forall x y : C, (kz ^ 2 + kr ^ 2)%R * x = (kz ^ 2 + kr ^ 2)%R * y -> x = y).
  { intros x y Hxy. replace x with (/ RtoC (kz ^ 2 + kr ^ 2) * ((kz ^ 2 + kr ^ 2)%R * x)) by (field; exact K). rewrite Hxy. field. exact K. }
  apply vec_ext; apply R; [apply (f_equal vp) in E|apply (f_equal vm) in E|apply (f_equal vz) in E]; exact E.
Qed.

Lemma RtoC_m1 : RtoC (-1) = - (1).
Proof. rewrite <- RtoC_opp. reflexivity. Qed.

(** ** The pair of equations b' = i k b - e, e' = i k e + w^2 b - j *)
Section Pair.
Context (k w : R) (Hw : w <> 0%R).
(** Time elapsed: d + t. *)
Definition fT (t : R) : C := cis (k * t).
Definition fC (t : R) : C := cos (w * t)%R.
Definition fS (t : R) : C := (sin (w * t) / w)%R.
Definition fX (t : R) : C := (1 - fT t * fC t + Ci * k * (fT t * fS t)) * (/ (w ^ 2 - k ^ 2))%R.
Lemma d_T s d t : der (fun t => fT (d + s * t)) t (s * (Ci * k * fT (d + s * t))).
Proof. unfold fT. split; unfold cis, Re, Im; cbn; auto_derive; auto; ring. Qed.
Lemma d_C s d t : der (fun t => fC (d + s * t)) t (s * (- (w ^ 2)%R * fS (d + s * t))).
Proof.
  unfold fC, fS. rewrite <- RtoC_opp, <- !RtoC_mult. apply (der_real (fun t => cos (w * (d + s * t)))). auto_derive; auto. field. exact Hw.
Qed.
Lemma d_S s d t : der (fun t => fS (d + s * t)) t (s * fC (d + s * t)).
Proof. unfold fC, fS. rewrite <- !RtoC_mult. apply (der_real (fun t => (sin (w * (d + s * t)) / w)%R)). auto_derive; auto. field. exact Hw. Qed.
Lemma d_TC s d t : der (fun t => fT (d + s * t) * fC (d + s * t)) t
  (s * (Ci * k * (fT (d + s * t) * fC (d + s * t)) - (w ^ 2)%R * (fT (d + s * t) * fS (d + s * t)))).
Proof. eapply der_eq; [apply der_mult; [apply d_T|apply d_C]|]. cbn beta. ring. Qed.
Lemma d_TS s d t : der (fun t => fT (d + s * t) * fS (d + s * t)) t
  (s * (Ci * k * (fT (d + s * t) * fS (d + s * t)) + fT (d + s * t) * fC (d + s * t))).
Proof. eapply der_eq; [apply der_mult; [apply d_T|apply d_S]|]. cbn beta. ring. Qed.
Hypothesis Hk : (w ^ 2 - k ^ 2 <> 0)%R.
Lemma d_X s d t : der (fun t => fX (d + s * t)) t (s * (fT (d + s * t) * fS (d + s * t))).
Proof.
  unfold fX.
  apply (der_ext (fun t => (/ (w ^ 2 - k ^ 2))%R * (1 + ((- (1)) * (fT (d + s * t) * fC (d + s * t)) + Ci * k * (fT (d + s * t) * fS (d + s * t))))));
    [intros; ring|].
  eapply der_eq; [apply der_scal; apply der_plus; [apply der_const|apply der_plus; apply der_scal; [apply d_TC|apply d_TS]]|].
  set (P := fT (d + s * t) * fC (d + s * t)). set (Q := fT (d + s * t) * fS (d + s * t)).
  transitivity ((/ (w ^ 2 - k ^ 2))%R * (s * (((w ^ 2)%R + (Ci * Ci) * k * k) * Q))); [ring|]. rewrite Ci2.
  replace ((w ^ 2)%R + - (1) * k * k) with (RtoC (w ^ 2 - k ^ 2)); [|rewrite RtoC_minus; cbn [pow]; rewrite !RtoC_mult; ring].
  transitivity (s * ((/ (w ^ 2 - k ^ 2))%R * (w ^ 2 - k ^ 2)%R * Q)); [ring|].
  rewrite <- RtoC_mult, Rinv_l by exact Hk. ring.
Qed.
Lemma f_0 : fT 0 = 1 /\ fC 0 = 1 /\ fS 0 = 0 /\ fX 0 = 0.
Proof.
  assert (T0 : fT 0 = 1) by (unfold fT; rewrite Rmult_0_r; apply cis_0).
  assert (C0 : fC 0 = 1) by (unfold fC; rewrite Rmult_0_r, cos_0; reflexivity).
  assert (S0 : fS 0 = 0) by (unfold fS; rewrite Rmult_0_r, sin_0; unfold Rdiv; rewrite Rmult_0_l; reflexivity).
  repeat split; auto. unfold fX. rewrite T0, C0, S0. ring.
Qed.
Definition sol_b (b0 e0 j : C) (t : R) : C := fT t * fC t * b0 - fT t * fS t * e0 + fX t * j.
Definition sol_e (b0 e0 j : C) (t : R) : C := fT t * fC t * e0 + (w ^ 2)%R * (fT t * fS t) * b0 + (Ci * k * fX t - fT t * fS t) * j.

Lemma pair_unique (b e : R -> C) j dt : (0 < dt)%R ->
  (forall t, der b t (Ci * k * b t - e t)) -> (forall t, der e t (Ci * k * e t + (w ^ 2)%R * b t - j)) ->
  b dt = sol_b (b 0%R) (e 0%R) j dt /\ e dt = sol_e (b 0%R) (e 0%R) j dt.
Proof.
  intros Hd Hb He. destruct f_0 as (T0 & C0 & S0 & X0).
  assert (Z : (dt + -1 * dt = 0)%R) by ring. assert (D : (dt + -1 * 0 = dt)%R) by ring.
  split.
  - set (G := fun t => fT (dt + -1 * t) * fC (dt + -1 * t) * b t + ((- (1)) * (fT (dt + -1 * t) * fS (dt + -1 * t) * e t) + fX (dt + -1 * t) * j)).
    assert (E : G dt = G 0%R).
    { apply der_0_const; [exact Hd|]. intros t. unfold G.
      eapply der_eq; [apply der_plus; [apply der_mult; [apply d_TC|apply Hb]|apply der_plus; [apply der_scal; apply der_mult; [apply d_TS|apply He]|
        apply der_mult; [apply d_X|apply der_const]]]|]. cbn beta. rewrite RtoC_m1. ring. }
    unfold G in E. rewrite Z, D, T0, C0, S0, X0 in E. unfold sol_b.
    replace (b dt) with (1 * 1 * b dt + (- (1) * (1 * 0 * e dt) + 0 * j)) by ring. rewrite E. ring.
  - set (G := fun t => fT (dt + -1 * t) * fC (dt + -1 * t) * e t + ((w ^ 2)%R * (fT (dt + -1 * t) * fS (dt + -1 * t) * b t)
       + (Ci * k * (fX (dt + -1 * t) * j) + (- (1)) * (fT (dt + -1 * t) * fS (dt + -1 * t) * j)))).
    assert (E : G dt = G 0%R).
    { apply der_0_const; [exact Hd|]. intros t. unfold G.
      eapply der_eq; [apply der_plus; [apply der_mult; [apply d_TC|apply He]|apply der_plus; [apply der_scal; apply der_mult; [apply d_TS|apply Hb]|
        apply der_plus; apply der_scal; apply der_mult; [apply d_X|apply der_const|apply d_TS|apply der_const]]]|]. cbn beta. rewrite RtoC_m1. ring. }
    unfold G in E. rewrite Z, D, T0, C0, S0, X0 in E. unfold sol_e.
    replace (e dt) with (1 * 1 * e dt + ((w ^ 2)%R * (1 * 0 * b dt) + (Ci * k * (0 * j) + - (1) * (1 * 0 * j)))) by ring. rewrite E. ring.
Qed.
Lemma at_t (f : R -> C) t : f t = f (0 + 1 * t)%R.
Proof. f_equal. ring. Qed.
Lemma pair_solves b0 e0 j t : der (sol_b b0 e0 j) t (Ci * k * sol_b b0 e0 j t - sol_e b0 e0 j t) /\
  der (sol_e b0 e0 j) t (Ci * k * sol_e b0 e0 j t + (w ^ 2)%R * sol_b b0 e0 j t - j) /\ sol_b b0 e0 j 0 = b0 /\ sol_e b0 e0 j 0 = e0.
Proof.
  destruct f_0 as (T0 & C0 & S0 & X0). split; [|split; [|split; unfold sol_b, sol_e; rewrite T0, C0, S0, X0; ring]].
  - apply (der_ext (fun t => fT (0 + 1 * t) * fC (0 + 1 * t) * b0 + ((- (1)) * (fT (0 + 1 * t) * fS (0 + 1 * t) * e0) + fX (0 + 1 * t) * j)));
      [intros x; unfold sol_b; rewrite !Rmult_1_l, !Rplus_0_l; ring|].
    eapply der_eq; [apply der_plus; [apply der_mult; [apply d_TC|apply der_const]|apply der_plus; [apply der_scal; apply der_mult; [apply d_TS|apply der_const]|
        apply der_mult; [apply d_X|apply der_const]]]|]. cbn beta. rewrite !Rmult_1_l, !Rplus_0_l. unfold sol_b, sol_e. ring.
  - apply (der_ext (fun t => fT (0 + 1 * t) * fC (0 + 1 * t) * e0 + ((w ^ 2)%R * (fT (0 + 1 * t) * fS (0 + 1 * t) * b0)
       + (Ci * k * (fX (0 + 1 * t) * j) + (- (1)) * (fT (0 + 1 * t) * fS (0 + 1 * t) * j)))));
      [intros x; unfold sol_e; rewrite !Rmult_1_l, !Rplus_0_l; ring|].
    eapply der_eq; [apply der_plus; [apply der_mult; [apply d_TC|apply der_const]|apply der_plus; [apply der_scal; apply der_mult; [apply d_TS|apply der_const]|
        apply der_plus; apply der_scal; apply der_mult; [apply d_X|apply der_const|apply d_TS|apply der_const]]]|]. cbn beta. rewrite !Rmult_1_l, !Rplus_0_l.
    unfold sol_b, sol_e.
    assert (XE : (w ^ 2 - k ^ 2)%R * fX t = 1 - fT t * fC t + Ci * k * (fT t * fS t)).
    { unfold fX. transitivity ((1 - fT t * fC t + Ci * k * (fT t * fS t)) * ((w ^ 2 - k ^ 2)%R * (/ (w ^ 2 - k ^ 2))%R)); [ring|].
      rewrite <- RtoC_mult, Rinv_r by exact Hk. ring. }
    assert (W : RtoC (w ^ 2 - k ^ 2) = (w ^ 2)%R + (Ci * Ci) * k * k) by (rewrite Ci2, RtoC_minus; cbn [pow]; rewrite !RtoC_mult; ring).
    rewrite W in XE. set (P := fT t * fC t) in *. set (Q := fT t * fS t) in *. set (X := fX t) in *. set (W2 := RtoC (w ^ 2)) in *.
    replace j with (((W2 + Ci * Ci * k * k) * X - (- P + Ci * k * Q)) * j) at 5 by (rewrite XE; ring). ring.
Qed.
End Pair.

(** ** Fields *)
Lemma der_0_all f t : (forall t, der f t 0) -> f t = f 0%R.
Proof.
  intros H. assert (A : forall a b, (a < b)%R -> f a = f b).
  { intros a b L. apply injective_projections.
    - apply (eq_is_derive (fun t => Re (f t)) a b); [intros x _; apply (H x)|exact L].
    - apply (eq_is_derive (fun t => Im (f t)) a b); [intros x _; apply (H x)|exact L]. }
  destruct (Rtotal_order t 0) as [L|[->|L]]; [apply A; exact L|reflexivity|symmetry; apply A; exact L].
Qed.
Lemma zero_stays (k : R) (f : R -> C) t : (forall t, der f t (Ci * k * f t)) -> f 0%R = 0 -> f t = 0.
Proof.
  intros H Z. set (G := fun t => cis (- k * (0 + t)) * f t).
  assert (E : G t = G 0%R).
  { apply der_0_all. intros x. unfold G. eapply der_eq; [apply der_mult; [apply der_cis|apply H]|]. cbn beta. rewrite RtoC_opp. ring. }
  unfold G in E. rewrite Z, Cmult_0_r in E. rewrite Rplus_0_l in E.
  replace (f t) with (cis (- (- k * t)) * (cis (- k * t) * f t)); [rewrite E; ring|].
  rewrite Cmult_assoc, <- cis_add. replace (- (- k * t) + - k * t)%R with 0%R by ring. rewrite cis_0. ring.
Qed.

Definition vsol_b (k w : R) (b0 e0 j : vec) (t : R) : vec :=
  {| vp := sol_b k w (vp b0) (vp e0) (vp j) t; vm := sol_b k w (vm b0) (vm e0) (vm j) t; vz := sol_b k w (vz b0) (vz e0) (vz j) t |}.
Definition vsol_e (k w : R) (b0 e0 j : vec) (t : R) : vec :=
  {| vp := sol_e k w (vp b0) (vp e0) (vp j) t; vm := sol_e k w (vm b0) (vm e0) (vm j) t; vz := sol_e k w (vz b0) (vz e0) (vz j) t |}.
Lemma vpair_unique k w (b e : R -> vec) j dt : w <> 0%R -> (w ^ 2 - k ^ 2 <> 0)%R -> (0 < dt)%R ->
  (forall t, der_vec b t (vadd (vscal (Ci * k) (b t)) (vscal (- (1)) (e t)))) ->
  (forall t, der_vec e t (vadd (vadd (vscal (Ci * k) (e t)) (vscal (w ^ 2)%R (b t))) (vscal (- (1)) j))) ->
  b dt = vsol_b k w (b 0%R) (e 0%R) j dt /\ e dt = vsol_e k w (b 0%R) (e 0%R) j dt.
Proof.
  intros Hw Hk Hd Hb He.
  destruct (pair_unique k w Hw Hk (fun t => vp (b t)) (fun t => vp (e t)) (vp j) dt Hd) as [P1 P2];
    [intros t; eapply der_eq; [exact (proj1 (Hb t))|open_mode; ring]|intros t; eapply der_eq; [exact (proj1 (He t))|open_mode; ring]|].
  destruct (pair_unique k w Hw Hk (fun t => vm (b t)) (fun t => vm (e t)) (vm j) dt Hd) as [M1 M2];
    [intros t; eapply der_eq; [exact (proj1 (proj2 (Hb t)))|open_mode; ring]|intros t; eapply der_eq; [exact (proj1 (proj2 (He t)))|open_mode; ring]|].
  destruct (pair_unique k w Hw Hk (fun t => vz (b t)) (fun t => vz (e t)) (vz j) dt Hd) as [Z1 Z2];
    [intros t; eapply der_eq; [exact (proj2 (proj2 (Hb t)))|open_mode; ring]|intros t; eapply der_eq; [exact (proj2 (proj2 (He t)))|open_mode; ring]|].
  split; apply vec_ext; assumption.
Qed.
Lemma vpair_solves k w b0 e0 j : w <> 0%R -> (w ^ 2 - k ^ 2 <> 0)%R -> 
  (forall t, der_vec (vsol_b k w b0 e0 j) t (vadd (vscal (Ci * k) (vsol_b k w b0 e0 j t)) (vscal (- (1)) (vsol_e k w b0 e0 j t)))) /\
  (forall t, der_vec (vsol_e k w b0 e0 j) t (vadd (vadd (vscal (Ci * k) (vsol_e k w b0 e0 j t)) (vscal (w ^ 2)%R (vsol_b k w b0 e0 j t))) (vscal (- (1)) j))) /\
  vsol_b k w b0 e0 j 0 = b0 /\ vsol_e k w b0 e0 j 0 = e0.
Proof.
  intros Hw Hk.
  pose proof (fun t => pair_solves k w Hw Hk (vp b0) (vp e0) (vp j) t) as P. pose proof (fun t => pair_solves k w Hw Hk (vm b0) (vm e0) (vm j) t) as M.
  pose proof (fun t => pair_solves k w Hw Hk (vz b0) (vz e0) (vz j) t) as Z.
  split; [|split; [|split; apply vec_ext; [exact (proj1 (proj2 (proj2 (P 0%R))))|exact (proj1 (proj2 (proj2 (M 0%R))))|exact (proj1 (proj2 (proj2 (Z 0%R))))|
    exact (proj2 (proj2 (proj2 (P 0%R))))|exact (proj2 (proj2 (proj2 (M 0%R))))|exact (proj2 (proj2 (proj2 (Z 0%R))))]]].
  - intros t. split; [|split]; cbn [vadd vscal vp vm vz vsol_b vsol_e]; (eapply der_eq; [first [exact (proj1 (P t))|exact (proj1 (M t))|exact (proj1 (Z t))]|ring]).
  - intros t. split; [|split]; cbn [vadd vscal vp vm vz vsol_b vsol_e]; (eapply der_eq; [first [exact (proj1 (proj2 (P t)))|exact (proj1 (proj2 (M t)))|exact (proj1 (proj2 (Z t)))]|ring]).
Qed.
Lemma div_vsol_b kz kr k w b0 e0 j t : div kz kr (vsol_b k w b0 e0 j t) = sol_b k w (div kz kr b0) (div kz kr e0) (div kz kr j) t.
Proof. unfold div, vsol_b, sol_b. cbn [vp vm vz]. ring. Qed.
Lemma div_vsol_e kz kr k w b0 e0 j t : div kz kr (vsol_e k w b0 e0 j t) = sol_e k w (div kz kr b0) (div kz kr e0) (div kz kr j) t.
Proof. unfold div, vsol_e, sol_e. cbn [vp vm vz]. ring. Qed.
