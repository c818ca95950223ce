(** The Laguerre-Gauss modes solve the paraxial wave equation. *)
From Verif Require Import Base Fourier_Lib Psatd_Model Psatd_Spec Psatd_Proofs Maxwell_Spec Maxwell_Proofs Laser_Model Laser_Spec Laser_Calc Laser_Laguerre.
From Coq Require Import Reals Lra Lia.
From Coquelicot Require Import Coquelicot.
Open Scope C_scope.

Lemma RtoC_2 : RtoC 2 = 1 + 1.
Proof. rewrite <- RtoC_plus. f_equal. Qed.
Lemma RtoC_4 : RtoC 4 = (1 + 1) * (1 + 1).
Proof. rewrite <- !RtoC_plus, <- RtoC_mult. f_equal. Qed.

Lemma dR_comp (f g : R -> R) t l k : is_derive f (g t) l -> is_derive g t k -> is_derive (fun t => f (g t)) t (k * l)%R.
Proof. intros A B. exact (is_derive_comp (K := R_AbsRing) (V := R_NormedModule) f g t _ _ A B). Qed.

(** ** Linearity *)
Lemma paraxial_ext k0 dir u v : (forall x y z, u x y z = v x y z) -> paraxial k0 dir u -> paraxial k0 dir v.
Proof.
  intros E (ux & uxx & uy & uyy & uz & H). exists ux, uxx, uy, uyy, uz. intros x y z. destruct (H x y z) as (A & B & A' & B' & D & W).
  split; [eapply der_ext; [|exact A]; intros; apply E|]. split; [exact B|].
  split; [eapply der_ext; [|exact A']; intros; apply E|]. split; [exact B'|].
  split; [eapply der_ext; [|exact D]; intros; apply E|exact W].
Qed.
Lemma paraxial_plus k0 dir u v : paraxial k0 dir u -> paraxial k0 dir v -> paraxial k0 dir (fun x y z => u x y z + v x y z).
Proof.
  intros (ux & uxx & uy & uyy & uz & H) (vx & vxx & vy & vyy & vz & K).
  exists (fun x y z => ux x y z + vx x y z), (fun x y z => uxx x y z + vxx x y z), (fun x y z => uy x y z + vy x y z), (fun x y z => uyy x y z + vyy x y z), (fun x y z => uz x y z + vz x y z).
  intros x y z. destruct (H x y z) as (A1 & A2 & A3 & A4 & A5 & A6). destruct (K x y z) as (B1 & B2 & B3 & B4 & B5 & B6).
  split; [exact (der_plus _ _ _ _ _ A1 B1)|]. split; [exact (der_plus _ _ _ _ _ A2 B2)|]. split; [exact (der_plus _ _ _ _ _ A3 B3)|].
  split; [exact (der_plus _ _ _ _ _ A4 B4)|]. split; [exact (der_plus _ _ _ _ _ A5 B5)|].
  transitivity ((2 * Ci * k0 * dir * uz x y z + uxx x y z + uyy x y z) + (2 * Ci * k0 * dir * vz x y z + vxx x y z + vyy x y z)); [ring|]. rewrite A6, B6. ring.
Qed.
Lemma paraxial_scal k0 dir a u : paraxial k0 dir u -> paraxial k0 dir (fun x y z => a * u x y z).
Proof.
  intros (ux & uxx & uy & uyy & uz & H).
  exists (fun x y z => a * ux x y z), (fun x y z => a * uxx x y z), (fun x y z => a * uy x y z), (fun x y z => a * uyy x y z), (fun x y z => a * uz x y z).
  intros x y z. destruct (H x y z) as (A1 & A2 & A3 & A4 & A5 & A6).
  split; [exact (der_scal a _ _ _ A1)|]. split; [exact (der_scal a _ _ _ A2)|]. split; [exact (der_scal a _ _ _ A3)|].
  split; [exact (der_scal a _ _ _ A4)|]. split; [exact (der_scal a _ _ _ A5)|].
  transitivity (a * (2 * Ci * k0 * dir * uz x y z + uxx x y z + uyy x y z)); [ring|]. rewrite A6. ring.
Qed.
Lemma paraxial_0 k0 dir : paraxial k0 dir (fun _ _ _ => 0).
Proof.
  exists (fun _ _ _ => 0), (fun _ _ _ => 0), (fun _ _ _ => 0), (fun _ _ _ => 0), (fun _ _ _ => 0). intros x y z.
  split; [apply der_const|]. split; [apply der_const|]. split; [apply der_const|]. split; [apply der_const|]. split; [apply der_const|]. ring.
Qed.
Lemma paraxial_csum k0 dir n u : (forall k, (k < n)%nat -> paraxial k0 dir (u k)) -> paraxial k0 dir (fun x y z => csum n (fun k => u k x y z)).
Proof.
  induction n as [|n IH]; intros H.
  - eapply paraxial_ext; [|apply paraxial_0]. reflexivity.
  - eapply paraxial_ext; [|apply paraxial_plus; [apply IH; intros; apply H; lia|apply (H n); lia]]. intros. cbn. try ring; reflexivity.
Qed.

(** ** A function of x^2 + y^2 and z, times (x + i s y)^m *)
Definition harm (m : nat) (s : R) (x y : R) : C := cpow (x + Ci * s * y) m.
Lemma der_affine (a b : C) t : der (fun t : R => a + b * t) t b.
Proof.
  eapply der_eq; [apply der_plus; [apply der_const|apply der_scal; apply (der_real (fun t => t)); apply (is_derive_id (K := R_AbsRing))]|]. change (RtoC one) with (RtoC 1). ring.
Qed.
Lemma der_rho (F : R -> C) (F1 : C) (r : R -> R) (t k : R) : der F (r t) F1 -> is_derive r t k -> der (fun t => F (r t)) t (k * F1).
Proof. intros A B. exact (der_comp F r t F1 k A B). Qed.
Lemma INR_pred_pow n (h : C) : INR n * cpow h (pred n) * h = INR n * cpow h n.
Proof. destruct n; cbn [pred cpow INR]; [ring|]. destruct n; ring. Qed.

Lemma radial_paraxial (k0 dir : R) (m : nat) (s : R) (F F1 F2 Fz : R -> R -> C) :
  (s * s = 1)%R ->
  (forall r z, der (fun r => F r z) r (F1 r z)) -> (forall r z, der (fun r => F1 r z) r (F2 r z)) -> (forall r z, der (fun z => F r z) z (Fz r z)) ->
  (forall r z, 2 * Ci * k0 * dir * Fz r z + 4 * r * F2 r z + 4 * (INR m + 1)%R * F1 r z = 0) ->
  paraxial k0 dir (fun x y z => harm m s x y * F (x ^ 2 + y ^ 2)%R z).
Proof.
  intros Es D1 D2 Dz W.
  set (r := fun x y : R => (x ^ 2 + y ^ 2)%R). set (h := fun x y : R => x + Ci * s * y).
  set (P1 := fun x y => INR m * cpow (h x y) (pred m)). set (P2 := fun x y => INR m * (INR (pred m) * cpow (h x y) (pred (pred m)))).
  exists (fun x y z => P1 x y * F (r x y) z + harm m s x y * ((2 * x)%R * F1 (r x y) z)),
    (fun x y z => (P2 x y * F (r x y) z + P1 x y * ((2 * x)%R * F1 (r x y) z)) + (P1 x y * ((2 * x)%R * F1 (r x y) z) + harm m s x y * (2 * F1 (r x y) z + (2 * x)%R * ((2 * x)%R * F2 (r x y) z)))),
    (fun x y z => P1 x y * (Ci * s) * F (r x y) z + harm m s x y * ((2 * y)%R * F1 (r x y) z)),
    (fun x y z => (P2 x y * (Ci * s) * (Ci * s) * F (r x y) z + P1 x y * (Ci * s) * ((2 * y)%R * F1 (r x y) z)) + (P1 x y * (Ci * s) * ((2 * y)%R * F1 (r x y) z) + harm m s x y * (2 * F1 (r x y) z + (2 * y)%R * ((2 * y)%R * F2 (r x y) z)))),
    (fun x y z => harm m s x y * Fz (r x y) z).
  intros x y z.
  assert (rx : forall x, is_derive (fun x => r x y) x (2 * x)%R) by (intros t; unfold r; auto_derive; [exact I|ring]).
  assert (ry : forall y, is_derive (fun y => r x y) y (2 * y)%R) by (intros t; unfold r; auto_derive; [exact I|ring]).
  assert (tx : forall x : R, der (fun x : R => RtoC (2 * x)) x 2) by (intros t; eapply der_eq; [apply der_real; auto_derive; [exact I|reflexivity]|f_equal; ring]).
  assert (hx : forall x, der (fun x => h x y) x 1).
  { intros t. eapply (der_ext (fun x : R => Ci * s * y + 1 * x)); [intros; unfold h; ring|]. apply der_affine. }
  assert (hy : forall y, der (fun y => h x y) y (Ci * s)).
  { intros t. eapply (der_ext (fun y : R => x + (Ci * s) * y)); [intros; unfold h; ring|]. apply der_affine. }
  assert (Hx : forall x, der (fun x => harm m s x y) x (P1 x y)) by (intros t; eapply der_eq; [apply (der_cpow (fun x => h x y)), hx|unfold P1; ring]).
  assert (Hy : forall y, der (fun y => harm m s x y) y (P1 x y * (Ci * s))) by (intros t; eapply der_eq; [apply (der_cpow (fun y => h x y)), hy|unfold P1; ring]).
  assert (Px : forall x, der (fun x => P1 x y) x (P2 x y)) by (intros t; eapply der_eq; [apply der_scal, (der_cpow (fun x => h x y)), hx|unfold P2; ring]).
  assert (Py : forall y, der (fun y => P1 x y) y (P2 x y * (Ci * s))) by (intros t; eapply der_eq; [apply der_scal, (der_cpow (fun y => h x y)), hy|unfold P2; ring]).
  assert (Fx : forall x, der (fun x => F (r x y) z) x ((2 * x)%R * F1 (r x y) z)) by (intros t; exact (der_rho (fun r => F r z) _ (fun x => r x y) t _ (D1 _ z) (rx t))).
  assert (Fy : forall y, der (fun y => F (r x y) z) y ((2 * y)%R * F1 (r x y) z)) by (intros t; exact (der_rho (fun r => F r z) _ (fun y => r x y) t _ (D1 _ z) (ry t))).
  assert (F1x : forall x, der (fun x => F1 (r x y) z) x ((2 * x)%R * F2 (r x y) z)) by (intros t; exact (der_rho (fun r => F1 r z) _ (fun x => r x y) t _ (D2 _ z) (rx t))).
  assert (F1y : forall y, der (fun y => F1 (r x y) z) y ((2 * y)%R * F2 (r x y) z)) by (intros t; exact (der_rho (fun r => F1 r z) _ (fun y => r x y) t _ (D2 _ z) (ry t))).
  split; [exact (der_mult _ _ _ _ _ (Hx x) (Fx x))|].
  split; [apply der_plus; [exact (der_mult _ _ _ _ _ (Px x) (Fx x))|exact (der_mult _ _ _ _ _ (Hx x) (der_mult _ _ _ _ _ (tx x) (F1x x)))]|].
  split; [exact (der_mult _ _ _ _ _ (Hy y) (Fy y))|].
  split.
  { apply der_plus; [|exact (der_mult _ _ _ _ _ (Hy y) (der_mult _ _ _ _ _ (tx y) (F1y y)))].
    apply (der_mult (fun y => P1 x y * (Ci * s)) (fun y => F (r x y) z)); [|exact (Fy y)].
    eapply der_eq; [exact (der_mult _ _ _ _ _ (Py y) (der_const (Ci * s) y))|cbv beta; ring]. }
  split; [exact (der_scal _ _ _ _ (Dz (r x y) z))|].
  pose proof (W (r x y) z) as Wz.
  assert (S2 : (Ci * s) * (Ci * s) = - (1)) by (transitivity ((Ci * Ci) * (s * s)%R); [rewrite RtoC_mult; ring|rewrite Es, Ci2; ring]).
  assert (HP : P1 x y * (x + Ci * s * y) = INR m * harm m s x y) by (unfold P1, harm; exact (INR_pred_pow m (h x y))).
  cbv beta. set (G := F (r x y) z) in *. set (G1 := F1 (r x y) z) in *. set (G2 := F2 (r x y) z) in *. set (Gz := Fz (r x y) z) in *. set (H := harm m s x y) in *.
  transitivity (H * (2 * Ci * k0 * dir * Gz + 4 * r x y * G2 + 4 * (INR m + 1)%R * G1) + P2 x y * (1 + (Ci * s) * (Ci * s)) * G + 4 * (P1 x y * (x + Ci * s * y) - INR m * H) * G1).
  - replace (RtoC (r x y)) with (RtoC x * RtoC x + RtoC y * RtoC y) by (unfold r; rewrite <- !RtoC_mult, <- RtoC_plus; f_equal; ring).
    rewrite !RtoC_mult, RtoC_plus, RtoC_2, RtoC_4. ring.
  - rewrite Wz, S2, HP. ring.
Qed.

(** ** One mode *)
Section Mode.
Context (a k0 dir kap zf : R) (p m : nat) (L L1 L2 : R -> R).
Hypothesis a_pos : (0 < a)%R.
Hypothesis Rayleigh : (k0 * dir * kap = 2 / a)%R.
Hypothesis dL : forall v, is_derive L v (L1 v).
Hypothesis dL1 : forall v, is_derive L1 v (L2 v).
Hypothesis ode : forall v, (v * L2 v + (INR m + 1 - v) * L1 v + INR p * L v = 0)%R.
Definition tau (z : R) : R := (kap * (z - zf))%R.
Definition Dz (z : R) : C := 1 + Ci * tau z.
Definition Bz (z : R) : C := 1 - Ci * tau z.
Definition Nz (z : R) : R := (1 + tau z ^ 2)%R.
Definition vz (r z : R) : R := (2 * r / (a * Nz z))%R.
Definition mode (r z : R) : C := cpow (/ Dz z) (S (m + p)) * cpow (Bz z) p * L (vz r z) * Cexp (- (r / a)%R * / Dz z).

Lemma Nz_pos z : (0 < Nz z)%R.
Proof. unfold Nz. pose proof (pow2_ge_0 (tau z)). lra. Qed.
Lemma DB z : Dz z * Bz z = Nz z.
Proof. unfold Dz, Bz, Nz. transitivity (1 - (Ci * Ci) * (tau z * tau z)); [ring|]. rewrite Ci2. rewrite RtoC_plus. replace (RtoC (tau z ^ 2)) with (tau z * tau z) by (rewrite <- RtoC_mult; f_equal; ring). ring. Qed.
Lemma RtoC_neq (x : R) : (x <> 0)%R -> RtoC x <> 0.
Proof. intros H E. apply H. injection E. auto. Qed.
Lemma Dz_neq z : Dz z <> 0.
Proof. intros E. pose proof (DB z) as F. rewrite E in F. pose proof (Nz_pos z). assert (RtoC (Nz z) <> 0) by (apply RtoC_neq; lra). apply H0. rewrite <- F. ring. Qed.
Lemma Bz_neq z : Bz z <> 0.
Proof. intros E. pose proof (DB z) as F. rewrite E in F. pose proof (Nz_pos z). assert (RtoC (Nz z) <> 0) by (apply RtoC_neq; lra). apply H0. rewrite <- F. ring. Qed.
Lemma der_tau z : is_derive tau z kap.
Proof. unfold tau. auto_derive; [exact I|ring]. Qed.
Lemma der_Dz z : der Dz z (Ci * kap).
Proof. unfold Dz. eapply der_eq; [apply der_plus; [apply der_const|apply der_scal, der_real, der_tau]|ring]. Qed.
Lemma der_Bz z : der Bz z (- (Ci * kap)).
Proof. eapply (der_ext (fun z => 1 + (- Ci) * tau z)); [intros; unfold Bz; ring|]. eapply der_eq; [apply der_plus; [apply der_const|apply der_scal, der_real, der_tau]|ring]. Qed.
Lemma der_vz_r r z : is_derive (fun r => vz r z) r (2 / (a * Nz z))%R.
Proof. pose proof (Nz_pos z). unfold vz. auto_derive; [exact I|field; nra]. Qed.
Lemma der_vz_z r z : is_derive (fun z => vz r z) z (- (2 * tau z * kap / Nz z * vz r z))%R.
Proof. pose proof (Nz_pos z). unfold vz, Nz, tau in *. auto_derive; [nra|field; nra]. Qed.

Definition pre (z : R) : C := cpow (/ Dz z) (S (m + p)) * cpow (Bz z) p.
Definition mode1 (r z : R) : C := pre z * (((2 / (a * Nz z)) * L1 (vz r z))%R - / a * / Dz z * L (vz r z)) * Cexp (- (r / a)%R * / Dz z).
Definition mode2 (r z : R) : C := pre z * (((2 / (a * Nz z)) * ((2 / (a * Nz z)) * L2 (vz r z)))%R - 2 * (/ a * / Dz z * ((2 / (a * Nz z)) * L1 (vz r z))%R) + / a * / Dz z * (/ a * / Dz z) * L (vz r z)) * Cexp (- (r / a)%R * / Dz z).
Definition modez (r z : R) : C := pre z * Cexp (- (r / a)%R * / Dz z) * (Ci * kap) *
   ((- (INR (S (m + p)) * / Dz z) - INR p * / Bz z + (r / a)%R * (/ Dz z * / Dz z)) * L (vz r z) + 2 * Ci * tau z * / Nz z * vz r z * L1 (vz r z)).

Lemma der_expr r z : der (fun r : R => Cexp (- (r / a)%R * / Dz z)) r (- (/ a * / Dz z) * Cexp (- (r / a)%R * / Dz z)).
Proof.
  apply der_Cexp. eapply (der_ext (fun r : R => 0 + (- (/ a * / Dz z)) * r)).
  - intros t. unfold Rdiv. rewrite RtoC_mult, RtoC_inv by lra. ring.
  - apply der_affine.
Qed.
Lemma der_mode r z : der (fun r => mode r z) r (mode1 r z).
Proof.
  unfold mode. eapply (der_ext (fun r => pre z * (L (vz r z) * Cexp (- (r / a)%R * / Dz z)))); [intros; unfold pre; ring|].
  eapply der_eq; [apply der_scal, der_mult; [apply der_real; exact (dR_comp L (fun r => vz r z) r _ _ (dL _) (der_vz_r r z))|apply der_expr]|].
  unfold mode1. rewrite RtoC_mult. ring.
Qed.
Lemma der_mode1 r z : der (fun r => mode1 r z) r (mode2 r z).
Proof.
  unfold mode1.
  eapply (der_ext (fun r => pre z * ((((2 / (a * Nz z)) * L1 (vz r z))%R + (- (/ a * / Dz z)) * L (vz r z)) * Cexp (- (r / a)%R * / Dz z)))); [intros; ring|].
  eapply der_eq.
  { apply der_scal, der_mult; [apply der_plus; [|apply der_scal]|apply der_expr].
    - apply der_real. apply is_derive_scal. exact (dR_comp L1 (fun r => vz r z) r _ _ (dL1 _) (der_vz_r r z)).
    - apply der_real. exact (dR_comp L (fun r => vz r z) r _ _ (dL _) (der_vz_r r z)). }
  unfold mode2. rewrite !RtoC_mult, RtoC_2. ring.
Qed.
Lemma der_pre z : der pre z (pre z * (Ci * kap) * (- (INR (S (m + p)) * / Dz z) - INR p * / Bz z)).
Proof.
  pose proof (Dz_neq z) as ND. pose proof (Bz_neq z) as NB.
  unfold pre. eapply der_eq; [apply der_mult; apply der_cpow; [apply der_inv; [apply der_Dz|exact ND]|apply der_Bz]|].
  assert (E : INR p * cpow (Bz z) (pred p) = INR p * cpow (Bz z) p * / Bz z) by (rewrite <- (INR_pred_pow p (Bz z)); field; exact NB).
  rewrite E. cbn [pred]. replace (cpow (/ Dz z) (S (m + p))) with (/ Dz z * cpow (/ Dz z) (m + p)) by (cbn [cpow]; ring). field. auto.
Qed.
Lemma der_modez r z : der (fun z => mode r z) z (modez r z).
Proof.
  pose proof (Dz_neq z) as ND. pose proof (Nz_pos z) as PN. pose proof (Bz_neq z) as NB.
  unfold mode. eapply (der_ext (fun z => pre z * (L (vz r z) * Cexp (- (r / a)%R * / Dz z)))); [intros; unfold pre; ring|].
  eapply der_eq.
  { apply der_mult; [apply der_pre|]. apply der_mult.
    - apply der_real. exact (dR_comp L (fun z => vz r z) z _ _ (dL _) (der_vz_z r z)).
    - apply der_Cexp, der_scal, der_inv; [apply der_Dz|exact ND]. }
  unfold modez.
  rewrite !RtoC_mult, RtoC_opp, !RtoC_mult. unfold Rdiv at 2. rewrite (RtoC_mult _ (/ Nz z)), RtoC_inv, !RtoC_mult by lra.
  assert (RtoC (Nz z) <> 0) by (apply RtoC_neq; lra).
  match goal with |- ?l = _ => transitivity (l + pre z * Cexp (- (r / a)%R * / Dz z) * 2 * (Ci * Ci + 1) * kap * tau z * / Nz z * vz r z * L1 (vz r z)) end.
  - rewrite Ci2. ring.
  - field. auto.
Qed.
Lemma mode_eq r z : 2 * Ci * k0 * dir * modez r z + 4 * r * mode2 r z + 4 * (INR m + 1)%R * mode1 r z = 0.
Proof.
  pose proof (Dz_neq z) as ND. pose proof (Bz_neq z) as NB. pose proof (Nz_pos z) as PN. pose proof (DB z) as EN.
  assert (SD : Bz z = 2 - Dz z) by (unfold Bz, Dz; rewrite RtoC_2; ring).
  assert (ST : 2 * Ci * tau z = Dz z - Bz z) by (unfold Bz, Dz; rewrite RtoC_2; ring).
  assert (NA : RtoC a <> 0) by (apply RtoC_neq; lra).
  assert (Er : RtoC r = vz r z * a * (Dz z * Bz z) * / 2).
  { rewrite EN, <- RtoC_inv, <- !RtoC_mult by lra. f_equal. unfold vz. field. lra. }
  assert (Era : RtoC (r / a) = vz r z * (Dz z * Bz z) * / 2).
  { rewrite EN, <- RtoC_inv, <- !RtoC_mult by lra. f_equal. unfold vz. field. lra. }
  pose proof (ode (vz r z)) as O. apply (f_equal RtoC) in O. rewrite !RtoC_plus, !RtoC_mult, RtoC_minus, RtoC_plus in O.
  assert (K : 2 * Ci * k0 * dir * (Ci * kap) = - (4 * / a)).
  { transitivity (2 * (Ci * Ci) * (k0 * dir * kap)%R); [rewrite !RtoC_mult; ring|]. rewrite Ci2, Rayleigh. unfold Rdiv. rewrite RtoC_mult, RtoC_inv, RtoC_4, RtoC_2 by lra. ring. }
  unfold modez, mode2, mode1. set (E := Cexp (- (r / a)%R * / Dz z)). set (v := vz r z) in *.
  assert (C2 : RtoC (2 / (a * Nz z)) = 2 * / (a * (Dz z * Bz z))).
  { unfold Rdiv. rewrite RtoC_mult, RtoC_inv, RtoC_mult, EN by nra. reflexivity. }
  rewrite !RtoC_mult, C2, Era. rewrite ST. rewrite <- EN. rewrite Er. rewrite (RtoC_plus (INR m)). rewrite S_INR, plus_INR, !RtoC_plus.
  set (l := RtoC (L v)) in *. set (l1 := RtoC (L1 v)) in *. set (l2 := RtoC (L2 v)) in *. set (P := pre z).
  assert (N2 : RtoC 2 <> 0) by (apply RtoC_neq; lra).
  match goal with |- ?A * (?PE * ?B * ?G) + ?X + ?Y = _ => transitivity ((A * B) * (PE * G) + X + Y); [ring|] end.
  rewrite K. 
  transitivity (8 * / (a * (Dz z * Bz z)) * P * E * (v * l2 + (RtoC (INR m) + 1 - v) * l1 + RtoC (INR p) * l)).
  - rewrite SD in *. set (d := Dz z) in *. rewrite RtoC_4. replace (RtoC 8) with ((1 + 1) * ((1 + 1) * (1 + 1))) by (rewrite <- !RtoC_plus, <- !RtoC_mult; f_equal; ring).
    rewrite RtoC_2 in *. field. auto.
  - rewrite O. ring.
Qed.
Lemma mode_paraxial s : (s * s = 1)%R -> paraxial k0 dir (fun x y z => harm m s x y * mode (x ^ 2 + y ^ 2)%R z).
Proof. intros H. exact (radial_paraxial k0 dir m s mode mode1 mode2 modez H der_mode der_mode1 der_modez mode_eq). Qed.
End Mode.
