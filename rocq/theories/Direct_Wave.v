From Verif Require Import Base Fourier_Lib Deposit_Model Deposit_Spec Boost_Model Decomp_Model Decomp_Proofs Hankel_Model Hankel_Spec Hankel_Proofs Psatd_Model Psatd_Spec
  Psatd_Proofs Maxwell_Spec Maxwell_Proofs Smooth_Model Smooth_Spec Smooth_Proofs Smooth_Passes Laser_Model Laser_Calc ExtField_Spec Direct_Model Direct_Spec Direct_Proofs.
From Coq Require Import Reals Lra Lia.
From Coquelicot Require Import Coquelicot.
Open Scope R_scope.

Lemma half_RtoC : RtoC 0.5 = (/ 2)%C.
Proof. replace 0.5 with (/ 2) by lra. rewrite RtoC_inv by lra. reflexivity. Qed.
Lemma RtoC_2 : (RtoC 2 = 1 + 1)%C. Proof. rewrite <- RtoC_plus. f_equal. Qed.
Lemma Ci_sq : (Ci * Ci = - (1))%C. Proof. unfold Ci, Cmult, Copp, RtoC. cbn. f_equal; ring. Qed.

Lemma back (w x : C) : w <> RtoC 0 -> x = (Ci * w * (- Ci * (1 / w) * x))%C.
Proof. intros H. transitivity (- (Ci * Ci) * x)%C; [rewrite Ci_sq; ring|field; exact H]. Qed.
Section M.
Context (cl dir f kz kr : R) (Hc : 0 < cl) (Hd : dir = 1 \/ dir = -1) (Hk : kz <> 0).
Lemma w_sq : laser_w cl dir kz kr ^ 2 = cl ^ 2 * (kz ^ 2 + kr ^ 2).
Proof.
  unfold laser_w. assert (S2 : (np_sign kz * dir) ^ 2 = 1) by (unfold np_sign; destruct Hd as [-> | ->]; destruct (Rlt_dec 0 kz); destruct (Rlt_dec kz 0); try lra; ring).
  transitivity (cl ^ 2 * sqrt (kz ^ 2 + kr ^ 2) ^ 2 * (np_sign kz * dir) ^ 2); [ring|]. rewrite S2, pow2_sqrt by nra. ring.
Qed.
Lemma w_neq : laser_w cl dir kz kr <> 0.
Proof. intros E. pose proof w_sq as Q. rewrite E in Q. assert (0 < kz ^ 2) by nra. assert (0 < cl ^ 2) by nra. assert (0 < cl ^ 2 * (kz ^ 2 + kr ^ 2)) by (apply Rmult_lt_0_compat; nra). lra. Qed.
Lemma w_dir : 0 < dir * kz * laser_w cl dir kz kr.
Proof.
  unfold laser_w, np_sign. assert (P : 0 < sqrt (kz ^ 2 + kr ^ 2)) by (apply sqrt_lt_R0; nra). assert (0 < cl * sqrt (kz ^ 2 + kr ^ 2)) by nra.
  destruct Hd as [-> | ->]; destruct (Rlt_dec 0 kz); destruct (Rlt_dec kz 0); try lra; nra.
Qed.
Lemma laser_div Ep0 Em0 : let s := laser_mode cl dir f kz kr Ep0 Em0 in div kz kr (E_six s) = RtoC 0.
Proof.
  intros s. unfold div, E_six, s, laser_mode. cbn [vp vm vz sEp sEm sEz]. destruct (Req_EM_T kz 0); [contradiction|].
  assert (RtoC kz <> 0%C) by (apply RtoC_neq; auto). rewrite RtoC_div by auto.
  transitivity (RtoC kr * (Ep0 * RtoC f - Em0 * RtoC f) * (1 + Ci * Ci))%C; [field; auto|]. rewrite Ci_sq. ring.
Qed.
(** - i w B = - curl E, c^2 curl B = - i w E *)
Lemma laser_curl Ep0 Em0 : let s := laser_mode cl dir f kz kr Ep0 Em0 in let w := laser_w cl dir kz kr in
  curl kz kr (E_six s) = vscal (Ci * w)%C (B_six s) /\ vscal (cl ^ 2)%R (curl kz kr (B_six s)) = vscal (- (Ci * w))%C (E_six s).
Proof.
  intros s w. pose proof w_neq as W. fold w in W. pose proof w_sq as Q. fold w in Q. assert (NW : RtoC w <> 0%C) by (apply RtoC_neq; auto). assert (NK : RtoC kz <> 0%C) by (apply RtoC_neq; auto).
  assert (R1 : curl kz kr (E_six s) = vscal (Ci * w)%C (B_six s)).
  { unfold curl, vscal, E_six, B_six, s, laser_mode. fold w. cbn [vp vm vz sEp sEm sEz sBp sBm sBz]. destruct (Req_EM_T kz 0); [contradiction|]. destruct (Req_EM_T w 0); [contradiction|].
    rewrite half_RtoC. rewrite !RtoC_div by (auto; lra). f_equal.
    - etransitivity; [|apply (back w _ NW)]. field. repeat split; try assumption; apply RtoC_neq; lra.
    - etransitivity; [|apply (back w _ NW)]. field. repeat split; try assumption; apply RtoC_neq; lra.
    - field. repeat split; try assumption; apply RtoC_neq; lra. }
  split; [exact R1|].
  assert (E : vscal (Ci * w)%C (vscal (cl ^ 2)%R (curl kz kr (B_six s))) = vscal (Ci * w)%C (vscal (- (Ci * w))%C (E_six s))).
  { pose proof (curl_curl_grad kz kr (E_six s)) as CC. assert (D0 : div kz kr (E_six s) = RtoC 0) by apply laser_div. rewrite D0, R1 in CC.
    assert (L : forall a v, curl kz kr (vscal a v) = vscal a (curl kz kr v)) by (intros a v; unfold curl, vscal; cbn [vp vm vz]; f_equal; ring).
    rewrite L in CC. transitivity (vscal (cl ^ 2)%R (vscal (Ci * w)%C (curl kz kr (B_six s)))); [unfold vscal; cbn [vp vm vz]; f_equal; ring|]. rewrite CC.
    assert (Q' : (RtoC w * RtoC w = RtoC (cl ^ 2) * RtoC (kz ^ 2 + kr ^ 2))%C) by (rewrite <- !RtoC_mult; f_equal; rewrite <- Q; ring).
    unfold vscal, vadd, grad. cbn [vp vm vz]. 
    assert (G : forall x y, ((RtoC (cl ^ 2) * (RtoC (kz ^ 2 + kr ^ 2) * x + y * 0)) = Ci * w * (- (Ci * w) * x))%C).
    { intros x y. transitivity ((RtoC (cl ^ 2) * RtoC (kz ^ 2 + kr ^ 2)) * x)%C; [ring|]. rewrite <- Q'. transitivity (- (Ci * Ci) * (RtoC w * RtoC w) * x)%C; [rewrite Ci_sq|]; ring. }
    f_equal; apply G. }
  assert (NC : (Ci * w)%C <> 0%C) by (apply Cmult_neq_0; [apply Ci_neq|exact NW]).
  assert (Cn : forall u v, vscal (Ci * w)%C u = vscal (Ci * w)%C v -> u = v).
  { intros [a b d] [a' b' d'] X. assert (I : forall x y, (Ci * w * x = Ci * w * y)%C -> x = y).
    { intros x y H. transitivity (/ (Ci * w) * (Ci * w * x))%C; [rewrite Cmult_assoc, Cinv_l by exact NC; ring|]. rewrite H. rewrite Cmult_assoc, Cinv_l by exact NC; ring. }
    f_equal; apply I; [exact (f_equal vp X)|exact (f_equal vm X)|exact (f_equal vz X)]. }
  apply Cn. exact E.
Qed.
Lemma laser_divB Ep0 Em0 : let s := laser_mode cl dir f kz kr Ep0 Em0 in div kz kr (B_six s) = RtoC 0.
Proof. intros s. unfold div, B_six, s, laser_mode. cbn [vp vm vz sBp sBm sBz]. set (iw := if Req_EM_T _ _ then _ else _). ring. Qed.
Lemma vscal_vscal a b v : vscal a (vscal b v) = vscal (a * b)%C v.
Proof. unfold vscal. cbn [vp vm vz]. f_equal; ring. Qed.
Lemma curl_vscal a v : curl kz kr (vscal a v) = vscal a (curl kz kr v).
Proof. unfold curl, vscal; cbn [vp vm vz]; f_equal; ring. Qed.
Lemma wave eps0 Ep0 Em0 : let s := laser_mode cl dir f kz kr Ep0 Em0 in let w := laser_w cl dir kz kr in
  forall dt, maxwell cl eps0 Standard kz kr dt {| vp := RtoC 0; vm := RtoC 0; vz := RtoC 0 |}
    (fun t => vscal (cis (- (w * t))) (E_six s)) (fun t => vscal (cis (- (w * t))) (B_six s)).
Proof.
  intros s w dt t. destruct (laser_curl Ep0 Em0) as [C1 C2]. fold s w in C1, C2.
  assert (D : der (fun t => cis (- (w * t))) t (Ci * - w * cis (- (w * t)))%C).
  { apply (der_ext (fun t => cis (- w * (0 + t)))); [intros; f_equal; ring|]. eapply der_eq; [apply (der_cis (- w) 0 t)|]. rewrite RtoC_opp. f_equal. f_equal. ring. }
  split.
  - eapply dv_eq; [apply (dv_scal_r _ _ _ _ D)|]. cbn [drift current]. rewrite curl_vscal, !vscal_vscal.
    replace (RtoC (cl ^ 2) * cis (- (w * t)))%C with (cis (- (w * t)) * RtoC (cl ^ 2))%C by ring. rewrite <- (vscal_vscal _ (RtoC (cl ^ 2))), C2, vscal_vscal.
    unfold vscal, vadd. cbn [vp vm vz]. f_equal; ring.
  - eapply dv_eq; [apply (dv_scal_r _ _ _ _ D)|]. cbn [drift current]. rewrite curl_vscal, C1, !vscal_vscal. rewrite RtoC_opp.
    unfold vscal, vadd. cbn [vp vm vz]. f_equal; ring.
Qed.
Lemma laser_flux Ep0 Em0 : let s := laser_mode cl dir f kz kr Ep0 Em0 in
  flux (E_six s) (B_six s) = kz / laser_w cl dir kz kr * Cmod (sEp s + sEm s)%C ^ 2 + (kz ^ 2 + kr ^ 2) / (kz * laser_w cl dir kz kr) * Cmod (sEp s - sEm s)%C ^ 2.
Proof.
  intros s. unfold flux, E_six, B_six, s, laser_mode. cbn [vp vm vz sEp sEm sEz sBp sBm sBz]. pose proof w_neq as W. set (w := laser_w cl dir kz kr) in *.
  destruct (Req_EM_T kz 0); [contradiction|]. destruct (Req_EM_T w 0); [contradiction|]. set (X := (Ep0 * RtoC f)%C). set (Y := (Em0 * RtoC f)%C).
  assert (NW : RtoC w <> 0%C) by (apply RtoC_neq; auto). assert (NK : RtoC kz <> 0%C) by (apply RtoC_neq; auto). assert (N2 : RtoC 2 <> 0%C) by (apply RtoC_neq; lra).
  assert (A : (Ci * (- Ci * RtoC (1 / w) * (RtoC kz * X - RtoC 0.5 * Ci * RtoC kr * (Ci * RtoC kr * (X - Y) * RtoC (1 / kz))) -
                - Ci * RtoC (1 / w) * (- RtoC kz * Y - RtoC 0.5 * Ci * RtoC kr * (Ci * RtoC kr * (X - Y) * RtoC (1 / kz)))))%C = (RtoC (kz / w) * (X + Y))%C).
  { rewrite !RtoC_div by auto. transitivity (- (Ci * Ci) * (RtoC kz / RtoC w * (X + Y)))%C; [field; auto|]. rewrite Ci_sq. ring. }
  assert (B : (- Ci * RtoC (1 / w) * (RtoC kz * X - RtoC 0.5 * Ci * RtoC kr * (Ci * RtoC kr * (X - Y) * RtoC (1 / kz))) +
                - Ci * RtoC (1 / w) * (- RtoC kz * Y - RtoC 0.5 * Ci * RtoC kr * (Ci * RtoC kr * (X - Y) * RtoC (1 / kz))))%C = (RtoC ((kz ^ 2 + kr ^ 2) / (kz * w)) * (- Ci * (X - Y)))%C).
  { rewrite half_RtoC, RtoC_2. rewrite RtoC_2 in N2. rewrite !RtoC_div by (auto; apply Rmult_integral_contrapositive_currified; auto). replace (kz ^ 2 + kr ^ 2) with (kz * kz + kr * kr) by ring. rewrite RtoC_plus, !RtoC_mult.
    transitivity (- Ci * / RtoC w * (RtoC kz - Ci * Ci * RtoC kr * RtoC kr / RtoC kz) * (X - Y))%C; [field; auto|]. rewrite Ci_sq. field; auto. }
  rewrite A, B. rewrite !Cmod2. destruct X as [a b], Y as [a' b']. set (al := kz / w). set (be := (kz ^ 2 + kr ^ 2) / (kz * w)).
  unfold Cminus, Cplus, Cmult, Cconj, Copp, Ci, RtoC, Re, Im. cbn [fst snd]. ring.
Qed.
Lemma flux_dir Ep0 Em0 : let s := laser_mode cl dir f kz kr Ep0 Em0 in 0 <= dir * flux (E_six s) (B_six s) /\
  (sEp s <> RtoC 0 \/ sEm s <> RtoC 0 -> 0 < dir * flux (E_six s) (B_six s)).
Proof.
  intros s. pose proof (laser_flux Ep0 Em0) as FX. fold s in FX. rewrite FX. clear FX. pose proof w_neq as W. pose proof w_dir as P. set (w := laser_w cl dir kz kr) in *.
  assert (A : dir * (kz / w * Cmod (sEp s + sEm s)%C ^ 2 + (kz ^ 2 + kr ^ 2) / (kz * w) * Cmod (sEp s - sEm s)%C ^ 2) =
    1 / w ^ 2 * (dir * kz * w) * (Cmod (sEp s + sEm s)%C ^ 2 + (1 + kr ^ 2 / kz ^ 2) * Cmod (sEp s - sEm s)%C ^ 2)) by (field; auto).
  rewrite A. assert (W2 : 0 < w ^ 2) by nra. assert (Q : 0 < 1 / w ^ 2 * (dir * kz * w)) by (apply Rmult_lt_0_compat; [apply Rdiv_lt_0_compat; lra|exact P]).
  assert (R : 0 <= kr ^ 2 / kz ^ 2). { apply Rdiv_le_0_compat; [apply pow2_ge_0|nra]. }
  pose proof (pow2_ge_0 (Cmod (sEp s + sEm s)%C)) as X1. pose proof (pow2_ge_0 (Cmod (sEp s - sEm s)%C)) as X2. split; [apply Rmult_le_pos; [lra|]; nra|]. intros N. apply Rmult_lt_0_compat; [exact Q|].
  assert (X : 2 * (Cmod (sEp s) ^ 2 + Cmod (sEm s) ^ 2) = Cmod (sEp s + sEm s)%C ^ 2 + Cmod (sEp s - sEm s)%C ^ 2).
  { rewrite !Cmod2. destruct (sEp s), (sEm s). unfold Cminus, Cplus, Copp, Re, Im. cbn [fst snd]. ring. }
  assert (Y : forall z : C, z <> RtoC 0 -> 0 < Cmod z ^ 2) by (intros z Hz; apply pow_lt; apply Cmod_gt_0; exact Hz).
  pose proof (pow2_ge_0 (Cmod (sEp s))). pose proof (pow2_ge_0 (Cmod (sEm s))). destruct N as [N|N]; apply Y in N; nra.
Qed.
End M.
