(** Proofs for C62: the push of the code is the solution. *)
From Verif Require Import Base Fourier_Lib Psatd_Model Psatd_Spec Psatd_Proofs Psatd_Vacuum Maxwell_Spec Maxwell_Proofs Maxwell_Flow.
From Coq Require Import Reals Lra.
From Coquelicot Require Import Coquelicot.
Open Scope C_scope.

Section Consts.
Context (c mu_0 epsilon_0 : R) (Hc : (0 < c)%R) (He : (0 < epsilon_0)%R) (Hmu : (mu_0 * epsilon_0 * c ^ 2 = 1)%R).
Let coeffs f kz kr dt := psatd_coeffs c mu_0 epsilon_0 (frame_V f) (frame_gal f) kz kr dt.
Let pushf f tr kz kr dt s := push c mu_0 epsilon_0 (coeffs f kz kr dt) tr kz kr s.

(** The push in vector notation. *)
Lemma push_vec gal V tr kz kr dt s :
  let ps := psatd_coeffs c mu_0 epsilon_0 (Some V) gal kz kr dt in
  let s' := push c mu_0 epsilon_0 ps tr kz kr s in
  B_of s' = vadd (vadd (vscal (co_T_eb ps * co_C ps) (B_of s)) (vscal (- (co_T_eb ps * co_S_w ps)) (curl kz kr (E_of s)))) (vscal (co_j ps) (curl kz kr (J_of s))) /\
  exists rd, E_of s' = vadd (vadd (vadd (vscal (co_T_eb ps * co_C ps) (E_of s)) (vscal ((c ^ 2)%R * co_T_eb ps * co_S_w ps) (curl kz kr (B_of s))))
    (vscal (co_j ps * Ci * kz * V - (c ^ 2)%R * co_T_eb ps * co_S_w ps * mu_0 * co_T_cc ps) (J_of s))) (grad kz kr rd).
Proof.
  intros ps s'. set (Te := co_T_eb ps). set (Cc := co_C ps). set (Ss := co_S_w ps). set (jj := co_j ps). set (Tc := co_T_cc ps). split.
  - unfold s', push, push_eb_with. cbn [co_V ps psatd_coeffs]. unfold push_eb_comoving. fold ps Te Cc Ss jj Tc. set (rd := if tr then _ else _).
    unfold push_rho, set_rho, set_B, set_E, B_of, E_of, J_of. cbn [Ep Em Ez Bp Bm Bz Jp Jm Jz]. rewrite half.
    vec; unfold Cdiv; ring.
  - unfold s', push, push_eb_with. cbn [co_V ps psatd_coeffs]. unfold push_eb_comoving. fold ps Te Cc Ss jj Tc. set (rd := if tr then _ else _). exists (- rd).
    unfold push_rho, set_rho, set_B, set_E, B_of, E_of, J_of. cbn [Ep Em Ez Bp Bm Bz Jp Jm Jz]. rewrite half. clearbody rd.
    set (c2 := RtoC (c ^ 2)). vec; unfold Cdiv; ring.
Qed.

Lemma mu_eps : RtoC mu_0 * (c ^ 2)%R = (1 / epsilon_0)%R.
Proof. rewrite <- RtoC_mult. f_equal. apply (Rmult_eq_reg_r epsilon_0); [|lra]. replace (1 / epsilon_0 * epsilon_0)%R with 1%R by (field; lra). lra. Qed.
Lemma Tx gal V kz dt : coef_T_eb gal kz V dt * (coef_T_cc gal kz V dt * coef_T_cc gal kz V dt) = fT (kz * V) dt.
Proof. rewrite Cmult_assoc, T2_split. reflexivity. Qed.
Lemma coef_fC kz kr dt : RtoC (coef_C c kz kr dt) = fC (omega c kz kr) dt.
Proof. reflexivity. Qed.
Lemma coef_fS kz kr dt : omega c kz kr <> 0%R -> RtoC (coef_S_w c kz kr dt) = fS (omega c kz kr) dt.
Proof. intros N. unfold coef_S_w, fS, inv_w. destruct (Req_EM_T (omega c kz kr) 0); [contradiction|]. f_equal. field. exact N. Qed.
Lemma coef_fX gal V kz kr dt : omega c kz kr <> 0%R -> (omega c kz kr ^ 2 - (kz * V) ^ 2 <> 0)%R ->
  coef_T_cc gal kz V dt * coef_j c mu_0 (Some V) gal kz kr dt = (1 / epsilon_0)%R * fX (kz * V) (omega c kz kr) dt.
Proof.
  intros N W. unfold coef_j. destruct (Req_EM_T (omega c kz kr) 0); [contradiction|].
  assert (WR : (omega c kz kr ^ 2 - kz ^ 2 * V ^ 2 = omega c kz kr ^ 2 - (kz * V) ^ 2)%R) by ring.
  destruct (Req_EM_T V 0) as [->|NV].
  - assert (T0 : coef_T_cc gal kz 0 dt = 1) by (unfold coef_T_cc; destruct gal; [reflexivity|]; rewrite Rmult_0_r, Rmult_0_l; apply cis_0).
    rewrite T0, !RtoC_mult, mu_eps. unfold fX, fT. rewrite Rmult_0_r. rewrite Rmult_0_l, cis_0, <- coef_fC.
    replace (omega c kz kr ^ 2 - 0 ^ 2)%R with (omega c kz kr ^ 2)%R by ring.
    replace (RtoC (inv_w c kz kr ^ 2)) with (RtoC (/ omega c kz kr ^ 2)); [rewrite RtoC_minus; ring|].
    f_equal. unfold inv_w. destruct (Req_EM_T (omega c kz kr) 0); [contradiction|]. field. exact N.
  - rewrite RtoC_mult, mu_eps. unfold xi_1, fX. rewrite <- coef_fC, <- coef_fS by exact N.
    replace (RtoC (inv_w_kzV c kz kr V)) with (RtoC (/ (omega c kz kr ^ 2 - (kz * V) ^ 2))).
    + change (fT (kz * V) dt) with (coef_T2 kz V dt). rewrite RtoC_mult. field. apply Tcc_neq.
    + f_equal. unfold inv_w_kzV. rewrite WR. destruct (Req_EM_T (omega c kz kr ^ 2 - (kz * V) ^ 2) 0); [contradiction|]. field. exact W.
Qed.
Lemma vsol_b_lin k w b0 e0 j t : vsol_b k w b0 e0 j t = vadd (vadd (vscal (fT k t * fC w t) b0) (vscal (- (fT k t * fS w t)) e0)) (vscal (fX k w t) j).
Proof. unfold vsol_b, sol_b. apply vec_ext; cbn [vp vm vz vadd vscal]; ring. Qed.
Lemma vsol_e_lin k w b0 e0 j t : vsol_e k w b0 e0 j t =
  vadd (vadd (vscal (fT k t * fC w t) e0) (vscal ((w ^ 2)%R * (fT k t * fS w t)) b0)) (vscal (Ci * k * fX k w t - fT k t * fS w t) j).
Proof. unfold vsol_e, sol_e. apply vec_ext; cbn [vp vm vz vadd vscal]; ring. Qed.
Lemma vscal_vscal a b v : vscal a (vscal b v) = vscal (a * b) v.
Proof. apply vec_ext; cbn [vp vm vz vscal]; ring. Qed.
Lemma vscal_vadd a u v : vscal a (vadd u v) = vadd (vscal a u) (vscal a v).
Proof. apply vec_ext; cbn [vp vm vz vscal vadd]; ring. Qed.

(** Both moving schemes, in the Galilean frame. *)
Lemma push_sol gal V tr kz kr dt s : (V ^ 2 < c ^ 2)%R -> ~ (kz = 0%R /\ kr = 0%R) -> div kz kr (B_of s) = 0 ->
  let s' := push c mu_0 epsilon_0 (psatd_coeffs c mu_0 epsilon_0 (Some V) gal kz kr dt) tr kz kr s in
  let T := coef_T_cc gal kz V dt in let j := vscal (1 / epsilon_0)%R (curl kz kr (vscal T (J_of s))) in
  vscal (T * T) (B_of s') = vsol_b (kz * V) (omega c kz kr) (B_of s) (curl kz kr (E_of s)) j dt /\
  vscal (T * T) (curl kz kr (E_of s')) = vsol_e (kz * V) (omega c kz kr) (B_of s) (curl kz kr (E_of s)) j dt.
Proof.
  intros HV Hk D. cbv zeta. pose proof (w_neq c Hc kz kr Hk) as N. pose proof (wk_neq c V kz kr HV Hk) as W.
  pose proof (coef_fX gal V kz kr dt N W) as FX. pose proof (Tx gal V kz dt) as TX. pose proof (coef_fS kz kr dt N) as FS. pose proof (coef_fC kz kr dt) as FC.
  destruct (push_vec gal V tr kz kr dt s) as [PB [rd PE]].
  cbn [psatd_coeffs co_T_eb co_C co_S_w co_j co_T_cc] in PB, PE. rewrite PB, PE. clear PB PE.
  set (Te := coef_T_eb gal kz V dt) in *. set (Tc := coef_T_cc gal kz V dt) in *. set (cj := coef_j c mu_0 (Some V) gal kz kr dt) in *.
  rewrite vsol_b_lin, vsol_e_lin, <- TX, <- FC, <- FS.
  rewrite !curl_add, !curl_scal, curl_grad, curl_curl by exact D. split.
  - rewrite !vscal_vadd, !vscal_vscal.
    assert (X1 : Tc * Tc * (Te * coef_C c kz kr dt) = Te * (Tc * Tc) * coef_C c kz kr dt) by ring.
    assert (X2 : Tc * Tc * - (Te * coef_S_w c kz kr dt) = - (Te * (Tc * Tc) * coef_S_w c kz kr dt)) by ring. rewrite X1, X2. f_equal. f_equal.
    transitivity (Tc * (Tc * cj)); [ring|]. rewrite FX. ring.
  - rewrite !vscal_vadd, !vscal_vscal, (w2_eq c).
    transitivity (vadd (vadd (vscal (Tc * Tc * (Te * coef_C c kz kr dt)) (curl kz kr (E_of s)))
       (vscal (Tc * Tc * ((c ^ 2)%R * Te * coef_S_w c kz kr dt * (kz ^ 2 + kr ^ 2)%R)) (B_of s)))
       (vscal (Tc * Tc * (cj * Ci * kz * V - (c ^ 2)%R * Te * coef_S_w c kz kr dt * mu_0 * Tc)) (curl kz kr (J_of s)))).
    { apply vec_ext; cbn [vp vm vz vscal vadd v0]; ring. }
    assert (X1 : Tc * Tc * (Te * coef_C c kz kr dt) = Te * (Tc * Tc) * coef_C c kz kr dt) by ring.
    assert (X2 : Tc * Tc * ((c ^ 2)%R * Te * coef_S_w c kz kr dt * (kz ^ 2 + kr ^ 2)%R) = (c ^ 2 * (kz ^ 2 + kr ^ 2))%R * (Te * (Tc * Tc) * coef_S_w c kz kr dt))
      by (rewrite (RtoC_mult (c ^ 2)); ring).
    rewrite X1, X2. f_equal. f_equal.
    transitivity (Tc * (Tc * cj) * Ci * kz * V - (RtoC mu_0 * (c ^ 2)%R) * (Te * (Tc * Tc) * coef_S_w c kz kr dt) * Tc); [ring|].
    rewrite FX, mu_eps, RtoC_mult. ring.
Qed.
Lemma Tcc2_neq gal kz V dt : coef_T_cc gal kz V dt * coef_T_cc gal kz V dt <> 0.
Proof. apply Cmult_neq_0; apply Tcc_neq. Qed.
Lemma vscal_inj (a : C) u v : a <> 0 -> vscal a u = vscal a v -> u = v.
Proof.
  intros N H. assert (A : forall x, x = vscal (/ a) (vscal a x)) by (intros x; rewrite vscal_vscal; apply vec_ext; cbn [vp vm vz vscal]; field; exact N).
  rewrite (A u), H. symmetry. apply A.
Qed.

(** A path of a moving scheme, in the Galilean frame. *)
Lemma path_gal gal V kz kr dt J E B : maxwell c epsilon_0 (moving gal V) kz kr dt J E B ->
  let T := coef_T_cc gal kz V dt in
  exists E1 B1, maxwell c epsilon_0 (Galilean V) kz kr dt (vscal T J) E1 B1 /\ E1 0%R = E 0%R /\ B1 0%R = B 0%R /\
    E1 dt = vscal (T * T) (E dt) /\ B1 dt = vscal (T * T) (B dt).
Proof.
  intros H T. unfold T, coef_T_cc. destruct gal.
  - exists E, B. rewrite vscal_1. split; [exact H|]. replace (RtoC 1 * 1) with (RtoC 1) by ring. rewrite !vscal_1. repeat split.
  - apply to_galilean in H. replace (kz * V * (dt / 2))%R with (0.5 * kz * V * dt)%R in H by lra.
    eexists _, _. split; [exact H|]. cbn beta. rewrite Rplus_0_l, Rmult_0_r, cis_0, !vscal_1. repeat split; rewrite Tsq, Rplus_0_l; reflexivity.
Qed.
Lemma gal_path gal V kz kr dt J E B : maxwell c epsilon_0 (Galilean V) kz kr dt (vscal (coef_T_cc gal kz V dt) J) E B ->
  exists E1 B1, maxwell c epsilon_0 (moving gal V) kz kr dt J E1 B1 /\ E1 0%R = E 0%R /\ B1 0%R = B 0%R.
Proof.
  intros H. unfold coef_T_cc in H. destruct gal.
  - rewrite vscal_1 in H. exists E, B. split; [exact H|split; reflexivity].
  - replace (0.5 * kz * V * dt)%R with (kz * V * (dt / 2))%R in H by lra. apply of_galilean in H.
    eexists _, _. split; [exact H|]. cbn beta. rewrite Rplus_0_l, Rmult_0_r, cis_0, !vscal_1. repeat split.
Qed.

(** kz = kr = 0 *)
Lemma zero_mode f dt J E B t : maxwell c epsilon_0 f 0 0 dt J E B ->
  E t = vadd (E 0%R) (vscal (- (t / epsilon_0))%R J) /\ B t = B 0%R.
Proof.
  intros H.
  assert (D : forall v, drift f 0 v = v0) by (intros v; destruct f; cbn [drift]; apply vec_ext; cbn [vscal vp vm vz v0]; ring).
  assert (K : forall v, curl 0 0 v = v0) by (intros v; unfold curl, v0; f_equal; unfold Cdiv; ring).
  assert (CJ : forall t, current f 0 dt J t = J).
  { intros x. destruct f; cbn [current]; auto. rewrite !Rmult_0_l, Ropp_0, cis_0. apply vscal_1. }
  assert (DB : forall t, der_vec B t v0). { intros x. eapply dv_eq; [exact (proj2 (H x))|]. rewrite D, K. apply vec_ext; cbn [vscal vadd vp vm vz v0]; ring. }
  assert (DE : forall t, der_vec E t (vscal (- (1 / epsilon_0))%R J)).
  { intros x. eapply dv_eq; [exact (proj1 (H x))|]. rewrite D, K, CJ. apply vec_ext; cbn [vscal vadd vp vm vz v0]; ring. }
  assert (DL : forall x, der_vec (fun t => vadd (E t) (vscal (t / epsilon_0)%R J)) x v0).
  { intros x. eapply dv_eq; [apply dv_plus; [apply DE|apply dv_scal_r; apply (der_real (fun t => (t / epsilon_0)%R) x (1 / epsilon_0)%R); auto_derive; auto; field; lra]|].
    rewrite RtoC_opp. apply vec_ext; cbn [vscal vadd vp vm vz v0]; ring. }
  assert (U : forall F : R -> vec, (forall x, der_vec F x v0) -> F t = F 0%R).
  { intros F HF. apply vec_ext; [apply (der_0_all (fun t => vp (F t)) t); intros x; exact (proj1 (HF x))|
      apply (der_0_all (fun t => vm (F t)) t); intros x; exact (proj1 (proj2 (HF x)))|
      apply (der_0_all (fun t => vz (F t)) t); intros x; exact (proj2 (proj2 (HF x)))]. }
  split; [|apply U; exact DB]. specialize (U _ DL). cbn beta in U.
  assert (Z : RtoC (0 / epsilon_0) = 0) by (f_equal; field; lra). rewrite Z in U.
  rewrite RtoC_opp. apply vec_ext; [apply (f_equal vp) in U|apply (f_equal vm) in U|apply (f_equal vz) in U]; cbn [vscal vadd vp vm vz] in U |- *.
  - replace (vp (E t)) with (vp (E t) + RtoC (t / epsilon_0) * vp J - RtoC (t / epsilon_0) * vp J) by ring. rewrite U. ring.
  - replace (vm (E t)) with (vm (E t) + RtoC (t / epsilon_0) * vm J - RtoC (t / epsilon_0) * vm J) by ring. rewrite U. ring.
  - replace (vz (E t)) with (vz (E t) + RtoC (t / epsilon_0) * vz J - RtoC (t / epsilon_0) * vz J) by ring. rewrite U. ring.
Qed.
Lemma zero_exists f dt J E0 B0 : exists E B, maxwell c epsilon_0 f 0 0 dt J E B /\ E 0%R = E0 /\ B 0%R = B0.
Proof.
  exists (fun t => vadd E0 (vscal (- (t / epsilon_0))%R J)), (fun _ => B0).
  assert (D : forall v, drift f 0 v = v0) by (intros v; destruct f; cbn [drift]; apply vec_ext; cbn [vscal vp vm vz v0]; ring).
  assert (K : forall v, curl 0 0 v = v0) by (intros v; unfold curl, v0; f_equal; unfold Cdiv; ring).
  assert (CJ : forall t, current f 0 dt J t = J).
  { intros x. destruct f; cbn [current]; auto. rewrite !Rmult_0_l, Ropp_0, cis_0. apply vscal_1. }
  split; [|split; [|reflexivity]].
  - intros t. rewrite !D, !K, CJ. split.
    + eapply dv_eq; [apply dv_plus; [apply dv_const|apply dv_scal_r; apply (der_real (fun t => (- (t / epsilon_0))%R) t (- (1 / epsilon_0))%R); auto_derive; auto; field; lra]|].
      apply vec_ext; cbn [vscal vadd vp vm vz v0]; ring.
    + eapply dv_eq; [apply dv_const|]. apply vec_ext; cbn [vscal vadd vp vm vz v0]; ring.
  - replace (RtoC (- (0 / epsilon_0))) with (RtoC 0) by (f_equal; field; lra). apply vec_ext; cbn [vscal vadd vp vm vz]; ring.
Qed.
Lemma push_zero gal V tr dt s :
  let s' := push c mu_0 epsilon_0 (psatd_coeffs c mu_0 epsilon_0 (Some V) gal 0 0 dt) tr 0 0 s in
  E_of s' = vadd (E_of s) (vscal (- (dt / epsilon_0))%R (J_of s)) /\ B_of s' = B_of s.
Proof.
  assert (K : forall v, curl 0 0 v = v0) by (intros v; unfold curl, v0; f_equal; unfold Cdiv; ring).
  assert (W : omega c 0 0 = 0%R) by (unfold omega; replace (0 ^ 2 + 0 ^ 2)%R with 0%R by ring; rewrite sqrt_0; ring).
  destruct (push_vec gal V tr 0 0 dt s) as [PB [rd PE]]. cbv zeta. rewrite PB, PE, !K. cbn [psatd_coeffs co_T_eb co_C co_S_w co_j co_T_cc].
  assert (T1 : coef_T_eb gal 0 V dt = 1) by (unfold coef_T_eb, coef_T2; destruct gal; [rewrite !Rmult_0_l; apply cis_0|reflexivity]).
  assert (T2 : coef_T_cc gal 0 V dt = 1) by (unfold coef_T_cc; destruct gal; [reflexivity|]; rewrite Rmult_0_r, !Rmult_0_l; apply cis_0).
  assert (C1 : coef_C c 0 0 dt = 1%R) by (unfold coef_C; rewrite W, Rmult_0_l; apply cos_0).
  assert (S1 : coef_S_w c 0 0 dt = dt) by (unfold coef_S_w; destruct (Req_EM_T (omega c 0 0) 0); [reflexivity|contradiction]).
  rewrite T1, T2, C1, S1. split; [|apply vec_ext; cbn [vscal vadd vp vm vz v0]; ring].
  assert (M : RtoC (- (dt / epsilon_0)) = - ((RtoC mu_0 * (c ^ 2)%R) * dt)) by (rewrite mu_eps, <- RtoC_mult, <- RtoC_opp; f_equal; field; lra).
  rewrite M. unfold grad. apply vec_ext; cbn [vscal vadd vp vm vz v0]; unfold Cdiv; ring.
Qed.

Lemma zero_dec (kz kr : R) : (kz = 0%R /\ kr = 0%R) \/ ~ (kz = 0%R /\ kr = 0%R).
Proof. destruct (Req_dec kz 0), (Req_dec kr 0); tauto. Qed.
Lemma push_exact_moving gal V tr kz kr dt s E' B' : (0 < dt)%R -> (V ^ 2 < c ^ 2)%R -> ~ resonant (moving gal V) kz dt ->
  gauss epsilon_0 kz kr s -> div kz kr (B_of s) = 0 -> conserves (moving gal V) kz dt (rho_prev s) (rho_next s) (div kz kr (J_of s)) ->
  evolves c epsilon_0 (moving gal V) kz kr dt (J_of s) (E_of s) (B_of s) E' B' ->
  let s' := pushf (moving gal V) tr kz kr dt s in E' = E_of s' /\ B' = B_of s'.
Proof.
  intros Hd HV NR G D Q (Et & Bt & M & E0 & B0 & E1 & B1) s'.
  assert (CF : coeffs (moving gal V) kz kr dt = psatd_coeffs c mu_0 epsilon_0 (Some V) gal kz kr dt) by (unfold coeffs; destruct gal; reflexivity).
  destruct (zero_dec kz kr) as [[Zz Zr]|Hk].
  - subst kz kr. destruct (zero_mode _ _ _ _ _ dt M) as [X Y]. unfold s', pushf. rewrite CF. destruct (push_zero gal V tr dt s) as [P R]. rewrite P, R, <- E1, <- B1, X, Y, E0, B0. auto.
  - pose proof (path_charge c epsilon_0 He _ _ _ _ _ _ _ M) as PC.
    destruct (path_gal _ _ _ _ _ _ _ _ M) as (Eg & Bg & Mg & Eg0 & Bg0 & Eg1 & Bg1). rewrite <- Bg0 in B0. rewrite <- Eg0 in E0.
    destruct (flow c epsilon_0 Hc V kz kr HV Hk dt _ Eg Bg Hd Mg) as [FB FE]; [rewrite B0; exact D|].
    destruct (push_sol gal V tr kz kr dt s HV Hk D) as [SB SE]. unfold s', pushf. rewrite CF.
    rewrite E0, B0 in FB, FE. split.
    + apply (vec_determined kz kr); [exact Hk| |].
      * apply (vscal_inj _ _ _ (Tcc2_neq gal kz V dt)). rewrite SE, <- FE, Eg1, curl_scal, E1. reflexivity.
      * rewrite Eg0 in E0. rewrite E0, E1 in PC.
        pose proof (gauss_push c mu_0 epsilon_0 Hc He Hmu (moving gal V) kz kr dt tr s Hd) as GP. rewrite speed_moving in GP. specialize (GP HV NR G Q).
        fold (coeffs (moving gal V) kz kr dt) in GP. rewrite CF in GP. unfold gauss in GP, G. rewrite GP.
        rewrite push_rho_prev. apply (proj1 (conserves_iff _ _ _ _ _ _ Hd)) in PC. apply (proj1 (conserves_iff _ _ _ _ _ _ Hd)) in Q.
        assert (e0 : RtoC epsilon_0 <> 0) by (apply RtoC_neq; lra).
        rewrite Q. replace (rho_prev s) with (epsilon_0 * div kz kr (E_of s)) by (rewrite G; field; exact e0). rewrite <- PC. field. exact e0.
    + apply (vscal_inj _ _ _ (Tcc2_neq gal kz V dt)). rewrite SB, <- FB, Bg1, B1. reflexivity.
Qed.
Lemma evolves_std kz kr dt J E B E' B' : evolves c epsilon_0 Standard kz kr dt J E B E' B' <-> evolves c epsilon_0 (moving true 0) kz kr dt J E B E' B'.
Proof.
  split; intros (Et & Bt & M & H); exists Et, Bt; (split; [|exact H]).
  - exact (proj1 (maxwell_std c epsilon_0 kz kr dt J Et Bt) M).
  - exact (proj2 (maxwell_std c epsilon_0 kz kr dt J Et Bt) M).
Qed.
Lemma push_exact f tr kz kr dt s E' B' : (0 < dt)%R -> (speed f ^ 2 < c ^ 2)%R -> ~ resonant f kz dt ->
  gauss epsilon_0 kz kr s -> div kz kr (B_of s) = 0 -> conserves f kz dt (rho_prev s) (rho_next s) (div kz kr (J_of s)) ->
  evolves c epsilon_0 f kz kr dt (J_of s) (E_of s) (B_of s) E' B' ->
  let s' := pushf f tr kz kr dt s in E' = E_of s' /\ B' = B_of s'.
Proof.
  intros Hd. pattern f; apply frame_cases; clear f.
  - intros HV NR G D Q M. pose proof (proj1 (evolves_std _ _ _ _ _ _ _ _) M) as M'. pose proof (proj2 (conserves_V0 true _ _ _ _ _ Hd) Q) as Q'.
    unfold pushf, coeffs. cbn [frame_V frame_gal]. rewrite <- (push_V0 c mu_0 epsilon_0 true).
    apply (push_exact_moving true 0); auto.
  - intros gal V. rewrite speed_moving. apply push_exact_moving. exact Hd.
Qed.
Lemma solution f kz kr dt J E B : (0 < dt)%R -> (speed f ^ 2 < c ^ 2)%R -> div kz kr B = 0 -> exists E' B', evolves c epsilon_0 f kz kr dt J E B E' B'.
Proof.
  intros Hd. assert (A : forall gal V, (V ^ 2 < c ^ 2)%R -> div kz kr B = 0 -> exists E' B', evolves c epsilon_0 (moving gal V) kz kr dt J E B E' B').
  { intros gal V HV D. destruct (zero_dec kz kr) as [[-> ->]|Hk].
    - destruct (zero_exists (moving gal V) dt J E B) as (Et & Bt & M & E0 & B0). exists (Et dt), (Bt dt), Et, Bt. auto.
    - destruct (flow_exists c epsilon_0 Hc He V kz kr HV Hk dt (vscal (coef_T_cc gal kz V dt) J) E B Hd D) as (Eg & Bg & M & Eg0 & Bg0).
      destruct (gal_path gal V kz kr dt J Eg Bg M) as (Et & Bt & Mt & E0 & B0). exists (Et dt), (Bt dt), Et, Bt. rewrite E0, B0. auto. }
  pattern f; apply frame_cases; clear f.
  - cbn [speed]. intros HV D. destruct (A true 0%R) as (E' & B' & X); [lra|exact D|]. exists E', B'. exact (proj2 (evolves_std _ _ _ _ _ _ _ _) X).
  - intros gal V. rewrite speed_moving. apply A.
Qed.
Lemma push_iff f tr kz kr dt s E' B' : (0 < dt)%R -> (speed f ^ 2 < c ^ 2)%R -> ~ resonant f kz dt ->
  gauss epsilon_0 kz kr s -> div kz kr (B_of s) = 0 -> conserves f kz dt (rho_prev s) (rho_next s) (div kz kr (J_of s)) ->
  let s' := pushf f tr kz kr dt s in
  evolves c epsilon_0 f kz kr dt (J_of s) (E_of s) (B_of s) E' B' <-> E' = E_of s' /\ B' = B_of s'.
Proof.
  intros Hd HV NR G D Q s'. split; [apply push_exact; assumption|].
  intros [-> ->]. destruct (solution f kz kr dt (J_of s) (E_of s) (B_of s) Hd HV D) as (E1 & B1 & X).
  destruct (push_exact f tr kz kr dt s E1 B1 Hd HV NR G D Q X) as [a b]. fold s' in a, b. rewrite <- a, <- b. exact X.
Qed.
(** The charge densities are not read when they are not used. *)
Definition with_rho (s : mode) (p n : C) : mode := set_rho s p n (rho_next_z s) (rho_next_xy s).
Lemma push_without_rho ps kz kr s p n : E_of (push c mu_0 epsilon_0 ps false kz kr s) = E_of (push c mu_0 epsilon_0 ps false kz kr (with_rho s p n)) /\
  B_of (push c mu_0 epsilon_0 ps false kz kr s) = B_of (push c mu_0 epsilon_0 ps false kz kr (with_rho s p n)).
Proof. unfold push, push_eb_with. destruct (co_V ps); split; reflexivity. Qed.
Lemma push_iff_no_rho f kz kr dt s E' B' : (0 < dt)%R -> (speed f ^ 2 < c ^ 2)%R -> ~ resonant f kz dt -> div kz kr (B_of s) = 0 ->
  let s' := pushf f false kz kr dt s in
  evolves c epsilon_0 f kz kr dt (J_of s) (E_of s) (B_of s) E' B' <-> E' = E_of s' /\ B' = B_of s'.
Proof.
  intros Hd HV NR D s'. set (p := epsilon_0 * div kz kr (E_of s)). set (n := Teb f kz dt * p + Trho f kz dt * div kz kr (J_of s)).
  destruct (push_without_rho (coeffs f kz kr dt) kz kr s p n) as [X Y]. unfold s', pushf. rewrite X, Y.
  apply (push_iff f false kz kr dt (with_rho s p n) E' B' Hd HV NR); [|exact D|].
  - unfold gauss. change (E_of (with_rho s p n)) with (E_of s). change (rho_prev (with_rho s p n)) with p. unfold p. field. apply RtoC_neq. lra.
  - apply conserves_iff; [exact Hd|]. reflexivity.
Qed.

(** Maxwell's equations preserve Gauss' law. *)
Lemma evolves_gauss f kz kr dt s s' : (0 < dt)%R -> gauss epsilon_0 kz kr s -> conserves f kz dt (rho_prev s) (rho_prev s') (div kz kr (J_of s)) ->
  evolves c epsilon_0 f kz kr dt (J_of s) (E_of s) (B_of s) (E_of s') (B_of s') -> gauss epsilon_0 kz kr s'.
Proof.
  intros Hd G Q (Et & Bt & M & E0 & _ & E1 & _). pose proof (path_charge c epsilon_0 He _ _ _ _ _ _ _ M) as PC. rewrite E0, E1 in PC.
  apply (proj1 (conserves_iff _ _ _ _ _ _ Hd)) in PC. apply (proj1 (conserves_iff _ _ _ _ _ _ Hd)) in Q. unfold gauss in *.
  assert (e0 : RtoC epsilon_0 <> 0) by (apply RtoC_neq; lra). rewrite Q, <- (Cmult_1_l (div kz kr (E_of s'))).
  replace (rho_prev s) with (epsilon_0 * div kz kr (E_of s)) by (rewrite G; field; exact e0). rewrite <- PC. field. exact e0.
Qed.

(** Several iterations. *)
Lemma steps_exact f cc tr kz kr dt xs : (0 < dt)%R -> (speed f ^ 2 < c ^ 2)%R -> ~ resonant f kz dt ->
  forall s s' E' B', gauss epsilon_0 kz kr s -> div kz kr (B_of s) = 0 -> all_conserve f kz kr dt (rho_prev s) xs ->
  field_steps c mu_0 epsilon_0 (coeffs f kz kr dt) cc tr false false kz kr xs s = Ok s' ->
  evolves_all c epsilon_0 f kz kr dt xs (E_of s) (B_of s) E' B' <-> E' = E_of s' /\ B' = B_of s'.
Proof.
  intros Hd HV NR. induction xs as [|x xs IH]; intros s s' E' B' G D Q R.
  - cbn in R. injection R as <-. cbn. tauto.
  - cbn [field_steps] in R. rewrite field_step_nodiv in R. cbn [bind] in R. set (s1 := step_state c mu_0 epsilon_0 (coeffs f kz kr dt) cc tr false kz kr x s) in *.
    destruct Q as [Q Qs]. set (sl := load_sources x s).
    assert (S1 : s1 = pushf f tr kz kr dt sl) by reflexivity.
    assert (Gl : gauss epsilon_0 kz kr sl) by exact G. assert (Dl : div kz kr (B_of sl) = 0) by exact D.
    assert (Ql : conserves f kz dt (rho_prev sl) (rho_next sl) (div kz kr (J_of sl))) by exact Q.
    assert (G1 : gauss epsilon_0 kz kr s1) by (rewrite S1; apply (gauss_push c mu_0 epsilon_0 Hc He Hmu); assumption).
    assert (D1 : div kz kr (B_of s1) = 0) by (rewrite S1; unfold pushf; destruct (push_divB c mu_0 epsilon_0 (coeffs f kz kr dt) tr kz kr sl) as [l ->]; rewrite Dl; ring).
    assert (R1 : rho_prev s1 = s_rho x) by apply step_state_rho. rewrite <- R1 in Qs.
    specialize (IH s1 s' E' B' G1 D1 Qs R). cbn [evolves_all].
    rewrite <- IH. split.
    + intros (E1 & B1 & X & Y). apply (push_iff f tr kz kr dt sl E1 B1 Hd HV NR Gl Dl Ql) in X. destruct X as [-> ->]. rewrite S1. exact Y.
    + intros Y. exists (E_of s1), (B_of s1). split; [|exact Y]. apply (push_iff f tr kz kr dt sl _ _ Hd HV NR Gl Dl Ql). rewrite S1. auto.
Qed.
End Consts.
