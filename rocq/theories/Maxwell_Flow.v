(** Proofs for C62: paths of fields. *)
From Verif Require Import Base Fourier_Lib Psatd_Model Psatd_Spec Psatd_Proofs Psatd_Vacuum Maxwell_Spec Maxwell_Proofs.
From Coq Require Import Reals Lra.
From Coquelicot Require Import Coquelicot.
Open Scope C_scope.

Section Consts.
Context (c mu_0 epsilon_0 : R) (Hc : (0 < c)%R) (He : (0 < epsilon_0)%R) (Hmu : (mu_0 * epsilon_0 * c ^ 2 = 1)%R).

(** A frame at rest is a Galilean frame of speed 0. *)
Lemma maxwell_std kz kr dt J E B : maxwell c epsilon_0 Standard kz kr dt J E B <-> maxwell c epsilon_0 (Galilean 0) kz kr dt J E B.
Proof.
  assert (D : forall v, drift Standard kz v = drift (Galilean 0) kz v) by (intros v; unfold drift; vec; ring).
  split; intros H t; specialize (H t); rewrite ?D in *; exact H.
Qed.
(** A comoving current is a constant current in the Galilean frame. *)
Lemma rotate k (F : R -> vec) t l : der_vec F t l ->
  der_vec (fun t => vscal (cis (k * (0 + t))) (F t)) t (vadd (vscal (Ci * k) (vscal (cis (k * (0 + t))) (F t))) (vscal (cis (k * (0 + t))) l)).
Proof. intros H. eapply dv_eq; [apply dv_scal; [apply der_cis|exact H]|]. vec; ring. Qed.
Lemma to_galilean V kz kr dt J E B : maxwell c epsilon_0 (Comoving V) kz kr dt J E B ->
  maxwell c epsilon_0 (Galilean V) kz kr dt (vscal (cis (kz * V * (dt / 2))) J)
    (fun t => vscal (cis (kz * V * (0 + t))) (E t)) (fun t => vscal (cis (kz * V * (0 + t))) (B t)).
Proof.
  intros H t. destruct (H t) as [HE HB]. cbn [drift current] in *. split.
  - eapply dv_eq; [apply rotate; exact HE|]. rewrite RtoC_mult.
    assert (X : cis (kz * V * (0 + t)) * cis (- (kz * V * (t - dt / 2))) = cis (kz * V * (dt / 2))) by (rewrite <- cis_add; f_equal; ring).
    rewrite <- X. rewrite curl_scal. vec; ring.
  - eapply dv_eq; [apply rotate; exact HB|]. rewrite RtoC_mult, curl_scal. vec; ring.
Qed.
Lemma of_galilean V kz kr dt J E B : maxwell c epsilon_0 (Galilean V) kz kr dt (vscal (cis (kz * V * (dt / 2))) J) E B ->
  maxwell c epsilon_0 (Comoving V) kz kr dt J (fun t => vscal (cis (- (kz * V) * (0 + t))) (E t)) (fun t => vscal (cis (- (kz * V) * (0 + t))) (B t)).
Proof.
  intros H t. destruct (H t) as [HE HB]. cbn [drift current] in *. split.
  - eapply dv_eq; [apply rotate; exact HE|]. rewrite RtoC_opp, RtoC_mult.
    assert (X : cis (- (kz * V) * (0 + t)) * cis (kz * V * (dt / 2)) = cis (- (kz * V * (t - dt / 2)))) by (rewrite <- cis_add; f_equal; ring).
    rewrite <- X. rewrite curl_scal. vec; ring.
  - eapply dv_eq; [apply rotate; exact HB|]. rewrite RtoC_opp, RtoC_mult, curl_scal. vec; ring.
Qed.

(** Charge: the divergence of E along a path. *)
Lemma path_charge f kz kr dt J E B : maxwell c epsilon_0 f kz kr dt J E B ->
  conserves f kz dt (epsilon_0 * div kz kr (E 0%R)) (epsilon_0 * div kz kr (E dt)) (div kz kr J).
Proof.
  intros H. exists (fun t => epsilon_0 * div kz kr (E t)). split; [reflexivity|]. split; [reflexivity|]. intros t.
  assert (e0 : RtoC epsilon_0 <> 0) by (apply RtoC_neq; lra).
  change (der (fun t => epsilon_0 * div kz kr (E t)) t (rho_rate f kz dt (div kz kr J) t (epsilon_0 * div kz kr (E t)))).
  eapply der_eq; [apply der_scal; apply d_div; exact (proj1 (H t))|]. rewrite !div_add, !div_scal, div_curl.
  assert (M : RtoC epsilon_0 * RtoC (- (1 / epsilon_0)) = - (1)) by (rewrite <- RtoC_mult, <- RtoC_opp; f_equal; field; lra).
  destruct f as [|V|V]; cbn [drift current rho_rate]; rewrite ?div_scal, ?RtoC_mult.
  - transitivity ((RtoC epsilon_0 * RtoC (- (1 / epsilon_0))) * div kz kr J); [ring|rewrite M; ring].
  - transitivity (Ci * (kz * V) * (epsilon_0 * div kz kr (E t)) + (RtoC epsilon_0 * RtoC (- (1 / epsilon_0))) * div kz kr J); [ring|rewrite M; ring].
  - transitivity ((RtoC epsilon_0 * RtoC (- (1 / epsilon_0))) * div kz kr J * cis (- (kz * V * (t - dt / 2)))); [ring|rewrite M; ring].
Qed.

Section Mode.
Context (V kz kr : R) (HV : (V ^ 2 < c ^ 2)%R) (Hk : ~ (kz = 0%R /\ kr = 0%R)).
Let w := omega c kz kr.
Let k := (kz * V)%R.
Lemma w_neq : w <> 0%R.
Proof. intros E. apply Hk. apply (omega_0 c Hc). exact E. Qed.
Lemma k2_pos : (0 < kz ^ 2 + kr ^ 2)%R.
Proof.
  pose proof (pow2_ge_0 kz). pose proof (pow2_ge_0 kr). destruct (Req_dec kz 0) as [->|N].
  - destruct (Req_dec kr 0) as [->|N]; [exfalso; apply Hk; split; reflexivity|]. pose proof (pow2_gt_0' kr N). lra.
  - pose proof (pow2_gt_0' kz N). lra.
Qed.
Lemma w2_eq : (w ^ 2 = c ^ 2 * (kz ^ 2 + kr ^ 2))%R.
Proof. apply omega_sq; lra. Qed.
Lemma wk_neq : (w ^ 2 - k ^ 2 <> 0)%R.
Proof.
  rewrite w2_eq. unfold k. pose proof k2_pos as K. pose proof (pow2_ge_0 kz). pose proof (pow2_ge_0 kr).
  replace ((kz * V) ^ 2)%R with (V ^ 2 * kz ^ 2)%R by ring. assert (V ^ 2 * kz ^ 2 <= V ^ 2 * (kz ^ 2 + kr ^ 2))%R by (apply Rmult_le_compat_l; [apply pow2_ge_0|lra]).
  assert (V ^ 2 * (kz ^ 2 + kr ^ 2) < c ^ 2 * (kz ^ 2 + kr ^ 2))%R by (apply Rmult_lt_compat_r; lra). lra.
Qed.
Lemma path_divB f dt J E B t : maxwell c epsilon_0 f kz kr dt J E B -> f = Galilean V -> div kz kr (B 0%R) = 0 -> div kz kr (B t) = 0.
Proof.
  intros H -> Z. apply (zero_stays k (fun t => div kz kr (B t))); [|exact Z]. intros x. eapply der_eq; [apply d_div; exact (proj2 (H x))|]. cbn [drift].
  rewrite div_add, !div_scal, div_curl. unfold k. rewrite RtoC_mult. ring.
Qed.
Lemma flow dt J E B : (0 < dt)%R -> maxwell c epsilon_0 (Galilean V) kz kr dt J E B -> div kz kr (B 0%R) = 0 ->
  let j := vscal (1 / epsilon_0)%R (curl kz kr J) in
  B dt = vsol_b k w (B 0%R) (curl kz kr (E 0%R)) j dt /\ curl kz kr (E dt) = vsol_e k w (B 0%R) (curl kz kr (E 0%R)) j dt.
Proof.
  intros Hd H D j. apply (vpair_unique k w B (fun t => curl kz kr (E t)) j dt w_neq wk_neq Hd).
  - intros t. eapply dv_eq; [exact (proj2 (H t))|]. cbn [drift]. unfold k. rewrite RtoC_mult. vec; rewrite ?RtoC_opp; ring.
  - intros t. eapply dv_eq; [apply dv_curl; exact (proj1 (H t))|]. cbn [drift current]. rewrite !curl_add, !curl_scal, curl_curl by exact (path_divB _ dt J E B t H eq_refl D).
    unfold j, k. rewrite w2_eq, !RtoC_opp. vec; rewrite !RtoC_mult; ring.
Qed.
Lemma flow_exists dt J E0 B0 : (0 < dt)%R -> div kz kr B0 = 0 -> exists E B, maxwell c epsilon_0 (Galilean V) kz kr dt J E B /\ E 0%R = E0 /\ B 0%R = B0.
Proof.
  intros Hd D. set (j := vscal (1 / epsilon_0)%R (curl kz kr J)).
  destruct (vpair_solves k w B0 (curl kz kr E0) j w_neq wk_neq) as (HB & HE & B00 & E00).
  set (bt := vsol_b k w B0 (curl kz kr E0) j) in *. set (et := vsol_e k w B0 (curl kz kr E0) j) in *.
  destruct (proj2 (conserves_iff (Galilean V) kz dt (epsilon_0 * div kz kr E0) _ (div kz kr J) Hd) eq_refl) as (r & r0 & _ & Hr).
  assert (e0 : RtoC epsilon_0 <> 0) by (apply RtoC_neq; lra).
  assert (M : RtoC (/ epsilon_0) * RtoC epsilon_0 = 1) by (rewrite <- RtoC_mult; f_equal; field; lra).
  assert (K : RtoC (/ (kz ^ 2 + kr ^ 2)) * RtoC (kz ^ 2 + kr ^ 2) = 1) by (rewrite <- RtoC_mult; f_equal; field; pose proof k2_pos; lra).
  assert (De : forall t, div kz kr (et t) = 0).
  { intros t. unfold et. rewrite div_vsol_e. unfold j. rewrite D, div_scal, !div_curl. unfold sol_e. ring. }
  assert (Db : forall t, div kz kr (bt t) = 0).
  { intros t. unfold bt. rewrite div_vsol_b. unfold j. rewrite D, div_scal, !div_curl. unfold sol_b. ring. }
  set (Et := fun t => vscal (/ (kz ^ 2 + kr ^ 2))%R (vadd (curl kz kr (et t)) (vscal (- (1)) (grad kz kr ((/ epsilon_0)%R * r t))))).
  assert (CE : forall t, curl kz kr (Et t) = et t).
  { intros t. unfold Et. rewrite curl_scal, curl_add, curl_scal, curl_grad, curl_curl by apply De.
    set (q := RtoC (/ (kz ^ 2 + kr ^ 2))) in *. set (k2 := RtoC (kz ^ 2 + kr ^ 2)) in *.
    transitivity (vscal (q * k2) (et t)); [vec; ring|rewrite K; apply vscal_1]. }
  exists Et, bt. split; [|split; [|exact B00]].
  - intros t. split.
    + unfold Et. eapply dv_eq; [apply dv_scal_l; apply dv_plus; [apply dv_curl; apply HE|apply dv_scal_l; apply dv_grad; apply der_scal; exact (Hr t)]|].
      cbn [drift current rho_rate]. rewrite !curl_add, !curl_scal. unfold j. rewrite curl_scal, curl_curl_grad, w2_eq.
      unfold k. rewrite !RtoC_mult. replace (RtoC (- (1 / epsilon_0))) with (- RtoC (/ epsilon_0)) by (rewrite <- RtoC_opp; f_equal; field; lra).
      replace (RtoC (1 / epsilon_0)) with (RtoC (/ epsilon_0)) by (f_equal; field; lra).
      set (q := RtoC (/ (kz ^ 2 + kr ^ 2))) in *. set (k2 := RtoC (kz ^ 2 + kr ^ 2)) in *. set (ie := RtoC (/ epsilon_0)) in *.
      replace (vscal (c ^ 2)%R (curl kz kr (bt t))) with (vscal (q * k2) (vscal (c ^ 2)%R (curl kz kr (bt t)))) by (rewrite K; apply vscal_1).
      replace (vscal (- ie) J) with (vscal (q * k2) (vscal (- ie) J)) by (rewrite K; apply vscal_1).
      unfold grad, div. vec; ring.
    + eapply dv_eq; [apply HB|]. rewrite CE. cbn [drift]. unfold k. rewrite RtoC_mult, RtoC_opp. vec; ring.
  - unfold Et. rewrite E00, r0, curl_curl_grad. set (q := RtoC (/ (kz ^ 2 + kr ^ 2))) in *. set (k2 := RtoC (kz ^ 2 + kr ^ 2)) in *.
    transitivity (vscal (q * k2) E0); [|rewrite K; apply vscal_1].
    rewrite Cmult_assoc, M. unfold grad. vec; ring.
Qed.
End Mode.
End Consts.
