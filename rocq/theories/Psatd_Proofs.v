(** Proofs for C32-C37. *)
From Verif Require Import Base Fourier_Lib Psatd_Model Psatd_Spec.
From Coq Require Import Reals Lra.
From Coquelicot Require Import Coquelicot.
Open Scope C_scope.

Lemma Ci2 : Ci * Ci = - (1).
Proof. unfold Ci, Cmult, Copp, RtoC; simpl. f_equal; ring. Qed.
Lemma Ci_neq : Ci <> 0.
Proof. intros H. injection H. lra. Qed.
Lemma half : RtoC 0.5 = 1 / 2.
Proof. rewrite <- RtoC_div by lra. f_equal. lra. Qed.
Lemma half2 : 1 / 2 + 1 / 2 = 1.
Proof. rewrite <- RtoC_div by lra. rewrite <- RtoC_plus. f_equal. lra. Qed.
Lemma pow2_gt_0' r : r <> 0%R -> (0 < r ^ 2)%R.
Proof. intros H. rewrite <- Rsqr_pow2. apply Rsqr_pos_lt. auto. Qed.
Lemma RtoC_neq r : r <> 0%R -> RtoC r <> 0.
Proof. intros H E. apply H. injection E. auto. Qed.

Ltac open_mode := cbn -[Cmult Cplus Cminus Copp Ci RtoC Cdiv Cinv cis].

Section Const.
Context (c mu_0 epsilon_0 : R).

(** C32 *)
Lemma push_divB ps tr kz kr s :
  exists l : C, div kz kr (B_of (push c mu_0 epsilon_0 ps tr kz kr s)) = l * div kz kr (B_of s).
Proof.
  unfold push, push_rho, push_eb_with. destruct (co_V ps).
  - exists (co_T_eb ps * co_C ps). unfold push_eb_comoving, div, B_of; open_mode. ring [Ci2].
  - exists (co_C ps). unfold push_eb_standard, div, B_of; open_mode. ring [Ci2].
Qed.

(** The charge used by the push to evaluate E. *)
Definition rho_diff_std (ps : coefs) (tr : bool) (kz kr : R) (s : mode) : C :=
  if tr then co_rho_next ps * rho_next s - co_rho_prev ps * rho_prev s
  else (co_rho_next ps - co_rho_prev ps) * epsilon_0 * div kz kr (E_of s) - co_rho_next ps * co_dt ps * div kz kr (J_of s).
Definition rho_diff_com (ps : coefs) (tr : bool) (kz kr : R) (s : mode) : C :=
  if tr then co_rho_next ps * rho_next s - co_rho_prev ps * rho_prev s
  else (co_T_eb ps * co_rho_next ps - co_rho_prev ps) * epsilon_0 * div kz kr (E_of s)
       + co_T_rho ps * co_rho_next ps * div kz kr (J_of s).

Lemma divE_std ps tr kz kr s :
  div kz kr (E_of (push_eb_standard c mu_0 epsilon_0 ps tr kz kr s)) =
  co_C ps * div kz kr (E_of s) + (kz * kz + kr * kr) * rho_diff_std ps tr kz kr s
  - RtoC (c ^ 2) * mu_0 * co_S_w ps * div kz kr (J_of s).
Proof.
  unfold push_eb_standard, rho_diff_std, div, E_of, J_of; open_mode. rewrite half.
  set (rd := if tr then _ else _). 
  generalize half2; generalize (1 / 2). intros h Hh.
  match goal with |- ?a = ?b => replace a with (a - (h + h - 1) * (kr * kr * rd)) end.
  2:{ rewrite Hh. ring. }
  ring [Ci2].
Qed.
Lemma divE_com ps V tr kz kr s :
  div kz kr (E_of (push_eb_comoving c mu_0 epsilon_0 ps V tr kz kr s)) =
  co_T_eb ps * co_C ps * div kz kr (E_of s) + (kz * kz + kr * kr) * rho_diff_com ps tr kz kr s
  + (co_j ps * Ci * kz * V - RtoC (c ^ 2) * mu_0 * co_T_eb ps * co_T_cc ps * co_S_w ps) * div kz kr (J_of s).
Proof.
  unfold push_eb_comoving, rho_diff_com, div, E_of, J_of; open_mode. rewrite half.
  set (rd := if tr then _ else _). 
  generalize half2; generalize (1 / 2). intros h Hh.
  match goal with |- ?a = ?b => replace a with (a - (h + h - 1) * (kr * kr * rd)) end.
  2:{ rewrite Hh. ring. }
  ring [Ci2].
Qed.

End Const.

(** The continuity equation over one step, integrated. *)
Definition Teb (f : frame) (kz dt : R) : C :=
  match f with Standard => 1 | Galilean V => coef_T_eb true kz V dt | Comoving V => coef_T_eb false kz V dt end.
Definition Tcc (f : frame) (kz dt : R) : C :=
  match f with Standard => 1 | Galilean V => coef_T_cc true kz V dt | Comoving V => coef_T_cc false kz V dt end.
Definition Trho (f : frame) (kz dt : R) : C :=
  match f with Standard => RtoC (- dt) | Galilean V => coef_T_rho true kz V dt | Comoving V => coef_T_rho false kz V dt end.

Lemma const_of_derive0 (f : R -> R) (dt : R) : (0 < dt)%R -> (forall t, is_derive f t 0%R) -> f dt = f 0%R.
Proof. intros H D. symmetry. apply eq_is_derive; auto. Qed.

(** P(t) = int_0^t exp(-i k s) ds *)
Definition Pint (k t : R) : C :=
  if Req_EM_T k 0 then RtoC t else (sin (k * t) / k, (cos (k * t) - 1) / k)%R.
Lemma Pint_0 k : Pint k 0 = 0.
Proof.
  unfold Pint. destruct (Req_EM_T k 0); auto. rewrite Rmult_0_r, sin_0, cos_0. unfold RtoC. f_equal; field; auto.
Qed.
Lemma Pint_re k t : is_derive (fun t => Re (Pint k t)) t (cos (k * t)).
Proof.
  unfold Pint, Re; destruct (Req_EM_T k 0) as [->|H]; simpl.
  - rewrite Rmult_0_l, cos_0. auto_derive; auto.
  - auto_derive; auto. field; auto.
Qed.
Lemma Pint_im k t : is_derive (fun t => Im (Pint k t)) t (- sin (k * t))%R.
Proof.
  unfold Pint, Im; destruct (Req_EM_T k 0) as [->|H]; simpl.
  - rewrite Rmult_0_l, sin_0, Ropp_0. auto_derive; auto.
  - auto_derive; auto. field; auto.
Qed.
Lemma Pint_val k t : k <> 0%R -> Ci * k * Pint k t = 1 - cis (- (k * t)).
Proof.
  intros H. unfold Pint. destruct (Req_EM_T k 0); [tauto|]. unfold cis, Ci, Cmult, Cminus, Cplus, Copp, RtoC; simpl.
  rewrite cos_neg, sin_neg. f_equal; field; auto.
Qed.

Lemma derive_pair (a b : R -> R) (la lb : R -> R) (x y u v : R -> R) dt :
  (0 < dt)%R -> (forall t, is_derive a t (la t)) -> (forall t, is_derive b t (lb t)) ->
  (forall t, is_derive u t (x t)) -> (forall t, is_derive v t (y t)) ->
  forall k p q : R,
  (forall t, - k * sin (k * t) * a t + cos (k * t) * la t + (k * cos (k * t) * b t + sin (k * t) * lb t) + (p * x t - q * y t) = 0)%R ->
  (cos (k * dt) * a dt + sin (k * dt) * b dt + (p * u dt - q * v dt) = a 0 + (p * u 0 - q * v 0))%R.
Proof.
  intros Hdt Da Db Du Dv k p q H.
  pose (g := fun t : R => (cos (k * t) * a t + sin (k * t) * b t + (p * u t - q * v t))%R).
  assert (E : g dt = g 0%R).
  { apply const_of_derive0; auto. intros t. unfold g. auto_derive.
    - repeat split; auto; eexists; eauto.
    - replace (Derive (fun x => a x) t) with (la t) by (symmetry; apply is_derive_unique; apply Da).
      replace (Derive (fun x => b x) t) with (lb t) by (symmetry; apply is_derive_unique; apply Db).
      replace (Derive (fun x => u x) t) with (x t) by (symmetry; apply is_derive_unique; apply Du).
      replace (Derive (fun x => v x) t) with (y t) by (symmetry; apply is_derive_unique; apply Dv).
      rewrite <- (H t). ring. }
  unfold g in E. rewrite E. rewrite !Rmult_0_r, cos_0, sin_0. ring.
Qed.

Lemma galilean_int kz V dt rp rn dJ : (0 < dt)%R -> conserves (Galilean V) kz dt rp rn dJ ->
  cis (- (kz * V * dt)) * rn + dJ * Pint (kz * V) dt = rp.
Proof.
  intros Hdt (r & H0 & H1 & D). set (k := (kz * V)%R) in *.
  pose proof (fun t => proj1 (D t)) as DR. pose proof (fun t => proj2 (D t)) as DI.
  pose proof (Pint_re k) as PR. pose proof (Pint_im k) as PI'.
  pose proof (derive_pair _ _ _ _ _ _ _ _ _ Hdt DR DI PR PI' k (Re dJ) (Im dJ)) as ER.
  assert (DN : forall t, is_derive (fun t => - Re (r t))%R t (- Re (rho_rate (Galilean V) kz dt dJ t (r t)))%R).
  { intros t. exact (is_derive_opp _ _ _ (DR t)). }
  pose proof (derive_pair _ _ _ _ _ _ _ _ _ Hdt DI DN PI' PR k (Re dJ) (- Im dJ)%R) as EI.
  cbv beta in ER, EI.
  assert (E1 : (cos (k * dt) * Re (r dt) + sin (k * dt) * Im (r dt) + (Re dJ * Re (Pint k dt) - Im dJ * Im (Pint k dt)) = Re (r 0%R))%R).
  { rewrite ER.
    - rewrite Pint_0. simpl. ring.
    - intros t. unfold rho_rate. fold k. destruct (r t) as [a b], dJ as [p q]. unfold Ci, Cmult, Cminus, Cplus, Copp, RtoC, Re, Im; simpl. ring. }
  assert (E2 : (cos (k * dt) * Im (r dt) + sin (k * dt) * - Re (r dt) + (Re dJ * Im (Pint k dt) - - Im dJ * Re (Pint k dt)) = Im (r 0%R))%R).
  { rewrite EI.
    - rewrite Pint_0. simpl. ring.
    - intros t. unfold rho_rate. fold k. destruct (r t) as [a b], dJ as [p q]. unfold Ci, Cmult, Cminus, Cplus, Copp, RtoC, Re, Im; simpl. ring. }
  rewrite H0, H1 in *. unfold cis. rewrite cos_neg, sin_neg.
  destruct rn as [a b], rp as [a0 b0], dJ as [p q]. destruct (Pint k dt) as [u v].
  unfold Cmult, Cplus, Re, Im in *; simpl in *. f_equal; lra.
Qed.
Lemma comoving_int kz V dt rp rn dJ : (0 < dt)%R -> conserves (Comoving V) kz dt rp rn dJ ->
  rn + dJ * cis (kz * V * (dt / 2)) * Pint (kz * V) dt = rp.
Proof.
  intros Hdt (r & H0 & H1 & D). set (k := (kz * V)%R) in *.
  pose proof (fun t => proj1 (D t)) as DR. pose proof (fun t => proj2 (D t)) as DI.
  pose proof (Pint_re k) as PR. pose proof (Pint_im k) as PI'.
  set (J := dJ * cis (k * (dt / 2))).
  assert (EJ : forall t, - dJ * cis (- (k * (t - dt / 2))) = - J * (cos (k * t), - sin (k * t))%R).
  { intros t. unfold J. replace (- (k * (t - dt / 2)))%R with (k * (dt / 2) + - (k * t))%R by ring. rewrite cis_add.
    replace (cis (- (k * t))) with (cos (k * t), (- sin (k * t))%R).
    2:{ unfold cis. rewrite cos_neg, sin_neg. reflexivity. } ring. }
  assert (Z : forall f : R -> R, forall t, (- 0 * sin (0 * t) * f t)%R = 0%R) by (intros; ring).
  pose proof (derive_pair _ _ _ _ _ _ _ _ _ Hdt DR DI PR PI' 0 (Re J) (Im J)) as ER.
  pose proof (derive_pair _ _ _ _ _ _ _ _ _ Hdt DI DR PI' PR 0 (Re J) (- Im J)%R) as EI.
  cbv beta in ER, EI.
  assert (E1 : (Re (r dt) + (Re J * Re (Pint k dt) - Im J * Im (Pint k dt)) = Re (r 0%R))%R).
  { rewrite !Rmult_0_l, cos_0, sin_0 in ER.
    match type of ER with ?A -> _ => assert (HA : A) end.
    - intros t. rewrite !Rmult_0_l, cos_0, sin_0. unfold rho_rate. fold k. rewrite EJ.
      generalize J. intros [p q]. unfold Cmult, Copp, Re, Im; simpl. ring.
    - specialize (ER HA). rewrite Pint_0 in ER. unfold Re, Im, RtoC in *; cbn [fst snd] in *. lra. }
  assert (E2 : (Im (r dt) + (Re J * Im (Pint k dt) + Im J * Re (Pint k dt)) = Im (r 0%R))%R).
  { rewrite !Rmult_0_l, cos_0, sin_0 in EI.
    match type of EI with ?A -> _ => assert (HA : A) end.
    - intros t. rewrite !Rmult_0_l, cos_0, sin_0. unfold rho_rate. fold k. rewrite EJ.
      generalize J. intros [p q]. unfold Cmult, Copp, Re, Im; simpl. ring.
    - specialize (EI HA). rewrite Pint_0 in EI. unfold Re, Im, RtoC in *; cbn [fst snd] in *. lra. }
  fold J. rewrite H0 in E1, E2. rewrite H1 in E1, E2. clear ER EI. generalize dependent J. intros J E' E1 E2.
  destruct rn as [a b], rp as [a0 b0], J as [p q]. destruct (Pint k dt) as [u v].
  unfold Cmult, Cplus, Re, Im in *; simpl in *. f_equal; lra.
Qed.
Lemma standard_int kz dt rp rn dJ : (0 < dt)%R -> conserves Standard kz dt rp rn dJ -> rn + dJ * dt = rp.
Proof.
  intros Hdt H. assert (H' : conserves (Comoving 0) kz dt rp rn dJ).
  { destruct H as (r & H0 & H1 & D). exists r. split; [exact H0|split; [exact H1|]]. intros t.
    replace (rho_rate (Comoving 0) kz dt dJ t (r t)) with (rho_rate Standard kz dt dJ t (r t)); [apply D|].
    unfold rho_rate. replace (- (kz * 0 * (t - dt / 2)))%R with 0%R by ring. rewrite cis_0. ring. }
  apply comoving_int in H'; auto. rewrite <- H'. rewrite !Rmult_0_r, !Rmult_0_l, cis_0. unfold Pint.
  destruct (Req_EM_T 0 0); [|tauto]. ring.
Qed.

Lemma T2_opp k dt : cis (k * dt) * cis (- (k * dt)) = 1.
Proof. rewrite <- cis_add. replace (k * dt + - (k * dt))%R with 0%R by ring. apply cis_0. Qed.

Lemma galilean_sol kz V dt rp dJ :
  conserves (Galilean V) kz dt rp (cis (kz * V * dt) * (rp - dJ * Pint (kz * V) dt)) dJ.
Proof.
  exists (fun t => cis (kz * V * t) * (rp - dJ * Pint (kz * V) t)). split; [|split; [reflexivity|]].
  { rewrite Rmult_0_r, cis_0, Pint_0. ring. }
  set (k := (kz * V)%R). pose proof (Pint_re k) as PR. pose proof (Pint_im k) as PI'.
  intros t. unfold rho_rate. fold k.
  set (u := fun x => Re (Pint k x)). set (v := fun x => Im (Pint k x)).
  change (forall t, is_derive u t (cos (k * t))) in PR. change (forall t, is_derive v t (- sin (k * t))%R) in PI'.
  assert (X1 : ex_derive u t) by (eexists; apply PR).
  assert (X2 : ex_derive v t) by (eexists; apply PI').
  pose proof (is_derive_unique _ _ _ (PR t)) as D1. pose proof (is_derive_unique _ _ _ (PI' t)) as D2.
  pose proof (sin2_cos2 (k * t)) as SC. unfold Rsqr in SC.
  destruct rp as [a b], dJ as [p q]. unfold cis, Cmult, Cminus, Cplus, Copp. cbn [fst snd Re Im].
  split.
  - apply (is_derive_ext (fun t => (cos (k * t) * (a + - (p * u t - q * v t)) - sin (k * t) * (b + - (p * v t + q * u t)))%R)); [intros; reflexivity|].
    auto_derive; [repeat split; auto|]. change (fun x : R => u x) with u; change (fun x : R => v x) with v; rewrite D1, D2. unfold u, v, Re, Im, Ci, RtoC; cbn [fst snd].
    apply Rminus_diag_uniq.
    match goal with |- ?x = _ => replace x with (p * (1 - (sin (k * t) * sin (k * t) + cos (k * t) * cos (k * t))))%R by ring end.
    rewrite SC. ring.
  - apply (is_derive_ext (fun t => (cos (k * t) * (b + - (p * v t + q * u t)) + sin (k * t) * (a + - (p * u t - q * v t)))%R)); [intros; reflexivity|].
    auto_derive; [repeat split; auto|]. change (fun x : R => u x) with u; change (fun x : R => v x) with v; rewrite D1, D2. unfold u, v, Re, Im, Ci, RtoC; cbn [fst snd].
    apply Rminus_diag_uniq.
    match goal with |- ?x = _ => replace x with (q * (1 - (sin (k * t) * sin (k * t) + cos (k * t) * cos (k * t))))%R by ring end.
    rewrite SC. ring.
Qed.
Lemma comoving_sol kz V dt rp dJ :
  conserves (Comoving V) kz dt rp (rp - dJ * cis (kz * V * (dt / 2)) * Pint (kz * V) dt) dJ.
Proof.
  exists (fun t => rp - dJ * cis (kz * V * (dt / 2)) * Pint (kz * V) t). split; [|split; [reflexivity|]].
  { rewrite Pint_0. ring. }
  set (k := (kz * V)%R). pose proof (Pint_re k) as PR. pose proof (Pint_im k) as PI'.
  intros t. unfold rho_rate. fold k.
  replace (- dJ * cis (- (k * (t - dt / 2)))) with (- (dJ * cis (k * (dt / 2))) * (cos (k * t), - sin (k * t))%R).
  2:{ replace (- (k * (t - dt / 2)))%R with (k * (dt / 2) + - (k * t))%R by ring. rewrite cis_add.
      replace (cis (- (k * t))) with (cos (k * t), (- sin (k * t))%R).
      2:{ unfold cis. rewrite cos_neg, sin_neg. reflexivity. } ring. }
  generalize (dJ * cis (k * (dt / 2))). intros [p q].
  set (u := fun x => Re (Pint k x)). set (v := fun x => Im (Pint k x)).
  change (forall t, is_derive u t (cos (k * t))) in PR. change (forall t, is_derive v t (- sin (k * t))%R) in PI'.
  assert (X1 : ex_derive u t) by (eexists; apply PR).
  assert (X2 : ex_derive v t) by (eexists; apply PI').
  pose proof (is_derive_unique _ _ _ (PR t)) as D1. pose proof (is_derive_unique _ _ _ (PI' t)) as D2.
  destruct rp as [a b]. split.
  - apply (is_derive_ext (fun t => (a + - (p * u t - q * v t))%R)); [intros; reflexivity|].
    auto_derive; [repeat split; auto|]. change (fun x : R => u x) with u; change (fun x : R => v x) with v; rewrite D1, D2. unfold Cmult, Copp, Re; cbn [fst snd]. ring.
  - apply (is_derive_ext (fun t => (b + - (p * v t + q * u t))%R)); [intros; reflexivity|].
    auto_derive; [repeat split; auto|]. change (fun x : R => u x) with u; change (fun x : R => v x) with v; rewrite D1, D2. unfold Cmult, Copp, Im; cbn [fst snd]. ring.
Qed.
Lemma standard_sol kz dt rp dJ : conserves Standard kz dt rp (rp - dJ * dt) dJ.
Proof.
  destruct (comoving_sol kz 0 dt rp dJ) as (r & H0 & H1 & D). exists r. split; [exact H0|split].
  - rewrite H1, !Rmult_0_r, !Rmult_0_l, cis_0. unfold Pint. destruct (Req_EM_T 0 0); [|tauto]. ring.
  - intros t. replace (rho_rate Standard kz dt dJ t (r t)) with (rho_rate (Comoving 0) kz dt dJ t (r t)); [apply D|].
    unfold rho_rate. replace (- (kz * 0 * (t - dt / 2)))%R with 0%R by ring. rewrite cis_0. ring.
Qed.

(** The continuity equation over a step, in terms of the coefficients of the code. *)
Lemma Trho_gal kz V dt : Trho (Galilean V) kz dt = - (cis (kz * V * dt) * Pint (kz * V) dt).
Proof.
  unfold Trho, coef_T_rho, coef_T_cc, coef_T2. destruct (Req_EM_T V 0) as [->|HV].
  { unfold Pint. rewrite Rmult_0_r, Rmult_0_l, cis_0. destruct (Req_EM_T 0 0); [|tauto]. rewrite RtoC_opp. ring. }
  destruct (Req_EM_T kz 0) as [->|Hk].
  { unfold Pint. rewrite !Rmult_0_l, cis_0. destruct (Req_EM_T 0 0); [|tauto]. rewrite RtoC_opp. ring. }
  assert (H : (kz * V)%R <> 0%R) by (apply Rmult_integral_contrapositive; auto).
  pose proof (Pint_val (kz * V) dt H) as E. pose proof (T2_opp (kz * V) dt) as T.
  set (P := Pint (kz * V) dt) in *. set (T2 := cis (kz * V * dt)) in *.
  rewrite <- (Cmult_1_l (RtoC kz)) in *.
  assert (E' : Ci * kz * V * (T2 * P) = T2 - 1).
  { replace (Ci * kz * V * (T2 * P)) with (T2 * (Ci * (kz * V)%R * P)) by (rewrite RtoC_mult; ring). rewrite E.
    replace (T2 * (1 - cis (- (kz * V * dt)))) with (T2 - T2 * cis (- (kz * V * dt))) by ring. rewrite T. ring. }
  assert (N : Ci * kz * V <> 0).
  { repeat apply Cmult_neq_0; [apply Ci_neq|apply RtoC_neq; auto|apply RtoC_neq; auto]. }
  replace (1 - T2) with (- (Ci * kz * V * (T2 * P))) by (rewrite E'; ring).
  rewrite !Cmult_1_l. set (N' := Ci * kz * V) in *. clearbody N'. field. auto.
Qed.
Lemma Tsq kz V dt : cis (0.5 * kz * V * dt) * cis (0.5 * kz * V * dt) = cis (kz * V * dt).
Proof. rewrite <- cis_add. f_equal. lra. Qed.
Lemma Trho_com kz V dt : Trho (Comoving V) kz dt = - (cis (kz * V * (dt / 2)) * Pint (kz * V) dt).
Proof.
  unfold Trho, coef_T_rho, coef_T_cc, coef_T2. destruct (Req_EM_T V 0) as [->|HV].
  { unfold Pint. rewrite Rmult_0_r, !Rmult_0_l, cis_0. destruct (Req_EM_T 0 0); [|tauto]. rewrite RtoC_opp. ring. }
  destruct (Req_EM_T kz 0) as [->|Hk].
  { unfold Pint. rewrite !Rmult_0_l, cis_0. destruct (Req_EM_T 0 0); [|tauto]. rewrite RtoC_opp. ring. }
  assert (H : (kz * V)%R <> 0%R) by (apply Rmult_integral_contrapositive; auto).
  pose proof (Pint_val (kz * V) dt H) as E. pose proof (T2_opp (kz * V) dt) as T.
  replace (kz * V * (dt / 2))%R with (0.5 * kz * V * dt)%R by lra.
  pose proof (Tsq kz V dt) as TT. pose proof (cis_nonzero (0.5 * kz * V * dt)) as TN.
  set (P := Pint (kz * V) dt) in *. set (T2 := cis (kz * V * dt)) in *. set (T1 := cis (0.5 * kz * V * dt)) in *.
  assert (E' : Ci * kz * V * (T2 * P) = T2 - 1).
  { replace (Ci * kz * V * (T2 * P)) with (T2 * (Ci * (kz * V)%R * P)) by (rewrite RtoC_mult; ring). rewrite E.
    replace (T2 * (1 - cis (- (kz * V * dt)))) with (T2 - T2 * cis (- (kz * V * dt))) by ring. rewrite T. ring. }
  assert (N : Ci * kz * V <> 0).
  { repeat apply Cmult_neq_0; [apply Ci_neq|apply RtoC_neq; auto|apply RtoC_neq; auto]. }
  replace (1 - T2) with (- (Ci * kz * V * (T2 * P))) by (rewrite E'; ring). rewrite <- TT.
  set (N' := Ci * kz * V) in *. clearbody N' T1. field. auto.
Qed.

Lemma conserves_iff f kz dt rp rn dJ : (0 < dt)%R ->
  conserves f kz dt rp rn dJ <-> rn = Teb f kz dt * rp + Trho f kz dt * dJ.
Proof.
  intros Hdt. destruct f as [|V|V].
  - unfold Teb, Trho. rewrite RtoC_opp. split.
    + intros H. apply standard_int in H; auto. rewrite <- H. ring.
    + intros ->. replace (1 * rp + - dt * dJ) with (rp - dJ * dt) by ring. apply standard_sol.
  - rewrite Trho_gal. unfold Teb, coef_T_eb, coef_T2. pose proof (T2_opp (kz * V) dt) as T. split.
    + intros H. apply galilean_int in H; auto. rewrite <- H.
      set (T2 := cis (kz * V * dt)) in *. set (T2' := cis (- (kz * V * dt))) in *.
      replace (T2 * (T2' * rn + dJ * Pint (kz * V) dt)) with (T2 * T2' * rn + T2 * (dJ * Pint (kz * V) dt)) by ring. rewrite T. ring.
    + intros ->. replace (cis (kz * V * dt) * rp + - (cis (kz * V * dt) * Pint (kz * V) dt) * dJ)
        with (cis (kz * V * dt) * (rp - dJ * Pint (kz * V) dt)) by ring. apply galilean_sol.
  - rewrite Trho_com. unfold Teb, coef_T_eb. split.
    + intros H. apply comoving_int in H; auto. rewrite <- H. ring.
    + intros ->. replace (1 * rp + - (cis (kz * V * (dt / 2)) * Pint (kz * V) dt) * dJ)
        with (rp - dJ * cis (kz * V * (dt / 2)) * Pint (kz * V) dt) by ring. apply comoving_sol.
Qed.

Lemma gauss_alg (C0 S W2 X Teb Tcc eps rp dJ : C) :
  W2 <> 0 -> W2 + X * X <> 0 -> 1 - Teb * Tcc * Tcc <> 0 -> Tcc <> 0 -> X <> 0 -> eps <> 0 ->
  let T2 := Teb * Tcc * Tcc in let i1 := 1 / (1 - T2) in let D := 1 / (W2 + X * X) in
  let xi1 := 1 / Tcc * D * (1 - T2 * C0 + X * T2 * S) in
  let xi2 := D * (1 + X * T2 * S * i1 + (- (X * X) / W2) * T2 * i1 * (1 - C0)) in
  let xi3 := Teb * D * (C0 + X * T2 * S * i1 + (- (X * X) / W2) * i1 * (1 - C0)) in
  let rn := Teb * rp + (1 - T2) / (Tcc * X) * dJ in
  Teb * C0 * (rp / eps) + W2 / eps * (xi2 * rn - xi3 * rp) + (1 / eps * xi1 * X - 1 / eps * Teb * Tcc * S) * dJ = rn / eps.
Proof. intros H1 H2 H3 H4 H5 H6. cbv zeta. field. auto 8. Qed.

(** Resonant modes, where psatd_coefs.py:110 replaces 1 - T2 = 0 by 1. *)
Definition resonant (f : frame) (kz dt : R) : Prop := (kz * speed f)%R <> 0%R /\ cis (kz * speed f * dt) = 1.

Section Const2.
Context (c mu_0 epsilon_0 : R) (Hc : (0 < c)%R) (He : (0 < epsilon_0)%R) (Hmu : (mu_0 * epsilon_0 * c ^ 2 = 1)%R).
Let coeffs f kz kr dt := psatd_coeffs c mu_0 epsilon_0 (frame_V f) (frame_gal f) kz kr dt.

Lemma omega_0 kz kr : omega c kz kr = 0%R -> kz = 0%R /\ kr = 0%R.
Proof.
  unfold omega. intros H. apply Rmult_integral in H as [H|H]; [lra|].
  apply sqrt_eq_0 in H; nra.
Qed.
Lemma omega_sq kz kr : (omega c kz kr ^ 2 = c ^ 2 * (kz ^ 2 + kr ^ 2))%R.
Proof. unfold omega. rewrite Rpow_mult_distr. rewrite pow2_sqrt; nra. Qed.

Lemma k2_std kz kr : omega c kz kr <> 0%R -> (inv_w c kz kr ^ 2 * (kz * kz + kr * kr) * c ^ 2 = 1)%R.
Proof.
  intros H. unfold inv_w. destruct (Req_EM_T (omega c kz kr) 0); [tauto|].
  replace ((1 / omega c kz kr) ^ 2 * (kz * kz + kr * kr) * c ^ 2)%R with (c ^ 2 * (kz ^ 2 + kr ^ 2) / omega c kz kr ^ 2)%R by (field; auto).
  rewrite <- omega_sq. field. auto.
Qed.

(** C36 *)
Lemma coeffs_V0 gal kz kr dt :
  let a := psatd_coeffs c mu_0 epsilon_0 (Some 0%R) gal kz kr dt in
  let b := psatd_coeffs c mu_0 epsilon_0 None false kz kr dt in
  co_C a = co_C b /\ co_S_w a = co_S_w b /\ co_j a = co_j b /\ co_rho_prev a = co_rho_prev b /\
  co_rho_next a = co_rho_next b /\ co_T_eb a = 1 /\ co_T_cc a = 1 /\ co_T_rho a = RtoC (- dt) /\ co_j_corr a = RtoC (1 / dt).
Proof.
  cbn -[RtoC cis]. unfold coef_j, coef_rho_prev, coef_rho_next, coef_T_eb, coef_T_cc, coef_T_rho, coef_j_corr, coef_T2.
  destruct (Req_EM_T 0 0) as [_|]; [|tauto]. rewrite Rmult_0_r, Rmult_0_l, cis_0.
  replace (0.5 * kz * 0 * dt)%R with 0%R by ring. rewrite cis_0. destruct gal; repeat split.
Qed.
Lemma push_V0 gal tr kz kr dt s :
  push c mu_0 epsilon_0 (psatd_coeffs c mu_0 epsilon_0 (Some 0%R) gal kz kr dt) tr kz kr s =
  push c mu_0 epsilon_0 (psatd_coeffs c mu_0 epsilon_0 None false kz kr dt) tr kz kr s.
Proof.
  destruct (coeffs_V0 gal kz kr dt) as (H1 & H2 & H3 & H4 & H5 & H6 & H7 & H8 & H9). cbv zeta in *.
  unfold push, push_eb_with.
  set (a := psatd_coeffs c mu_0 epsilon_0 (Some 0%R) gal kz kr dt) in *.
  set (b := psatd_coeffs c mu_0 epsilon_0 None false kz kr dt) in *.
  change (co_V a) with (Some 0%R). change (co_V b) with (@None R). cbv iota.
  unfold push_eb_comoving, push_eb_standard. rewrite H1, H2, H3, H4, H5, H6, H7, H8. change (co_dt b) with dt.
  rewrite RtoC_opp. f_equal. unfold set_E, set_B. cbn -[Cmult Cplus Cminus Copp Ci RtoC Cdiv Cinv a b].
  set (rd := if tr then _ else _). set (rd' := if tr then _ else _).
  assert (Erd : rd = rd') by (unfold rd, rd'; destruct tr; ring). rewrite <- Erd. clearbody rd rd'.
  f_equal; ring.
Qed.
Lemma correct_V0 gal cc kz kr dt s :
  correct_currents dt (psatd_coeffs c mu_0 epsilon_0 (Some 0%R) gal kz kr dt) cc kz kr s =
  correct_currents dt (psatd_coeffs c mu_0 epsilon_0 None false kz kr dt) cc kz kr s.
Proof.
  destruct (coeffs_V0 gal kz kr dt) as (H1 & H2 & H3 & H4 & H5 & H6 & H7 & H8 & H9). cbv zeta in *.
  unfold correct_currents.
  set (a := psatd_coeffs c mu_0 epsilon_0 (Some 0%R) gal kz kr dt) in *.
  set (b := psatd_coeffs c mu_0 epsilon_0 None false kz kr dt) in *.
  change (co_V a) with (Some 0%R). change (co_V b) with (@None R). cbv iota. rewrite H6, H7, H9.
  destruct cc; cbn [inv_k2].
  - unfold curlfree_comoving, curlfree_standard. unfold set_J. cbn -[Cmult Cplus Cminus Copp Ci RtoC Cdiv Cinv].
    f_equal; ring.
  - unfold crossdeposition_comoving, crossdeposition_standard. unfold set_J. cbn -[Cmult Cplus Cminus Copp Ci RtoC Cdiv Cinv].
    f_equal; [destruct (Req_EM_T kr 0)|destruct (Req_EM_T kr 0)|destruct (Req_EM_T kz 0)]; ring.
Qed.

(** C33 *)
Lemma gauss_0 f kz kr dt tr s : (0 < dt)%R -> omega c kz kr = 0%R ->
  gauss epsilon_0 kz kr s -> conserves f kz dt (rho_prev s) (rho_next s) (div kz kr (J_of s)) ->
  gauss epsilon_0 kz kr (push c mu_0 epsilon_0 (coeffs f kz kr dt) tr kz kr s).
Proof.
  intros Hdt W G K. apply omega_0 in W as [-> ->]. apply conserves_iff in K; auto.
  assert (D : forall v, div 0 0 v = 0) by (intros; unfold div; ring).
  unfold gauss in *. rewrite D in *. unfold push, push_rho. cbn [rho_prev set_rho].
  assert (R : rho_prev s = 0).
  { replace (rho_prev s) with (rho_prev s / epsilon_0 * epsilon_0) by (field; apply RtoC_neq; lra). rewrite <- G. ring. }
  replace (rho_next (push_eb_with c mu_0 epsilon_0 (coeffs f 0 0 dt) tr 0 0 s)) with (rho_next s).
  2:{ unfold push_eb_with. destruct (co_V _); reflexivity. }
  rewrite K, R. field. apply RtoC_neq; lra.
Qed.

Lemma gauss_std kz kr dt tr s : (0 < dt)%R -> 
  gauss epsilon_0 kz kr s -> conserves Standard kz dt (rho_prev s) (rho_next s) (div kz kr (J_of s)) ->
  gauss epsilon_0 kz kr (push c mu_0 epsilon_0 (coeffs Standard kz kr dt) tr kz kr s).
Proof.
  intros Hdt G K. destruct (Req_EM_T (omega c kz kr) 0) as [W|W]; [apply gauss_0; auto|].
  apply conserves_iff in K; auto. unfold Teb, Trho in K.
  unfold gauss, push, push_rho in *. cbn [rho_prev set_rho].
  change (E_of (set_rho ?a _ _ _ _)) with (E_of a).
  unfold push_eb_with, coeffs. cbn [frame_V frame_gal co_V psatd_coeffs]. rewrite divE_std.
  change (rho_next (push_eb_standard _ _ _ _ _ _ _ s)) with (rho_next s).
  set (ps := psatd_coeffs c mu_0 epsilon_0 None false kz kr dt).
  assert (RD : rho_diff_std epsilon_0 ps tr kz kr s = co_rho_next ps * rho_next s - co_rho_prev ps * rho_prev s).
  { unfold rho_diff_std. destruct tr; [reflexivity|]. rewrite G, K, RtoC_opp. change (co_dt ps) with dt.
    field. apply RtoC_neq; lra. }
  rewrite RD, G. cbn [ps co_C co_S_w co_rho_next co_rho_prev psatd_coeffs].
  unfold coef_rho_next, coef_rho_prev. destruct (Req_EM_T (omega c kz kr) 0); [tauto|].
  pose proof (k2_std kz kr W) as Q. set (iw2 := (inv_w c kz kr ^ 2)%R) in *.
  set (C0 := coef_C c kz kr dt). set (S := coef_S_w c kz kr dt).
  replace (RtoC (c ^ 2 / epsilon_0 * (1 - 1 / dt * S) * iw2)) with ((1 - 1 / dt * S) * (c ^ 2 / epsilon_0 * iw2)%R).
  2:{ rewrite !RtoC_mult, RtoC_minus, RtoC_mult, !RtoC_div by lra. ring. }
  replace (RtoC (c ^ 2 / epsilon_0 * (C0 - 1 / dt * S) * iw2)) with ((C0 - 1 / dt * S) * (c ^ 2 / epsilon_0 * iw2)%R).
  2:{ rewrite !RtoC_mult, RtoC_minus, RtoC_mult, !RtoC_div by lra. ring. }
  assert (Q' : (kz * kz + kr * kr) * (c ^ 2 / epsilon_0 * iw2)%R = 1 / epsilon_0).
  { rewrite <- !RtoC_mult, <- RtoC_plus, <- RtoC_mult, <- RtoC_div by lra. f_equal.
    replace ((kz * kz + kr * kr) * (c ^ 2 / epsilon_0 * iw2))%R with (iw2 * (kz * kz + kr * kr) * c ^ 2 / epsilon_0)%R by (field; lra).
    rewrite Q. reflexivity. }
  assert (M : RtoC (c ^ 2) * mu_0 = 1 / epsilon_0).
  { rewrite <- RtoC_mult, <- RtoC_div by lra. f_equal. rewrite <- Hmu. field. lra. }
  rewrite M.
  replace ((kz * kz + kr * kr) * ((1 - 1 / dt * S) * (c ^ 2 / epsilon_0 * iw2)%R * rho_next s - (C0 - 1 / dt * S) * (c ^ 2 / epsilon_0 * iw2)%R * rho_prev s))
    with (((kz * kz + kr * kr) * (c ^ 2 / epsilon_0 * iw2)%R) * ((1 - 1 / dt * S) * rho_next s - (C0 - 1 / dt * S) * rho_prev s)) by ring.
  rewrite Q', K, RtoC_opp. field. split; apply RtoC_neq; lra.
Qed.

Definition moving (gal : bool) (V : R) : frame := if gal then Galilean V else Comoving V.
Lemma Teb_moving gal V kz dt : Teb (moving gal V) kz dt = coef_T_eb gal kz V dt.
Proof. destruct gal; reflexivity. Qed.
Lemma Trho_moving gal V kz dt : Trho (moving gal V) kz dt = coef_T_rho gal kz V dt.
Proof. destruct gal; reflexivity. Qed.
Lemma coeffs_moving gal V kz kr dt :
  coeffs (moving gal V) kz kr dt = psatd_coeffs c mu_0 epsilon_0 (Some V) gal kz kr dt.
Proof. destruct gal; reflexivity. Qed.
Lemma speed_moving gal V : speed (moving gal V) = V.
Proof. destruct gal; reflexivity. Qed.
Lemma T2_split gal kz V dt : coef_T_eb gal kz V dt * coef_T_cc gal kz V dt * coef_T_cc gal kz V dt = coef_T2 kz V dt.
Proof.
  destruct gal; unfold coef_T_eb, coef_T_cc, coef_T2.
  - ring.
  - rewrite <- (Tsq kz V dt). ring.
Qed.
Lemma Tcc_neq gal kz V dt : coef_T_cc gal kz V dt <> 0.
Proof. destruct gal; unfold coef_T_cc; [|apply cis_nonzero]. apply RtoC_neq. lra. Qed.

Lemma gauss_moving gal V kz kr dt tr s : (0 < dt)%R -> V <> 0%R -> (V ^ 2 < c ^ 2)%R -> ~ resonant (moving gal V) kz dt ->
  gauss epsilon_0 kz kr s -> conserves (moving gal V) kz dt (rho_prev s) (rho_next s) (div kz kr (J_of s)) ->
  gauss epsilon_0 kz kr (push c mu_0 epsilon_0 (coeffs (moving gal V) kz kr dt) tr kz kr s).
Proof.
  intros Hdt HV HVc NR G K. destruct (Req_EM_T (omega c kz kr) 0) as [W|W]; [apply gauss_0; auto|].
  apply conserves_iff in K; auto. rewrite Teb_moving, Trho_moving in K. rewrite coeffs_moving. unfold resonant in NR. rewrite speed_moving in NR.
  unfold gauss, push, push_rho in *. cbn [rho_prev set_rho].
  change (E_of (set_rho ?a _ _ _ _)) with (E_of a).
  unfold push_eb_with. cbn [co_V psatd_coeffs]. rewrite divE_com.
  change (rho_next (push_eb_comoving _ _ _ _ _ _ _ _ s)) with (rho_next s).
  set (ps := psatd_coeffs c mu_0 epsilon_0 (Some V) gal kz kr dt).
  assert (RD : rho_diff_com epsilon_0 ps tr kz kr s = co_rho_next ps * rho_next s - co_rho_prev ps * rho_prev s).
  { unfold rho_diff_com. destruct tr; [reflexivity|]. rewrite G, K. cbn [ps co_T_eb co_T_rho psatd_coeffs].
    field. apply RtoC_neq; lra. }
  rewrite RD, G. cbn [ps co_C co_S_w co_rho_next co_rho_prev co_T_eb co_T_cc co_j psatd_coeffs].
  unfold coef_rho_next, coef_rho_prev, coef_j. destruct (Req_EM_T (omega c kz kr) 0) as [|_]; [tauto|].
  destruct (Req_EM_T V 0) as [|_]; [tauto|].
  assert (M : RtoC (c ^ 2) * mu_0 = 1 / epsilon_0).
  { rewrite <- RtoC_mult, <- RtoC_div by lra. f_equal. rewrite <- Hmu. field. lra. }
  assert (M' : RtoC (mu_0 * c ^ 2) = 1 / epsilon_0).
  { rewrite <- RtoC_div by lra. f_equal. rewrite <- Hmu. field. lra. }
  assert (KW : (kz * kz + kr * kr) * RtoC (c ^ 2 / epsilon_0) = RtoC (omega c kz kr ^ 2) / epsilon_0).
  { rewrite omega_sq, <- !RtoC_mult, <- RtoC_plus, <- RtoC_mult, <- RtoC_div by lra. f_equal. field. lra. }
  assert (NW : RtoC (omega c kz kr ^ 2) <> 0) by (apply RtoC_neq; apply pow_nonzero; auto).
  assert (Ne : RtoC epsilon_0 <> 0) by (apply RtoC_neq; lra).
  rewrite M, M'.
  replace ((kz * kz + kr * kr) * (RtoC (c ^ 2 / epsilon_0) * xi_2 c kz kr V dt * rho_next s - RtoC (c ^ 2 / epsilon_0) * xi_3 c gal kz kr V dt * rho_prev s))
    with (((kz * kz + kr * kr) * RtoC (c ^ 2 / epsilon_0)) * (xi_2 c kz kr V dt * rho_next s - xi_3 c gal kz kr V dt * rho_prev s)) by ring.
  rewrite KW. unfold xi_1, xi_2, xi_3, inv_1_T2, inv_w_kzV.
  set (C0 := coef_C c kz kr dt). set (S := coef_S_w c kz kr dt).
  destruct (Req_EM_T kz 0) as [Hk|Hk].
  { (* kz = 0 *)
    subst kz. unfold coef_T_rho in K. destruct (Req_EM_T V 0) as [|_]; [tauto|]. destruct (Req_EM_T 0 0) as [_|]; [|tauto].
    unfold coef_T2, coef_T_eb, coef_T_cc, coef_T2 in *. replace (0.5 * 0 * V * dt)%R with 0%R in * by ring.
    replace (0 * V * dt)%R with 0%R in * by ring. rewrite cis_0 in *.
    replace (if gal then RtoC 1 else RtoC 1) with (RtoC 1) in * by (destruct gal; reflexivity).
    rewrite K. unfold inv_w. destruct (Req_EM_T (omega c 0 kr) 0) as [|_]; [tauto|].
    replace (RtoC ((1 / omega c 0 kr) ^ 2 * (1 - S * (1 / dt)))) with (1 / RtoC (omega c 0 kr ^ 2) * (1 - S / dt)).
    2:{ rewrite <- !RtoC_div, <- RtoC_minus, <- RtoC_mult; try lra; [|apply pow_nonzero; auto]. f_equal. field. split; [lra|auto]. }
    replace (RtoC ((1 / omega c 0 kr) ^ 2 * (C0 - S * (1 / dt)))) with (1 / RtoC (omega c 0 kr ^ 2) * (C0 - S / dt)).
    2:{ rewrite <- !RtoC_div, <- RtoC_minus, <- RtoC_mult; try lra; [|apply pow_nonzero; auto]. f_equal. field. split; [lra|auto]. }
    rewrite RtoC_opp. set (w2 := RtoC (omega c 0 kr ^ 2)) in *.
    field. repeat split; auto; apply RtoC_neq; lra. }
  (* kz <> 0 *)
  assert (NT : coef_T2 kz V dt <> 1).
  { intros T. apply NR. split; [apply Rmult_integral_contrapositive; auto|exact T]. }
  destruct (Ceq_dec (coef_T2 kz V dt) 1) as [|_]; [tauto|].
  assert (DP : (0 < omega c kz kr ^ 2 - kz ^ 2 * V ^ 2)%R).
  { rewrite omega_sq. assert (0 < kz ^ 2)%R by (apply pow2_gt_0'; auto). assert (0 <= kr ^ 2)%R by apply pow2_ge_0. nra. }
  destruct (Req_EM_T (omega c kz kr ^ 2 - kz ^ 2 * V ^ 2) 0) as [|_]; [lra|].
  set (X := Ci * kz * V).
  assert (NX : X <> 0). { repeat apply Cmult_neq_0; [apply Ci_neq|apply RtoC_neq; auto|apply RtoC_neq; auto]. }
  assert (XX : X * X = - RtoC (kz ^ 2 * V ^ 2)).
  { unfold X. replace (Ci * kz * V * (Ci * kz * V)) with ((Ci * Ci) * (kz * kz * (V * V))) by ring. rewrite Ci2.
    rewrite <- !RtoC_mult. rewrite <- RtoC_opp, <- RtoC_mult, <- RtoC_opp. f_equal. ring. }
  assert (ED : RtoC (omega c kz kr ^ 2) + X * X = RtoC (omega c kz kr ^ 2 - kz ^ 2 * V ^ 2)).
  { rewrite XX, RtoC_minus. ring. }
  assert (I2 : RtoC (kz ^ 2 * V ^ 2 * inv_w c kz kr ^ 2) = - (X * X) / RtoC (omega c kz kr ^ 2)).
  { rewrite XX. unfold inv_w. destruct (Req_EM_T (omega c kz kr) 0) as [|_]; [tauto|].
    replace (- - RtoC (kz ^ 2 * V ^ 2)) with (RtoC (kz ^ 2 * V ^ 2)) by ring.
    rewrite <- RtoC_div by (apply pow_nonzero; auto). f_equal. field. auto. }
  rewrite I2. rewrite RtoC_div by lra. rewrite <- ED, RtoC_minus.
  pose proof (T2_split gal kz V dt) as TS. pose proof (Tcc_neq gal kz V dt) as NC.
  assert (NT1 : 1 - coef_T_eb gal kz V dt * coef_T_cc gal kz V dt * coef_T_cc gal kz V dt <> 0).
  { rewrite TS. intros Z. apply NT. replace (coef_T2 kz V dt) with (1 - (1 - coef_T2 kz V dt)) by ring. rewrite Z. ring. }
  assert (ND : RtoC (omega c kz kr ^ 2) + X * X <> 0) by (rewrite ED; apply RtoC_neq; lra).
  unfold coef_T_rho in K. destruct (Req_EM_T V 0) as [|_]; [tauto|]. destruct (Req_EM_T kz 0) as [|_]; [tauto|].
  fold X in K. rewrite <- TS in *. rewrite K.
  set (Te := coef_T_eb gal kz V dt) in *. set (Tc := coef_T_cc gal kz V dt) in *.
  pose proof (gauss_alg C0 S (RtoC (omega c kz kr ^ 2)) X Te Tc epsilon_0 (rho_prev s) (div kz kr (J_of s)) NW ND NT1 NC NX Ne) as A.
  cbv zeta in A. rewrite <- A.
  replace (1 / epsilon_0 * (1 / Tc * (1 / (RtoC (omega c kz kr ^ 2) + X * X)) * (1 - Te * Tc * Tc * C0 + X * (Te * Tc * Tc) * S)) * Ci * kz * V)
    with (1 / epsilon_0 * (1 / Tc * (1 / (RtoC (omega c kz kr ^ 2) + X * X)) * (1 - Te * Tc * Tc * C0 + X * (Te * Tc * Tc) * S)) * X) by (unfold X; ring).
  reflexivity.
Qed.

Lemma conserves_V0 gal kz dt rp rn dJ : (0 < dt)%R -> conserves (moving gal 0) kz dt rp rn dJ <-> conserves Standard kz dt rp rn dJ.
Proof.
  intros Hdt. rewrite !conserves_iff by auto. rewrite Teb_moving, Trho_moving. unfold coef_T_rho, coef_T_eb, coef_T2, Teb, Trho.
  destruct (Req_EM_T 0 0) as [_|]; [|tauto]. rewrite Rmult_0_r, Rmult_0_l, cis_0. destruct gal; tauto.
Qed.
Lemma frame_cases (P : frame -> Prop) : P Standard -> (forall gal V, P (moving gal V)) -> forall f, P f.
Proof. intros H0 H [|V|V]; [exact H0|exact (H true V)|exact (H false V)]. Qed.

Lemma gauss_push f kz kr dt tr s : (0 < dt)%R -> (speed f ^ 2 < c ^ 2)%R -> ~ resonant f kz dt ->
  gauss epsilon_0 kz kr s -> conserves f kz dt (rho_prev s) (rho_next s) (div kz kr (J_of s)) ->
  gauss epsilon_0 kz kr (push c mu_0 epsilon_0 (coeffs f kz kr dt) tr kz kr s).
Proof.
  intros Hdt. pattern f; apply frame_cases; clear f; [intros; apply gauss_std; auto|].
  intros gal V HV NR G K. rewrite speed_moving in HV. destruct (Req_EM_T V 0) as [->|NV]; [|apply gauss_moving; auto].
  rewrite coeffs_moving, push_V0. apply gauss_std; auto. apply (conserves_V0 gal); auto.
Qed.

(** C34 *)
Lemma j_corr_iff gal V kz dt rp rn dJ : (0 < dt)%R -> ~ resonant (moving gal V) kz dt ->
  coef_T_cc gal kz V dt * coef_j_corr kz V dt * (rn - rp * coef_T_eb gal kz V dt) + dJ = 0 ->
  conserves (moving gal V) kz dt rp rn dJ.
Proof.
  intros Hdt NR E. apply conserves_iff; auto. rewrite Teb_moving, Trho_moving. unfold resonant in NR. rewrite speed_moving in NR.
  unfold coef_j_corr, coef_T_rho in *.
  assert (Nd : RtoC dt <> 0) by (apply RtoC_neq; lra).
  assert (ST : coef_T_cc gal kz V dt = 1 -> coef_T_cc gal kz V dt * RtoC (1 / dt) * (rn - rp * coef_T_eb gal kz V dt) + dJ = 0 ->
               rn = coef_T_eb gal kz V dt * rp + - dt * dJ).
  { intros -> E1. replace dJ with (- (1 * RtoC (1 / dt) * (rn - rp * coef_T_eb gal kz V dt)) + 0) by (rewrite <- E1; ring).
    rewrite RtoC_div by lra. field. auto. }
  destruct (Req_EM_T V 0) as [->|NV].
  { rewrite RtoC_opp. apply ST; auto. destruct gal; [reflexivity|]. unfold coef_T_cc. replace (0.5 * kz * 0 * dt)%R with 0%R by ring. apply cis_0. }
  destruct (Req_EM_T kz 0) as [->|Nk].
  { rewrite RtoC_opp. apply ST; auto. destruct gal; [reflexivity|]. unfold coef_T_cc. replace (0.5 * 0 * V * dt)%R with 0%R by ring. apply cis_0. }
  unfold inv_1_T2 in E. destruct (Ceq_dec (coef_T2 kz V dt) 1) as [T|T].
  { exfalso. apply NR. split; [apply Rmult_integral_contrapositive; auto|exact T]. }
  pose proof (Tcc_neq gal kz V dt) as NC.
  assert (NT : 1 - coef_T2 kz V dt <> 0).
  { intros Z. apply T. replace (coef_T2 kz V dt) with (1 - (1 - coef_T2 kz V dt)) by ring. rewrite Z. ring. }
  assert (NX : RtoC kz <> 0) by (apply RtoC_neq; auto). assert (NY : RtoC V <> 0) by (apply RtoC_neq; auto). pose proof Ci_neq as NI.
  set (T2 := coef_T2 kz V dt) in *. set (Tc := coef_T_cc gal kz V dt) in *.
  replace dJ with (- (Tc * (- Ci * kz * V * (1 / (1 - T2))) * (rn - rp * coef_T_eb gal kz V dt)) + 0) by (rewrite <- E; ring).
  field. auto.
Qed.
Lemma j_corr_std kz dt rp rn dJ : (0 < dt)%R -> (rn - rp) * RtoC (1 / dt) + dJ = 0 -> conserves Standard kz dt rp rn dJ.
Proof.
  intros Hdt E. apply conserves_iff; auto. unfold Teb, Trho. rewrite RtoC_opp.
  replace dJ with (- ((rn - rp) * RtoC (1 / dt)) + 0) by (rewrite <- E; ring).
  rewrite RtoC_div by lra. field. apply RtoC_neq; lra.
Qed.

Lemma inv_k2_val kz kr : ~ (kz = 0%R /\ kr = 0%R) ->
  exists q, inv_k2 CurlFree kz kr = Some q /\ q * (kz * kz + kr * kr) = 1.
Proof.
  intros N. cbn [inv_k2]. exists (1 / (kz ^ 2 + kr ^ 2))%R.
  assert (P : (0 < kz ^ 2 + kr ^ 2)%R).
  { destruct (Req_EM_T kz 0) as [->|H].
    - assert (kr <> 0%R) by tauto. pose proof (pow2_gt_0' kr H). lra.
    - pose proof (pow2_gt_0' kz H). pose proof (pow2_ge_0 kr). lra. }
  split.
  - destruct (Req_EM_T kz 0); [destruct (Req_EM_T kr 0); [tauto|reflexivity]|reflexivity].
  - rewrite <- !RtoC_mult, <- RtoC_plus, <- RtoC_mult. f_equal. field. lra.
Qed.

Lemma curlfree_div (q kz kr : R) (X : C) (s : mode) : RtoC q * (kz * kz + kr * kr) = 1 ->
  let F := - (RtoC q) * (X + Ci * kz * Jz s + kr * (Jp s - Jm s)) in
  X + div kz kr (J_of (set_J s (Jp s + 0.5 * kr * F) (Jm s + - (0.5) * kr * F) (Jz s + - Ci * kz * F))) = 0.
Proof.
  intros Hq F. unfold div, J_of, set_J. cbn -[Cmult Cplus Cminus Copp Ci RtoC Cdiv Cinv F]. rewrite half.
  replace (X + (kr * (Jp s + 1 / 2 * kr * F - (Jm s + - (1 / 2) * kr * F)) + Ci * kz * (Jz s + - Ci * kz * F)))
    with (X + Ci * kz * Jz s + kr * (Jp s - Jm s) + ((1 / 2 + 1 / 2) * (kr * kr * F) - (Ci * Ci) * (kz * kz * F))) by ring.
  rewrite half2, Ci2. unfold F. set (Y := X + Ci * kz * Jz s + kr * (Jp s - Jm s)).
  replace (Y + (1 * (kr * kr * (- q * Y)) - - (1) * (kz * kz * (- q * Y)))) with (Y - q * (kz * kz + kr * kr) * Y) by ring.
  rewrite Hq. ring.
Qed.
Lemma cross_div (kz kr : R) (Az Axy : C) (s : mode) :
  (kr = 0%R -> Axy = 0) -> (kz = 0%R -> Az = 0) ->
  let Dz := Ci * kz * Jz s + Az in let Dxy := kr * (Jp s - Jm s) + Axy in
  Az + Axy + div kz kr (J_of (set_J s (if Req_EM_T kr 0 then Jp s else Jp s + - (0.5) * Dxy * RtoC (1 / kr))
          (if Req_EM_T kr 0 then Jm s else Jm s + 0.5 * Dxy * RtoC (1 / kr))
          (if Req_EM_T kz 0 then Jz s else Jz s + Ci * Dz * RtoC (1 / kz)))) = 0.
Proof.
  intros H1 H2 Dz Dxy. unfold div, J_of, set_J. cbn -[Cmult Cplus Cminus Copp Ci RtoC Cdiv Cinv Dz Dxy]. rewrite half.
  assert (A : Axy + kr * ((if Req_EM_T kr 0 then Jp s else Jp s + - (1 / 2) * Dxy * RtoC (1 / kr)) - (if Req_EM_T kr 0 then Jm s else Jm s + 1 / 2 * Dxy * RtoC (1 / kr))) = 0).
  { destruct (Req_EM_T kr 0) as [->|N]; [rewrite H1; auto; ring|].
    replace (Axy + kr * (Jp s + - (1 / 2) * Dxy * RtoC (1 / kr) - (Jm s + 1 / 2 * Dxy * RtoC (1 / kr))))
      with (Axy + kr * (Jp s - Jm s) - (1 / 2 + 1 / 2) * Dxy * (kr * RtoC (1 / kr))) by ring.
    rewrite half2. replace (kr * RtoC (1 / kr)) with (RtoC 1) by (rewrite <- RtoC_mult; f_equal; field; auto). unfold Dxy. ring. }
  assert (B : Az + Ci * kz * (if Req_EM_T kz 0 then Jz s else Jz s + Ci * Dz * RtoC (1 / kz)) = 0).
  { destruct (Req_EM_T kz 0) as [->|N]; [rewrite H2; auto; ring|].
    replace (Az + Ci * kz * (Jz s + Ci * Dz * RtoC (1 / kz)))
      with (Az + Ci * kz * Jz s + (Ci * Ci) * Dz * (kz * RtoC (1 / kz))) by ring.
    rewrite Ci2. replace (kz * RtoC (1 / kz)) with (RtoC 1) by (rewrite <- RtoC_mult; f_equal; field; auto). unfold Dz. ring. }
  rewrite <- (Cplus_0_r 0). rewrite <- A at 1. rewrite <- B at 1. ring.
Qed.

Lemma correct_curlfree f kz kr dt s : (0 < dt)%R -> ~ (kz = 0%R /\ kr = 0%R) -> ~ resonant f kz dt ->
  conserves f kz dt (rho_prev s) (rho_next s) (div kz kr (J_of (correct_currents dt (coeffs f kz kr dt) CurlFree kz kr s))).
Proof.
  intros Hdt N. destruct (inv_k2_val kz kr N) as (q & Eq & Hq). pattern f; apply frame_cases; clear f.
  - intros _. apply j_corr_std; auto. unfold correct_currents. rewrite Eq. cbn [coeffs co_V psatd_coeffs frame_V].
    unfold curlfree_standard. exact (curlfree_div q kz kr _ s Hq).
  - intros gal V NR. apply j_corr_iff; auto. rewrite coeffs_moving. unfold correct_currents. rewrite Eq.
    cbn [co_V psatd_coeffs co_T_cc co_j_corr co_T_eb]. unfold curlfree_comoving. exact (curlfree_div q kz kr _ s Hq).
Qed.

(** What the cross-deposition must satisfy in the modes where one of the corrections is skipped. *)
Definition cross_ok (kz kr : R) (s : mode) : Prop :=
  (kz = 0%R -> rho_next s = rho_next_xy s /\ rho_next_z s = rho_prev s) /\
  (kr = 0%R -> rho_next s = 0 /\ rho_next_z s = 0 /\ rho_next_xy s = 0 /\ rho_prev s = 0).
Lemma correct_cross f kz kr dt s : (0 < dt)%R -> cross_ok kz kr s -> ~ resonant f kz dt ->
  conserves f kz dt (rho_prev s) (rho_next s) (div kz kr (J_of (correct_currents dt (coeffs f kz kr dt) CrossDeposition kz kr s))).
Proof.
  intros Hdt [Oz Or]. pattern f; apply frame_cases; clear f.
  - intros _. apply j_corr_std; auto. unfold correct_currents. cbn [coeffs co_V psatd_coeffs frame_V inv_k2].
    unfold crossdeposition_standard.
    set (Az := 0.5 * (1 / dt)%R * (rho_next s - rho_next_xy s + rho_next_z s - rho_prev s)).
    set (Axy := 0.5 * (1 / dt)%R * (rho_next s - rho_next_z s + rho_next_xy s - rho_prev s)).
    replace ((rho_next s - rho_prev s) * RtoC (1 / dt)) with (Az + Axy).
    2:{ unfold Az, Axy. rewrite half. 
        replace (1 / 2 * (1 / dt)%R * (rho_next s - rho_next_xy s + rho_next_z s - rho_prev s) + 1 / 2 * (1 / dt)%R * (rho_next s - rho_next_z s + rho_next_xy s - rho_prev s))
        with ((1 / 2 + 1 / 2) * (1 / dt)%R * (rho_next s - rho_prev s)) by ring. rewrite half2. ring. }
    apply cross_div; unfold Az, Axy; intros H.
    + destruct (Or H) as (-> & -> & -> & ->). ring.
    + destruct (Oz H) as (-> & ->). ring.
  - intros gal V NR. apply j_corr_iff; auto. rewrite coeffs_moving. unfold correct_currents.
    cbn [co_V psatd_coeffs co_T_cc co_j_corr co_T_eb inv_k2]. unfold crossdeposition_comoving.
    set (Tc := coef_T_cc gal kz V dt). set (Te := coef_T_eb gal kz V dt). set (jc := coef_j_corr kz V dt).
    set (Az := 0.5 * Tc * jc * (rho_next s - Te * rho_next_xy s + rho_next_z s - Te * rho_prev s)).
    set (Axy := 0.5 * Tc * jc * (rho_next s + Te * rho_next_xy s - rho_next_z s - Te * rho_prev s)).
    replace (Tc * jc * (rho_next s - rho_prev s * Te)) with (Az + Axy).
    2:{ unfold Az, Axy. rewrite half. 
        replace (1 / 2 * Tc * jc * (rho_next s - Te * rho_next_xy s + rho_next_z s - Te * rho_prev s) + 1 / 2 * Tc * jc * (rho_next s + Te * rho_next_xy s - rho_next_z s - Te * rho_prev s))
        with ((1 / 2 + 1 / 2) * Tc * jc * (rho_next s - Te * rho_prev s)) by ring. rewrite half2. ring. }
    apply cross_div; unfold Az, Axy; intros H.
    + destruct (Or H) as (-> & -> & -> & ->). ring.
    + destruct (Oz H) as (-> & ->). unfold Te, coef_T_eb, coef_T2. subst kz. replace (0 * V * dt)%R with 0%R by ring. rewrite cis_0.
      destruct gal; ring.
Qed.

(** Any number of steps *)
Lemma correct_keeps ps cc kz kr dt s :
  let s' := correct_currents dt ps cc kz kr s in
  E_of s' = E_of s /\ B_of s' = B_of s /\ rho_prev s' = rho_prev s /\ rho_next s' = rho_next s.
Proof. unfold correct_currents. destruct (co_V ps), cc; repeat split. Qed.
Lemma push_rho_prev ps tr kz kr s : rho_prev (push c mu_0 epsilon_0 ps tr kz kr s) = rho_next s.
Proof. unfold push, push_eb_with. destruct (co_V ps); reflexivity. Qed.

Definition step_state (ps : coefs) (cc : correction) (tr corr : bool) (kz kr : R) (x : sources) (s : mode) : mode :=
  push c mu_0 epsilon_0 ps tr kz kr (let s := load_sources x s in if corr then correct_currents (co_dt ps) ps cc kz kr s else s).
Lemma field_step_nodiv ps cc tr corr kz kr x s :
  field_step c mu_0 epsilon_0 ps cc tr corr false kz kr x s = Ok (step_state ps cc tr corr kz kr x s).
Proof. reflexivity. Qed.
Lemma step_state_rho ps cc tr corr kz kr x s : rho_prev (step_state ps cc tr corr kz kr x s) = s_rho x.
Proof.
  unfold step_state. rewrite push_rho_prev. destruct corr; [|reflexivity]. cbv zeta.
  destruct (correct_keeps ps cc kz kr (co_dt ps) (load_sources x s)) as (_ & _ & _ & H). rewrite H. reflexivity.
Qed.
Lemma step_state_divB ps cc tr corr kz kr x s :
  exists l : C, div kz kr (B_of (step_state ps cc tr corr kz kr x s)) = l * div kz kr (B_of s).
Proof.
  unfold step_state. set (s1 := let s := load_sources x s in if corr then correct_currents (co_dt ps) ps cc kz kr s else s).
  assert (E : B_of s1 = B_of s).
  { unfold s1. cbv zeta. destruct corr; [|reflexivity]. destruct (correct_keeps ps cc kz kr (co_dt ps) (load_sources x s)) as (_ & H & _). rewrite H. reflexivity. }
  rewrite <- E. apply push_divB.
Qed.
Lemma correct_divE_keeps cc kz kr s s' : correct_divE epsilon_0 cc kz kr s = Ok s' ->
  B_of s' = B_of s /\ J_of s' = J_of s /\ rho_prev s' = rho_prev s /\ rho_next s' = rho_next s.
Proof. unfold correct_divE. destruct (inv_k2 cc kz kr); [|discriminate]. intros E; injection E as <-. repeat split. Qed.
Lemma field_step_inv ps cc tr corr dv kz kr x s s' : field_step c mu_0 epsilon_0 ps cc tr corr dv kz kr x s = Ok s' ->
  B_of s' = B_of (step_state ps cc tr corr kz kr x s) /\ rho_prev s' = s_rho x /\
  (if dv then correct_divE epsilon_0 cc kz kr (step_state ps cc tr corr kz kr x s) = Ok s' else s' = step_state ps cc tr corr kz kr x s).
Proof.
  unfold field_step. fold (step_state ps cc tr corr kz kr x s).
  change (push c mu_0 epsilon_0 ps tr kz kr (if corr then correct_currents (co_dt ps) ps cc kz kr (load_sources x s) else load_sources x s))
    with (step_state ps cc tr corr kz kr x s).
  destruct dv; intros E.
  - destruct (correct_divE_keeps _ _ _ _ _ E) as (H1 & _ & H2 & _). rewrite H2, step_state_rho. auto.
  - injection E as <-. rewrite step_state_rho. auto.
Qed.

Lemma divB_steps ps cc tr corr dv kz kr xs : forall s s', div kz kr (B_of s) = 0 ->
  field_steps c mu_0 epsilon_0 ps cc tr corr dv kz kr xs s = Ok s' -> div kz kr (B_of s') = 0.
Proof.
  induction xs as [|x xs IH]; intros s s' H; cbn [field_steps].
  - intros E; injection E as <-; exact H.
  - destruct (field_step c mu_0 epsilon_0 ps cc tr corr dv kz kr x s) as [s1|] eqn:E1; cbn [bind]; [|discriminate]. apply IH.
    apply field_step_inv in E1 as (-> & _). destruct (step_state_divB ps cc tr corr kz kr x s) as (l & ->). rewrite H. ring.
Qed.

Lemma gauss_steps f cc tr kz kr dt xs : (0 < dt)%R -> (speed f ^ 2 < c ^ 2)%R -> ~ resonant f kz dt ->
  forall s, gauss epsilon_0 kz kr s -> all_conserve f kz kr dt (rho_prev s) xs ->
  exists s', field_steps c mu_0 epsilon_0 (coeffs f kz kr dt) cc tr false false kz kr xs s = Ok s' /\ gauss epsilon_0 kz kr s'.
Proof.
  intros Hdt HV NR. induction xs as [|x xs IH]; intros s G K; cbn [field_steps].
  - exists s. auto.
  - rewrite field_step_nodiv. cbn [bind]. destruct K as [K1 K2]. apply IH.
    + unfold step_state. apply gauss_push; auto.
    + rewrite step_state_rho. exact K2.
Qed.

Lemma gauss_corrected f cc tr kz kr dt xs : (0 < dt)%R -> (speed f ^ 2 < c ^ 2)%R -> ~ resonant f kz dt ->
  ~ (kz = 0%R /\ kr = 0%R) -> (cc = CrossDeposition -> kz <> 0%R /\ kr <> 0%R) ->
  forall s, gauss epsilon_0 kz kr s ->
  exists s', field_steps c mu_0 epsilon_0 (coeffs f kz kr dt) cc tr true false kz kr xs s = Ok s' /\ gauss epsilon_0 kz kr s'.
Proof.
  intros Hdt HV NR N NC. induction xs as [|x xs IH]; intros s G; cbn [field_steps].
  - exists s. auto.
  - rewrite field_step_nodiv. cbn [bind]. apply IH. unfold step_state. cbv zeta.
    change (co_dt (coeffs f kz kr dt)) with dt.
    destruct (correct_keeps (coeffs f kz kr dt) cc kz kr dt (load_sources x s)) as (HE & _ & H1 & H2). cbv zeta in *.
    apply gauss_push; auto.
    + unfold gauss in *. rewrite HE, H1. exact G.
    + rewrite H1, H2. destruct cc.
      * apply correct_curlfree; auto.
      * apply correct_cross; auto. destruct NC as [N1 N2]; [reflexivity|]. split; tauto.
Qed.
End Const2.
