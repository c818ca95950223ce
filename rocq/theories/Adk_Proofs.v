(** Proofs for Adk_Props. *)
From Verif Require Import Base Ionize_Model Adk_Model Adk_Spec.
From Coq Require Import Reals Lra String QArith Qreals Qround.
Open Scope R_scope.

(** * The table *)
Definition qH : Q := (13598434005136#1000000000000)%Q.
(** Bounds of 10^4 * z * sqrt (qH / u). *)
Definition arg (z : Z) (u : Q) : Z := Qfloor ((inject_Z (z * z * 100000000)) * (qH / u))%Q.
Definition lo (z : Z) (u : Q) : Z := Z.sqrt (arg z u).
Definition pos (u : Q) : bool := (0 <? Qnum u)%Z.
Fixpoint ok_levels (i : Z) (u0 : Q) (us : list Q) : bool :=
  match us with
  | [] => true
  | u :: us => pos u && (lo 1 u0 + 1 <? lo i u + 10000)%Z && (5000 <? lo i u)%Z &&
      match us with [] => true | v :: _ => if Qlt_le_dec u v then true else false end && ok_levels (i + 1) u0 us
  end.
Definition ok_table : bool := forallb (fun x => match snd x with [] => false | u0 :: _ => ok_levels 1 u0 (snd x) end) atomic_data.
Lemma table_ok : ok_table = true. Proof. vm_compute. reflexivity. Qed.

Lemma pos_R u : pos u = true -> 0 < Q2R u.
Proof. unfold pos. rewrite Z.ltb_lt. intros H. unfold Q2R. apply Rmult_lt_0_compat; [apply IZR_lt, H|]. apply Rinv_0_lt_compat, IZR_lt, Pos2Z.is_pos. Qed.
Lemma qH_pos : 0 < Q2R qH. Proof. apply pos_R. reflexivity. Qed.
Lemma arg_R z u : pos u = true -> IZR (arg z u) <= (IZR z * 10000) ^ 2 * (Q2R qH / Q2R u) < IZR (arg z u) + 1.
Proof.
  intros Hu. pose proof (pos_R u Hu) as Pu. assert (Nu : ~ (u == 0)%Q) by (intros E; apply Qeq_eqR in E; rewrite E in Pu; unfold Q2R in Pu; cbn in Pu; lra).
  set (x := (inject_Z (z * z * 100000000) * (qH / u))%Q).
  assert (E : Q2R x = (IZR z * 10000) ^ 2 * (Q2R qH / Q2R u)).
  { unfold x. rewrite Q2R_mult, Q2R_div by exact Nu. unfold inject_Z, Q2R at 1. cbn [Qnum Qden]. rewrite !mult_IZR. field. lra. }
  rewrite <- E. unfold arg. fold x. split.
  - pose proof (Qle_Rle _ _ (Qfloor_le x)) as H. unfold inject_Z, Q2R at 1 in H. cbn [Qnum Qden] in H. lra.
  - pose proof (Qlt_Rlt _ _ (Qlt_floor x)) as H. rewrite <- (plus_IZR _ 1). unfold inject_Z, Q2R at 2 in H. cbn [Qnum Qden] in H. lra.
Qed.
Lemma arg_nonneg z u : pos u = true -> (0 <= arg z u)%Z.
Proof.
  intros Hu. destruct (arg_R z u Hu) as [_ H].
  assert (0 <= (IZR z * 10000) ^ 2 * (Q2R qH / Q2R u)).
  { apply Rmult_le_pos; [apply pow2_ge_0|]. apply Rlt_le, Rdiv_lt_0_compat; [apply qH_pos|apply pos_R, Hu]. }
  assert (0 < IZR (arg z u) + 1) by lra. assert (0 < arg z u + 1)%Z by (apply lt_IZR; rewrite plus_IZR; lra). lia.
Qed.
Lemma lo_R z u : pos u = true -> (0 < z)%Z -> IZR (lo z u) <= 10000 * (IZR z * sqrt (Q2R qH / Q2R u)) < IZR (lo z u) + 1.
Proof.
  intros Hu Hz. destruct (arg_R z u Hu) as [A1 A2]. pose proof (arg_nonneg z u Hu) as An.
  destruct (Z.sqrt_spec (arg z u) An) as [S1 S2]. fold (lo z u) in S1, S2. pose proof (Z.sqrt_nonneg (arg z u)) as Sn. fold (lo z u) in Sn.
  assert (Pz : 0 < IZR z) by (apply IZR_lt, Hz).
  assert (Pd : 0 <= Q2R qH / Q2R u) by (apply Rlt_le, Rdiv_lt_0_compat; [apply qH_pos|apply pos_R, Hu]).
  set (r := sqrt (Q2R qH / Q2R u)) in *. assert (Hr : r * r = Q2R qH / Q2R u) by (apply sqrt_sqrt, Pd). pose proof (sqrt_pos (Q2R qH / Q2R u)) as Rn. fold r in Rn.
  rewrite <- Hr in A1, A2. set (y := 10000 * (IZR z * r)). assert (Y : (IZR z * 10000) ^ 2 * (r * r) = y * y) by (unfold y; ring). rewrite Y in A1, A2.
  assert (Py : 0 <= y) by (unfold y; repeat apply Rmult_le_pos; lra).
  apply IZR_le in S1. rewrite mult_IZR in S1. apply IZR_le in Sn.
  assert (S3 : IZR (arg z u) + 1 <= (IZR (lo z u) + 1) * (IZR (lo z u) + 1)).
  { rewrite <- (plus_IZR _ 1), <- (plus_IZR (lo z u) 1), <- mult_IZR. apply IZR_le. lia. }
  split; [apply Rsqr_incr_0_var; unfold Rsqr; lra|apply Rsqr_incrst_0; unfold Rsqr; lra].
Qed.
Definition neff (i : nat) (u : Q) : R := IZR (Z.of_nat i + 1) * sqrt (Q2R qH / Q2R u).
Lemma ok_levels_nth : forall us i0 u0 i u, (0 < i0)%Z -> pos u0 = true -> ok_levels i0 u0 us = true -> nth_error us i = Some u ->
  0 < Q2R u /\ 1 / 2 < IZR (i0 + Z.of_nat i) * sqrt (Q2R qH / Q2R u) /\
  0 < IZR (i0 + Z.of_nat i) * sqrt (Q2R qH / Q2R u) - (sqrt (Q2R qH / Q2R u0) - 1) /\
  (forall v, nth_error us (S i) = Some v -> Q2R u < Q2R v).
Proof.
  induction us as [|a us IH]; intros i0 u0 i u Hi Hu0 H E; [destruct i; discriminate|].
  cbn [ok_levels] in H. rewrite !andb_true_iff, !Z.ltb_lt in H. destruct H as ((((H1 & H2) & H3) & H4) & H5).
  destruct i as [|i].
  - cbn in E. injection E as ->. rewrite Z.add_0_r. split; [apply pos_R, H1|]. pose proof (lo_R i0 u H1 Hi) as [L _].
    pose proof (lo_R 1 u0 Hu0 ltac:(lia)) as [_ L0]. apply IZR_lt in H2, H3. rewrite !plus_IZR in H2.
    split; [lra|]. split; [lra|]. intros v Hv. destruct us as [|b us]; [discriminate|]. cbn in Hv. injection Hv as ->.
    destruct (Qlt_le_dec u v); [|discriminate]. apply Qlt_Rlt; assumption.
  - cbn in E. specialize (IH (i0 + 1)%Z u0 i u ltac:(lia) Hu0 H5 E).
    replace (i0 + Z.of_nat (S i))%Z with (i0 + 1 + Z.of_nat i)%Z by lia. exact IH.
Qed.
Lemma lookup_ok el us i u : lookup el = Some us -> nth_error us i = Some u ->
  exists u0, nth_error us 0 = Some u0 /\ 0 < Q2R u /\ 1 / 2 < neff i u /\ 0 < neff 0 u0 /\ 0 < neff i u - (neff 0 u0 - 1) /\
  (forall v, nth_error us (S i) = Some v -> Q2R u < Q2R v).
Proof.
  unfold lookup. destruct (find _ atomic_data) as [[n l]|] eqn:F; [|discriminate]. intros H. injection H as ->. intros Hi.
  apply find_some in F. destruct F as [F _]. pose proof table_ok as T. unfold ok_table in T. rewrite forallb_forall in T. specialize (T _ F).
  cbn [snd] in T. destruct us as [|u0 us]; [discriminate|]. exists u0. split; [reflexivity|].
  assert (P0 : pos u0 = true) by (cbn [ok_levels] in T; rewrite !andb_true_iff in T; apply T).
  destruct (ok_levels_nth (u0 :: us) 1 u0 i u ltac:(lia) P0 T Hi) as (A1 & A2 & A3 & A4).
  destruct (ok_levels_nth (u0 :: us) 1 u0 0 u0 ltac:(lia) P0 T eq_refl) as (B1 & B2 & _ & _).
  unfold neff. replace (Z.of_nat i + 1)%Z with (1 + Z.of_nat i)%Z by lia. cbn [Z.of_nat Z.add] in *. rewrite Rmult_1_l in *.
  repeat split; try assumption; lra.
Qed.

(** * The rate *)
Section Rate.
Context (alpha r_e c m_e e : R) (G : R -> R) (HG : is_gamma G).
Context (Ha : 0 < alpha) (Hr : 0 < r_e) (Hc : 0 < c) (Hm : 0 < m_e) (He : 0 < e).
Lemma wa_pos : 0 < wa alpha r_e c.
Proof. unfold wa. apply Rdiv_lt_0_compat; [|exact Hr]. apply Rmult_lt_0_compat; [apply pow_lt, Ha|exact Hc]. Qed.
Lemma Ea_pos : 0 < Ea alpha r_e c m_e e.
Proof.
  unfold Ea. apply Rdiv_lt_0_compat; [|exact Hr]. apply Rmult_lt_0_compat; [|apply pow_lt, Ha].
  apply Rdiv_lt_0_compat; [|exact He]. apply Rmult_lt_0_compat; [exact Hm|apply pow_lt, Hc].
Qed.
Definition rate (us : list Q) (i : nat) (u u0 : Q) (E : R) : R :=
  adk_rate G (wa alpha r_e c) (Ea alpha r_e c m_e e) (Q2R qH) (Q2R u) (IZR (Z.of_nat i + 1)) (neff 0 u0 - 1) E.
Lemma Rpower_pos x y : 0 < Rpower x y. Proof. unfold Rpower. apply exp_pos. Qed.

Lemma rate_pos el us i u u0 E : lookup el = Some us -> nth_error us i = Some u -> nth_error us 0 = Some u0 -> 0 < E -> 0 < rate us i u u0 E.
Proof.
  intros H1 H2 H3 HE. destruct (lookup_ok el us i u H1 H2) as (v & E0 & Pu & Pn & Pn0 & Pl & _). rewrite H3 in E0. injection E0 as <-.
  unfold rate, adk_rate. fold (neff i u). destruct HG as (_ & _ & Gp). cbv zeta.
  assert (0 < G (neff i u + (neff 0 u0 - 1) + 1)) by (apply Gp; lra). assert (0 < G (neff i u - (neff 0 u0 - 1))) by (apply Gp; lra).
  pose proof wa_pos. pose proof qH_pos.
  apply Rmult_lt_0_compat; [|apply exp_pos]. apply Rmult_lt_0_compat; [|apply Rpower_pos]. apply Rmult_lt_0_compat; [|apply Rdiv_lt_0_compat; [exact Pu|apply Rmult_lt_0_compat; [lra|assumption]]].
  apply Rmult_lt_0_compat; [assumption|]. apply Rdiv_lt_0_compat; [apply Rpower_pos|]. apply Rmult_lt_0_compat; [|assumption]. apply Rmult_lt_0_compat; [lra|assumption].
Qed.

Lemma init_ok el dt lm lmax tab us : lookup el = Some us -> initialize_ADK_parameters alpha r_e c m_e e G el dt lm = Ok (lmax, tab) ->
  forall i u u0, nth_error us i = Some u -> nth_error us 0 = Some u0 -> forall E g, 0 < E -> 0 < g ->
  get_ionization_probability E g (adk_prefactor tab (Z.of_nat i)) (adk_power tab (Z.of_nat i)) (adk_exp_prefactor tab (Z.of_nat i)) =
  1 - exp (- (rate us i u u0 E * (dt / g))).
Proof.
  intros Hl Hi i u u0 Hu Hu0 E g HE Hg. destruct (lookup_ok el us i u Hl Hu) as (v & E0 & Pu & Pn & Pn0 & Pl & _). rewrite Hu0 in E0. injection E0 as <-.
  destruct (lookup_ok el us 0 u0 Hl Hu0) as (_ & _ & Pu0 & _).
  unfold initialize_ADK_parameters, get_ionization_energies in Hi. rewrite Hl in Hi. cbv zeta in Hi.
  match type of Hi with bind ?x _ = _ => destruct x as [m|]; cbn [bind] in Hi; [|discriminate] end.
  change (lookup "H") with (Some [qH]) in Hi. cbn [map] in Hi. injection Hi as _ <-.
  cbn [adk_prefactor adk_power adk_exp_prefactor]. unfold get_ionization_probability.
  destruct (Req_EM_T E 0) as [Z|_]; [lra|]. cbv zeta. do 2 f_equal. apply (f_equal Ropp).
  assert (N : forall j w, nth_error us j = Some w -> nth (Z.to_nat (Z.of_nat j)) (map (fun q => e * Q2R q) us) 0 = e * Q2R w).
  { intros j w Hj. rewrite Nat2Z.id. apply nth_error_nth. rewrite nth_error_map, Hj. reflexivity. }
  pose proof qH_pos as PH.
  assert (Q1 : e * Q2R qH / (e * Q2R u) = Q2R qH / Q2R u) by (field; lra).
  assert (Q2 : e * Q2R qH / (e * Q2R u0) = Q2R qH / Q2R u0) by (field; lra).
  assert (Q3 : e * Q2R u / (e * Q2R qH) = Q2R u / Q2R qH) by (field; lra).
  assert (Q4 : e * Q2R u / (2 * (e * Q2R qH)) = Q2R u / (2 * Q2R qH)) by (field; lra).
  assert (NE : n_eff (e * Q2R qH) (map (fun q => e * Q2R q) us) (Z.of_nat i) = neff i u) by (unfold n_eff, neff; rewrite (N _ _ Hu), Q1; reflexivity).
  assert (NL : l_eff (e * Q2R qH) (map (fun q => e * Q2R q) us) = neff 0 u0 - 1).
  { unfold l_eff, n_eff, neff. change 0%Z with (Z.of_nat 0) at 2. rewrite (N _ _ Hu0), Q2. reflexivity. }
  unfold C2. cbv zeta. rewrite NE, NL, (N _ _ Hu), Q3, Q4. unfold rate, adk_rate. fold (neff i u). cbv zeta.
  set (n := neff i u) in *. set (l := neff 0 u0 - 1) in *. set (E0 := Rpower (Q2R u / Q2R qH) (3 / 2) * Ea alpha r_e c m_e e).
  assert (PE0 : 0 < E0) by (apply Rmult_lt_0_compat; [apply Rpower_pos|apply Ea_pos]).
  assert (X1 : Rpower (2 * Rpower (Q2R u / Q2R qH) (3 / 2) * Ea alpha r_e c m_e e) (2 * n - 1) * Rpower E (- (2 * n - 1)) = Rpower (2 * E0 / E) (2 * n - 1)).
  { rewrite Rmult_assoc. fold E0. unfold Rdiv. clearbody E0. unfold Rpower. rewrite <- exp_plus. f_equal.
    rewrite (ln_mult (2 * E0) (/ E)), ln_Rinv by (try apply Rinv_0_lt_compat; lra). ring. }
  replace (- 2 / 3 * Rpower (Q2R u / Q2R qH) (3 / 2) * Ea alpha r_e c m_e e / E) with (- (2 / 3) * (E0 / E)) by (unfold E0; field; lra).
  rewrite <- X1. unfold Rdiv. ring.
Qed.

(** Chance of ionization over two successive intervals. *)
Lemma prob_add w t1 t2 g : 1 - exp (- (w * ((t1 + t2) / g))) =
  (1 - exp (- (w * (t1 / g)))) + (1 - (1 - exp (- (w * (t1 / g))))) * (1 - exp (- (w * (t2 / g)))).
Proof. replace (- (w * ((t1 + t2) / g))) with (- (w * (t1 / g)) + - (w * (t2 / g))) by (unfold Rdiv; ring). rewrite exp_plus. ring. Qed.
Lemma prob_bounds w t : 0 < w -> 0 < t -> 0 < 1 - exp (- (w * t)) < 1.
Proof.
  intros Hw Ht. pose proof (exp_pos (- (w * t))). assert (exp (- (w * t)) < 1); [|lra].
  rewrite <- exp_0. apply exp_increasing. assert (0 < w * t) by (apply Rmult_lt_0_compat; assumption). lra.
Qed.
Lemma prob_incr w1 w2 t : 0 < t -> w1 < w2 -> 1 - exp (- (w1 * t)) < 1 - exp (- (w2 * t)).
Proof. intros Ht H. assert (exp (- (w2 * t)) < exp (- (w1 * t))); [apply exp_increasing; assert (w1 * t < w2 * t) by (apply Rmult_lt_compat_r; assumption); lra|lra]. Qed.

(** Dependence on the field. *)
Definition peak (i : nat) (u : Q) : R := 2 / 3 * (Rpower (Q2R u / Q2R qH) (3 / 2) * Ea alpha r_e c m_e e) / (2 * neff i u - 1).
Lemma ln_lt_sub x : 0 < x -> x <> 1 -> ln x < x - 1.
Proof.
  intros Hx Hn. assert (H : 1 + ln x < exp (ln x)).
  { apply exp_ineq1. intros E. apply Hn. rewrite <- (exp_ln x Hx), E. apply exp_0. }
  rewrite exp_ln in H by exact Hx. lra.
Qed.
Lemma rate_lt us i u u0 E1 E2 : 0 < E1 -> 0 < E2 -> 0 < rate us i u u0 E1 -> 0 < rate us i u u0 E2 ->
  (2 * neff i u - 1) * (ln E2 - ln E1) < 2 / 3 * (Rpower (Q2R u / Q2R qH) (3 / 2) * Ea alpha r_e c m_e e) * (/ E1 - / E2) ->
  rate us i u u0 E1 < rate us i u u0 E2.
Proof.
  intros P1 P2 R1 R2 H. unfold rate, adk_rate in *. fold (neff i u) in *. cbv zeta in *.
  set (n := neff i u) in *. set (E0 := Rpower (Q2R u / Q2R qH) (3 / 2) * Ea alpha r_e c m_e e) in *.
  assert (PE0 : 0 < E0) by (apply Rmult_lt_0_compat; [apply Rpower_pos|apply Ea_pos]).
  set (K := wa alpha r_e c * _ * _) in *.
  assert (PK : 0 < K).
  { pose proof (Rpower_pos (2 * E0 / E1) (2 * n - 1)) as A. pose proof (exp_pos (- (2 / 3) * (E0 / E1))) as B.
    destruct (Rlt_dec 0 K) as [|N]; [assumption|]. exfalso. apply (Rlt_irrefl 0). eapply Rlt_le_trans; [exact R1|].
    assert (K <= 0) by lra. assert (0 <= Rpower (2 * E0 / E1) (2 * n - 1) * exp (- (2 / 3) * (E0 / E1))) by (apply Rlt_le, Rmult_lt_0_compat; assumption).
    rewrite Rmult_assoc. nra. }
  rewrite !Rmult_assoc. apply Rmult_lt_compat_l; [exact PK|]. unfold Rpower. rewrite <- !exp_plus. apply exp_increasing.
  unfold Rdiv. rewrite !ln_mult, !ln_Rinv by (try apply Rinv_0_lt_compat; lra). lra.
Qed.
Lemma rate_increasing el us i u u0 E1 E2 : lookup el = Some us -> nth_error us i = Some u -> nth_error us 0 = Some u0 ->
  0 < E1 -> E1 < E2 -> E2 <= peak i u -> rate us i u u0 E1 < rate us i u u0 E2.
Proof.
  intros L1 L2 L3 P1 P12 HP. destruct (lookup_ok el us i u L1 L2) as (v & _ & Pu & Pn & _).
  apply rate_lt; [lra|lra|eapply rate_pos; eauto; lra|eapply rate_pos; eauto; lra|].
  set (n := neff i u) in *. unfold peak in HP. fold n in HP. set (K := 2 / 3 * _) in *.
  assert (HK : E2 * (2 * n - 1) <= K).
  { apply (Rmult_le_compat_r (2 * n - 1)) in HP; [|lra]. replace (K / (2 * n - 1) * (2 * n - 1)) with K in HP by (field; lra). exact HP. }
  assert (Hln : ln E2 - ln E1 < E2 / E1 - 1).
  { replace (ln E2 - ln E1) with (ln (E2 / E1)); [|unfold Rdiv; rewrite ln_mult, ln_Rinv by (try apply Rinv_0_lt_compat; lra); ring].
    apply ln_lt_sub; [apply Rdiv_lt_0_compat; lra|]. intros X. assert (E2 = E1); [|lra]. apply (f_equal (fun x => x * E1)) in X. replace (E2 / E1 * E1) with E2 in X by (field; lra). lra. }
  apply Rlt_le_trans with ((2 * n - 1) * (E2 / E1 - 1)); [apply Rmult_lt_compat_l; lra|].
  replace (E2 / E1 - 1) with (E2 * (/ E1 - / E2)) by (field; lra). rewrite <- Rmult_assoc. apply Rmult_le_compat_r; [|lra].
  assert (/ E2 < / E1) by (apply Rinv_lt_contravar; [apply Rmult_lt_0_compat|]; lra). lra.
Qed.
Lemma rate_decreasing el us i u u0 E1 E2 : lookup el = Some us -> nth_error us i = Some u -> nth_error us 0 = Some u0 ->
  peak i u <= E1 -> E1 < E2 -> rate us i u u0 E2 < rate us i u u0 E1.
Proof.
  intros L1 L2 L3 HP P12. destruct (lookup_ok el us i u L1 L2) as (v & _ & Pu & Pn & _).
  set (n := neff i u) in *. unfold peak in HP. fold n in HP. set (K := 2 / 3 * _) in *.
  assert (PK : 0 < K) by (unfold K; apply Rmult_lt_0_compat; [lra|apply Rmult_lt_0_compat; [apply Rpower_pos|apply Ea_pos]]).
  assert (P1 : 0 < E1) by (eapply Rlt_le_trans; [|exact HP]; apply Rdiv_lt_0_compat; lra).
  apply rate_lt; [lra|lra|eapply rate_pos; eauto; lra|eapply rate_pos; eauto; lra|]. fold n. fold K.
  assert (HK : K <= E1 * (2 * n - 1)).
  { apply (Rmult_le_compat_r (2 * n - 1)) in HP; [|lra]. replace (K / (2 * n - 1) * (2 * n - 1)) with K in HP by (field; lra). exact HP. }
  assert (Hln : ln E1 - ln E2 < E1 / E2 - 1).
  { replace (ln E1 - ln E2) with (ln (E1 / E2)); [|unfold Rdiv; rewrite ln_mult, ln_Rinv by (try apply Rinv_0_lt_compat; lra); ring].
    apply ln_lt_sub; [apply Rdiv_lt_0_compat; lra|]. intros X. assert (E1 = E2); [|lra]. apply (f_equal (fun x => x * E2)) in X. replace (E1 / E2 * E2) with E1 in X by (field; lra). lra. }
  apply Rlt_le_trans with ((2 * n - 1) * (E1 / E2 - 1)); [apply Rmult_lt_compat_l; lra|].
  replace (E1 / E2 - 1) with (E1 * (/ E2 - / E1)) by (field; lra). rewrite <- Rmult_assoc.
  assert (X : / E2 < / E1) by (apply Rinv_lt_contravar; [apply Rmult_lt_0_compat|]; lra).
  apply Ropp_le_cancel. rewrite !Ropp_mult_distr_r. apply Rmult_le_compat_r; lra.
Qed.

(** Hydrogen. *)
Lemma hydrogen E : 0 < E -> rate [qH] 0 qH qH E = 4 * wa alpha r_e c * (Ea alpha r_e c m_e e / E) * exp (- (2 / 3) * (Ea alpha r_e c m_e e / E)).
Proof.
  intros HE. pose proof qH_pos as PH. pose proof Ea_pos as PE. unfold rate, adk_rate, neff. replace (Q2R qH / Q2R qH) with 1 by (field; lra). rewrite sqrt_1.
  cbn [Z.of_nat Z.add]. cbv zeta. assert (P1 : Rpower 1 (3 / 2) = 1) by (unfold Rpower; rewrite ln_1, Rmult_0_r; apply exp_0). rewrite P1, !Rmult_1_l, !Rmult_1_r.
  destruct HG as (G1 & G2 & G3). replace (1 + (1 - 1) + 1) with (1 + 1) by ring. replace (1 - (1 - 1)) with 1 by ring.
  rewrite (G2 1) by lra. rewrite G1. replace (2 - 1) with 1 by ring. rewrite Rpower_1 by (apply Rdiv_lt_0_compat; lra).
  replace (Rpower 2 2) with 4 by (change 2 with (INR 2) at 2; rewrite Rpower_pow by lra; ring). field. lra.
Qed.
End Rate.
