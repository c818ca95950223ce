(** The Gaussian integral. *)
From Verif Require Import Base.
From Coq Require Import Reals Lra Psatz.
From Coquelicot Require Import Coquelicot.
Open Scope R_scope.

Definition int_R (f : R -> R) (l : R) : Prop :=
  is_RInt_gen (V := R_NormedModule) f (Rbar_locally m_infty) (Rbar_locally p_infty) l.

Lemma is_RInt_val (f : R -> R) u v (l l' : R) : is_RInt (V := R_NormedModule) f u v l -> l = l' -> is_RInt (V := R_NormedModule) f u v l'.
Proof. intros H <-. exact H. Qed.

Definition g (x : R) := exp (- x ^ 2).
Definition gA (t : R) := RInt g 0 t.
Definition gf (t x : R) := exp (- t ^ 2 * (1 + x ^ 2)) / (1 + x ^ 2).
Definition gB (t : R) := RInt (gf t) 0 1.

Lemma g_cont x : continuous g x.
Proof. apply (ex_derive_continuous (K := R_AbsRing) (V := R_NormedModule)). unfold g. auto_derive. exact I. Qed.
Lemma g_ex a b : ex_RInt (V := R_NormedModule) g a b.
Proof. apply (ex_RInt_continuous (V := R_CompleteNormedModule)). intros z _. apply g_cont. Qed.
Lemma gA_derive t : is_derive gA t (g t).
Proof.
  unfold gA. apply (is_derive_RInt (V := R_CompleteNormedModule) g _ 0 t).
  - exists (mkposreal 1 Rlt_0_1). intros y _. apply (RInt_correct (V := R_CompleteNormedModule)), g_ex.
  - apply g_cont.
Qed.
Lemma one_sq x : 0 < 1 + x ^ 2.
Proof. pose proof (pow2_ge_0 x). lra. Qed.
Lemma gf_derive t x : is_derive (fun u => gf u x) t (- 2 * t * exp (- t ^ 2 * (1 + x ^ 2))).
Proof. pose proof (one_sq x). unfold gf. auto_derive; [lra|]. replace (- (t * (t * 1)) * (1 + x * (x * 1))) with (- t ^ 2 * (1 + x ^ 2)) by ring. field. lra. Qed.
Lemma gf_cont t x : continuous (gf t) x.
Proof. pose proof (one_sq x). apply (ex_derive_continuous (K := R_AbsRing) (V := R_NormedModule)). unfold gf. auto_derive. lra. Qed.
Lemma gf_ex t : ex_RInt (V := R_NormedModule) (gf t) 0 1.
Proof. apply (ex_RInt_continuous (V := R_CompleteNormedModule)). intros z _. apply gf_cont. Qed.
Lemma gB_derive t : is_derive gB t (- 2 * g t * gA t).
Proof.
  assert (D : is_derive gB t (RInt (fun x => Derive (fun u => gf u x) t) 0 1)).
  { unfold gB. apply (is_derive_RInt_param gf 0 1 t).
    - exists (mkposreal 1 Rlt_0_1). intros u _ x _. eexists. apply gf_derive.
    - intros x _. apply continuity_2d_pt_ext with (fun u v => - 2 * u * exp (- u ^ 2 * (1 + v ^ 2))).
      + intros u v. symmetry. apply is_derive_unique, gf_derive.
      + apply continuity_2d_pt_mult.
        * apply continuity_2d_pt_mult; [apply continuity_2d_pt_const|apply continuity_2d_pt_id1].
        * apply (continuity_1d_2d_pt_comp exp); [apply derivable_continuous_pt, derivable_pt_exp|].
          apply continuity_2d_pt_ext with (fun u v => (- (u * u)) * (1 + v * v)); [intros; ring|].
          apply continuity_2d_pt_mult.
          -- apply continuity_2d_pt_opp. apply continuity_2d_pt_mult; apply continuity_2d_pt_id1.
          -- apply continuity_2d_pt_plus; [apply continuity_2d_pt_const|]. apply continuity_2d_pt_mult; apply continuity_2d_pt_id2.
    - exists (mkposreal 1 Rlt_0_1). intros u _. apply gf_ex. }
  replace (- 2 * g t * gA t) with (RInt (fun x => Derive (fun u => gf u x) t) 0 1); [exact D|].
  apply is_RInt_unique.
  apply (is_RInt_ext (V := R_NormedModule) (fun x => scal (- 2 * g t) (scal t (g (t * x + 0))))).
  { intros x _. transitivity (- 2 * t * exp (- t ^ 2 * (1 + x ^ 2))); [|symmetry; apply is_derive_unique, gf_derive].
    unfold scal; simpl; unfold mult; simpl. unfold g. simpl.
    change (- 2 * exp (- (t * (t * 1))) * (t * exp (- ((t * x + 0) * ((t * x + 0) * 1)))) = - 2 * t * exp (- (t * (t * 1)) * (1 + x * (x * 1)))).
    replace (- (t * (t * 1)) * (1 + x * (x * 1))) with (- (t * (t * 1)) + - ((t * x + 0) * ((t * x + 0) * 1))) by ring.
    rewrite exp_plus. ring. }
  apply (is_RInt_scal (V := R_NormedModule) (fun x => scal t (g (t * x + 0))) 0 1 (- 2 * g t) (gA t)). apply (is_RInt_comp_lin (V := R_NormedModule) g t 0 0 1).
  assert (E0 : t * 0 + 0 = 0) by ring. assert (E1 : t * 1 + 0 = t) by ring. rewrite E0, E1.
  apply (RInt_correct (V := R_CompleteNormedModule)), g_ex.
Qed.
Lemma gB_0 : gB 0 = PI / 4.
Proof.
  unfold gB. apply is_RInt_unique. apply (is_RInt_ext (V := R_NormedModule) (fun x => / (1 + x ^ 2))).
  { intros x _. unfold gf. replace (- 0 ^ 2 * (1 + x ^ 2)) with 0 by ring. rewrite exp_0. unfold Rdiv. symmetry. apply Rmult_1_l. }
  apply (is_RInt_val _ _ _ (minus (atan 1) (atan 0) : R)).
  - apply (is_RInt_derive (V := R_CompleteNormedModule) atan).
    + intros x _. apply is_derive_Reals. apply derivable_pt_lim_atan.
    + intros x _. apply (ex_derive_continuous (K := R_AbsRing) (V := R_NormedModule)). pose proof (one_sq x). auto_derive. lra.
  - rewrite atan_1, atan_0. unfold minus, plus, opp; simpl. lra.
Qed.
Lemma gA_0 : gA 0 = 0.
Proof. unfold gA. rewrite RInt_point. reflexivity. Qed.
Lemma gAB t : gA t ^ 2 + gB t = PI / 4.
Proof.
  assert (D : forall s, is_derive (fun u => gA u ^ 2 + gB u) s 0).
  { intros s. pose proof (gA_derive s) as DA. pose proof (gB_derive s) as DB.
    replace 0 with (INR 2 * g s * gA s ^ 1 + - 2 * g s * gA s) by (simpl; ring).
    apply (is_derive_plus (V := R_NormedModule) (fun u => gA u ^ 2) gB); [|exact DB]. apply is_derive_pow, DA. }
  assert (E : forall a b, a < b -> gA a ^ 2 + gB a = gA b ^ 2 + gB b).
  { intros a b Hab. destruct (MVT_gen (fun u => gA u ^ 2 + gB u) a b (fun _ => 0)) as (c & _ & Hc).
    - intros x _. apply D.
    - intros x _. apply derivable_continuous_pt. exists 0. apply is_derive_Reals, D.
    - lra. }
  replace (PI / 4) with (gA 0 ^ 2 + gB 0) by (rewrite gA_0, gB_0; ring).
  destruct (Rtotal_order t 0) as [H|[->|H]]; [apply E, H|reflexivity|symmetry; apply E, H].
Qed.
Lemma gB_range t : 0 <= gB t <= exp (- t ^ 2).
Proof.
  assert (C : forall x, 0 <= gf t x <= exp (- t ^ 2)).
  { intros x. pose proof (one_sq x) as P. pose proof (exp_pos (- t ^ 2 * (1 + x ^ 2))) as Q. unfold gf. split.
    - left. apply Rdiv_lt_0_compat; assumption.
    - apply (Rle_trans _ (exp (- t ^ 2 * (1 + x ^ 2)))).
      + apply (Rmult_le_reg_r (1 + x ^ 2)); [exact P|]. unfold Rdiv. rewrite Rmult_assoc, Rinv_l by lra.
        pose proof (pow2_ge_0 x). nra.
      + assert (H : - t ^ 2 * (1 + x ^ 2) <= - t ^ 2) by (pose proof (pow2_ge_0 x); pose proof (pow2_ge_0 t); nra).
        destruct H as [H| ->]; [left; apply exp_increasing, H|right; reflexivity]. }
  unfold gB. split.
  - apply RInt_ge_0; [lra|apply gf_ex|]. intros x _. apply C.
  - apply (Rle_trans _ (RInt (fun _ => exp (- t ^ 2)) 0 1)).
    + apply RInt_le; [lra|apply gf_ex|apply ex_RInt_const|]. intros x _. apply C.
    + right. rewrite RInt_const. unfold scal; simpl; unfold mult; simpl. ring.
Qed.
Lemma gA_pos t : 0 <= t -> 0 <= gA t.
Proof. intros H. unfold gA. apply RInt_ge_0; [exact H|apply g_ex|]. intros x _. left. apply exp_pos. Qed.
Lemma gA_opp t : gA (- t) = - gA t.
Proof.
  unfold gA. apply is_RInt_unique. pose proof (RInt_correct (V := R_CompleteNormedModule) g 0 t (g_ex 0 t)) as I.
  pose proof (is_RInt_comp_opp (V := R_NormedModule) g 0 (- t) (RInt g 0 t)) as J. rewrite Ropp_0, Ropp_involutive in J.
  apply J in I. apply (is_RInt_opp (V := R_NormedModule)) in I.
  refine (is_RInt_ext (V := R_NormedModule) _ _ _ _ _ _ I). intros x _. unfold opp; simpl. rewrite Ropp_involutive.
  unfold g. f_equal. ring.
Qed.
Lemma exp_sq_lim : is_lim (fun t => exp (- t ^ 2)) p_infty 0.
Proof.
  apply (is_lim_le_le_loc (fun _ => 0) (fun t => exp (- t))).
  - exists 1. intros t Ht. split; [left; apply exp_pos|]. left. apply exp_increasing. nra.
  - apply is_lim_const.
  - apply (is_lim_comp exp (fun t => - t) p_infty 0 m_infty).
    + apply is_lim_exp_m.
    + apply (is_lim_opp (fun t => t) p_infty p_infty). apply is_lim_id.
    + exists 0. intros y _ H. discriminate.
Qed.
Lemma gA_lim : is_lim gA p_infty (sqrt PI / 2).
Proof.
  assert (L : is_lim (fun t => sqrt (PI / 4 - gB t)) p_infty (sqrt (PI / 4 - 0))).
  { apply (filterlim_comp _ _ _ (fun t => PI / 4 - gB t) sqrt (Rbar_locally' p_infty) (locally (PI / 4 - 0))).
    - apply (is_lim_minus' (fun _ => PI / 4) gB p_infty); [apply is_lim_const|].
      apply (is_lim_le_le_loc (fun _ => 0) (fun t => exp (- t ^ 2))); [|apply is_lim_const|apply exp_sq_lim].
      exists 0. intros t _. apply gB_range.
    - apply continuous_sqrt. }
  replace (sqrt PI / 2) with (sqrt (PI / 4 - 0)).
  - apply (is_lim_ext_loc (fun t => sqrt (PI / 4 - gB t))); [|exact L].
    exists 0. intros t Ht. rewrite <- (gAB t). replace (gA t ^ 2 + gB t - gB t) with (gA t ^ 2) by ring.
    apply sqrt_pow2, gA_pos. lra.
  - replace (PI / 4 - 0) with ((sqrt PI / 2) ^ 2).
    + apply sqrt_pow2. pose proof (sqrt_pos PI). lra.
    + replace ((sqrt PI / 2) ^ 2) with ((sqrt PI) ^ 2 / 4) by field. rewrite pow2_sqrt by (pose proof PI_RGT_0; lra). field.
Qed.
Lemma gA_lim_m : is_lim gA m_infty (- (sqrt PI / 2)).
Proof.
  apply (is_lim_ext (fun t => - gA (- t))); [intros t; rewrite gA_opp; ring|].
  apply (is_lim_opp (fun t => gA (- t)) m_infty (sqrt PI / 2)).
  apply (is_lim_comp gA (fun t => - t) m_infty (sqrt PI / 2) p_infty).
  - apply gA_lim. - apply (is_lim_opp (fun t => t) m_infty m_infty). apply is_lim_id.
  - exists 0. intros y _ H. discriminate.
Qed.

(** Integral over the line of a function with an antiderivative that has limits. *)
Lemma int_R_primitive (F f : R -> R) (la lb : R) : (forall x, is_derive F x (f x)) -> (forall x, continuous f x) ->
  is_lim F m_infty la -> is_lim F p_infty lb -> int_R f (lb - la).
Proof.
  intros D Cf La Lb. unfold int_R.
  assert (G : is_RInt_gen (V := R_NormedModule) (Derive F) (Rbar_locally m_infty) (Rbar_locally p_infty) (lb - la)).
  { apply (is_RInt_gen_Derive F la lb).
    - apply filter_forall. intros ab x _. eexists. apply D.
    - apply filter_forall. intros ab x _. apply (continuous_ext f); [intros y; symmetry; apply is_derive_unique, D|apply Cf].
    - exact La. - exact Lb. }
  refine (is_RInt_gen_ext _ _ _ _ G). apply filter_forall. intros ab x _. apply is_derive_unique, D.
Qed.
(** For every center and width. *)
Lemma gaussian (m s : R) : 0 < s -> int_R (fun x => exp (- ((x - m) / s) ^ 2)) (s * sqrt PI).
Proof.
  intros Hs. replace (s * sqrt PI) with (s * (sqrt PI / 2) - s * - (sqrt PI / 2)) by field.
  assert (AD : is_lim (fun x => (x - m) / s) p_infty p_infty).
  { apply (is_lim_ext (fun x => / s * (x - m))); [intros; unfold Rdiv; ring|].
    evar_last; [apply is_lim_scal_l; apply (is_lim_minus (fun x => x) (fun _ => m) p_infty p_infty m); [apply is_lim_id|apply is_lim_const|reflexivity]|].
    apply is_Rbar_mult_unique, is_Rbar_mult_sym. apply (is_Rbar_mult_p_infty_pos (/ s)). apply Rinv_0_lt_compat, Hs. }
  assert (AM : is_lim (fun x => (x - m) / s) m_infty m_infty).
  { apply (is_lim_ext (fun x => / s * (x - m))); [intros; unfold Rdiv; ring|].
    evar_last; [apply is_lim_scal_l; apply (is_lim_minus (fun x => x) (fun _ => m) m_infty m_infty m); [apply is_lim_id|apply is_lim_const|reflexivity]|].
    apply is_Rbar_mult_unique, is_Rbar_mult_sym. apply (is_Rbar_mult_m_infty_pos (/ s)). apply Rinv_0_lt_compat, Hs. }
  apply (int_R_primitive (fun x => s * gA ((x - m) / s)) (fun x => exp (- ((x - m) / s) ^ 2))).
  - intros x. replace (exp (- ((x - m) / s) ^ 2)) with (s * (/ s * g ((x - m) / s))) by (unfold g; field; lra).
    apply (is_derive_scal (fun x => gA ((x - m) / s)) x s). apply (is_derive_comp (V := R_NormedModule) gA (fun x => (x - m) / s)).
    + apply gA_derive. + auto_derive; [lra|]. field. lra.
  - intros x. apply (ex_derive_continuous (K := R_AbsRing) (V := R_NormedModule)). auto_derive. lra.
  - apply (is_lim_scal_l _ s m_infty (- (sqrt PI / 2))). apply (is_lim_comp gA _ m_infty _ m_infty); [apply gA_lim_m|exact AM|].
    exists 0. intros y _ H. discriminate.
  - apply (is_lim_scal_l _ s p_infty (sqrt PI / 2)). apply (is_lim_comp gA _ p_infty _ p_infty); [apply gA_lim|exact AD|].
    exists 0. intros y _ H. discriminate.
Qed.
Lemma int_R_scal (f : R -> R) (k l : R) : int_R f l -> int_R (fun x => k * f x) (k * l).
Proof. intros H. exact (is_RInt_gen_scal f k l H). Qed.
Lemma int_R_ext (f h : R -> R) (l : R) : (forall x, f x = h x) -> int_R f l -> int_R h l.
Proof. intros E H. refine (is_RInt_gen_ext _ _ _ _ H). apply filter_forall. intros ab x _. apply E. Qed.
