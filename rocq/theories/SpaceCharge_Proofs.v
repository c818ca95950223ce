From Verif Require Import Base Fourier_Lib Deposit_Model Deposit_Spec Deposit_Proofs Hankel_Model Hankel_Proofs Smooth_Model Psatd_Sources Psatd_Model Psatd_Spec SpaceCharge_Model.
From Coq Require Import Reals Lra Lia.
From Coquelicot Require Import Complex.
Open Scope Z_scope.

(** ** The mean Lorentz factor *)
Lemma sum_scal (f h : R * R -> R) (k : R) l : (forall p, In p l -> f p = k * h p)%R -> fold_right Rplus 0%R (map f l) = (k * fold_right Rplus 0%R (map h l))%R.
Proof. intros H. induction l as [|a l IH]; cbn [map fold_right]; [ring|]. rewrite IH, (H a); [ring|left; reflexivity|intros; apply H; right; assumption]. Qed.
Lemma mean_gamma_ok ranks gm : gm <> 0%R -> (forall l p, In l ranks -> In p l -> snd p = 1 / gm)%R ->
  fold_right Rplus 0%R (map (fun l => fold_right Rplus 0%R (map fst l)) ranks) <> 0%R -> mean_gamma ranks = Some gm.
Proof.
  intros Hg H N. unfold mean_gamma. destruct (Req_EM_T _ 0) as [E|_]; [contradiction|]. f_equal.
  match goal with |- (?a / ?b)%R = _ => assert (E : a = (gm * b)%R) end.
  { clear N. induction ranks as [|l ranks IH]; cbn [map fold_right]; [ring|]. rewrite IH by (intros; eapply H; [right; eassumption|eassumption]).
    rewrite (sum_scal (fun p => fst p * 1 / snd p)%R fst gm); [ring|]. intros p Hp. rewrite (H l p) by (try left; auto). field. assumption. }
  rewrite E. field. exact N.
Qed.

Lemma neg_half_R : (-0.5)%R = (- (1 / 2))%R. Proof. lra. Qed.
(** ** One mode *)
Section Mode.
Context (c mu_0 epsilon_0 : R) (Hc : (0 < c)%R) (He : (0 < epsilon_0)%R) (Hmu : (mu_0 * epsilon_0 * c ^ 2 = 1)%R).
Context (kz kr gm : R) (Hg : (1 <= gm)%R) (backward : bool) (s : mode).
Definition beta_of (gm : R) (backward : bool) : R := (if backward then sqrt (1 - 1 / gm ^ 2) * -1 else sqrt (1 - 1 / gm ^ 2))%R.
Hypothesis Hz0 : Ep s = RtoC 0 /\ Em s = RtoC 0 /\ Ez s = RtoC 0 /\ Bp s = RtoC 0 /\ Bm s = RtoC 0 /\ Bz s = RtoC 0.
Hypothesis Hj : Psatd_Model.Jz s = Cmult (RtoC (beta_of gm backward * c)) (rho_prev s).
Hypothesis Hk : ~ (kz = 0%R /\ kr = 0%R).
Lemma beta_sq : (beta_of gm backward ^ 2 = 1 - 1 / gm ^ 2)%R.
Proof.
  assert (G2 : (1 <= gm ^ 2)%R) by nra. assert (I : (0 < 1 / gm ^ 2 <= 1)%R).
  { split; [apply Rdiv_lt_0_compat; lra|]. apply (Rmult_le_reg_r (gm ^ 2)); [lra|]. replace (1 / gm ^ 2 * gm ^ 2)%R with 1%R by (field; lra). lra. }
  pose proof (sqrt_sqrt (1 - 1 / gm ^ 2) ltac:(lra)) as S. unfold beta_of. destruct backward; (etransitivity; [|exact S]); ring.
Qed.
Lemma K2_neq : (kr ^ 2 + kz ^ 2 * 1 / gm ^ 2 <> 0)%R.
Proof.
  intros E. assert (G2 : (1 <= gm ^ 2)%R) by nra. assert (0 < / gm ^ 2)%R by (apply Rinv_0_lt_compat; lra).
  pose proof (pow2_ge_0 kr). pose proof (pow2_ge_0 kz). unfold Rdiv in E. rewrite Rmult_1_r in E.
  assert (0 <= kz ^ 2 * / gm ^ 2)%R by (apply Rmult_le_pos; lra). assert (kr ^ 2 = 0)%R by lra. assert (Z0 : (kz ^ 2 * / gm ^ 2 = 0)%R) by lra.
  apply Rmult_integral in Z0. destruct Z0 as [Z0|]; [|lra]. apply Hk. split; nra.
Qed.
Let s' := space_charge_spect c mu_0 epsilon_0 kz kr gm backward true s.
Lemma maxwell :
  div kz kr (E_of s') = (rho_prev s / epsilon_0)%C /\ div kz kr (B_of s') = RtoC 0 /\
  (* d/dt = - i kz v *)
  curl kz kr (E_of s') = vscal (Ci * RtoC kz * RtoC (beta_of gm backward * c))%C (B_of s') /\
  curl kz kr (B_of s') = vadd (vscal (RtoC mu_0) {| vp := RtoC 0; vm := RtoC 0; vz := (RtoC (beta_of gm backward * c) * rho_prev s)%C |})
                              (vscal (- (Ci * RtoC kz * RtoC (beta_of gm backward * c) / RtoC (c ^ 2)))%C (E_of s')).
Proof.
  pose proof beta_sq as B2. pose proof K2_neq as K. destruct Hz0 as (Z1 & Z2 & Z3 & Z4 & Z5 & Z6).
  unfold s', space_charge_spect. cbv zeta. fold (beta_of gm backward). destruct (Req_EM_T _ 0) as [E|_]; [contradiction|].
  assert (KK : (kr ^ 2 + kz ^ 2 * 1 / gm ^ 2 = kr ^ 2 + kz ^ 2 * (1 - beta_of gm backward ^ 2))%R) by (rewrite B2; field; nra).
  rewrite KK in *. clear KK B2 Hz0. rewrite Hj. clear Hj. clear Hk. revert K.
  assert (Em0 : mu_0 = (1 / (epsilon_0 * c ^ 2))%R).
  { apply (Rmult_eq_reg_r (epsilon_0 * c ^ 2)); [|assert (0 < c ^ 2)%R by nra; apply Rmult_integral_contrapositive; split; lra]. transitivity (mu_0 * epsilon_0 * c ^ 2)%R; [ring|rewrite Hmu; field; split; lra]. }
  rewrite Em0. generalize (beta_of gm backward). intros b K. destruct s as [ep em ez bp bm bz jp jm jz rp rn rz rxy]. destruct rp as [a a'].
  cbn [Ep Em Ez Bp Bm Bz Psatd_Model.Jz rho_prev] in *. subst ep em ez bp bm bz.
  unfold div, curl, vscal, vadd, E_of, B_of, set_B, set_E. cbn [vp vm vz Ep Em Ez Bp Bm Bz].
  rewrite !RtoC_mult, Hankel_Proofs.half_R, neg_half_R.
  repeat split; [| |f_equal|f_equal]; apply injective_projections; simpl; field; repeat split; try lra; intros EE; apply K; rewrite <- EE; ring.
Qed.
End Mode.

(** ** From the particles *)
Lemma scal_jz c w p m : scal c Deposit_Model.Jz w p m = Cmult (RtoC (c * p_ig p * p_uz p)) (scal c Rho w p m).
Proof. induction m as [|m IH]; cbn [scal scal0]; [rewrite <- RtoC_mult; f_equal; ring|]. rewrite IH. ring. Qed.
Lemma contrib_jz c g m sp p phi : pair_with phi (contrib c g Deposit_Model.Jz m sp p) = Cmult (RtoC (c * p_ig p * p_uz p)) (pair_with phi (contrib c g Rho m sp p)).
Proof.
  unfold pair_with, contrib, contributions. rewrite !lsum_flat_map, <- lsum_scal. apply lsum_ext. intros a _. rewrite !lsum_map, <- lsum_scal. apply lsum_ext. intros b _.
  cbn [fst snd]. rewrite scal_jz. cbn [flip]. ring.
Qed.
Definition rigid (v c : R) (sp : species) : Prop := forall p, In p (sp_ptcl sp) -> (c * p_ig p * p_uz p = v)%R.
Lemma deposit_jz c g m n sp v iz ir : grid_ok g -> threads_ok n [sp] -> all_in_grid g [sp] -> rigid v c sp -> 0 <= iz < g_Nz g -> 0 <= ir < g_Nr g ->
  deposit c g Deposit_Model.Jz m n [] (Some [sp]) iz ir = Cmult (RtoC v) (deposit c g Rho m n [] (Some [sp]) iz ir).
Proof.
  intros Hg Ht Hi Hr Hz Hir. rewrite !deposit_cell by assumption. rewrite Cmult_assoc. f_equal. rewrite <- lsum_scal. apply lsum_ext. intros s Hs.
  apply filter_In in Hs as [Hs _]. cbn in Hs. destruct Hs as [<-|[]]. rewrite <- lsum_scal. apply lsum_ext. intros p Hp. rewrite contrib_jz, (Hr p Hp). reflexivity.
Qed.
Lemma transform_scal tr F G v iz ir : 0 <= iz < t_Nz tr -> (forall i j, 0 <= i < t_Nz tr -> 0 <= j < t_Nr tr -> F i j = Cmult (RtoC v) (G i j)) ->
  interp2spect_scal tr F iz ir = Cmult (RtoC v) (interp2spect_scal tr G iz ir).
Proof.
  intros Hz H. unfold interp2spect_scal. rewrite !dht_sum by assumption. rewrite <- lsum_scal. apply lsum_ext. intros j Hj. apply in_range in Hj.
  unfold fft. rewrite Cmult_assoc, <- lsum_scal. f_equal. apply lsum_ext. intros i Hi. apply in_range in Hi. rewrite H by lia. ring.
Qed.
Lemma smoothed_scal sm zeros rmax Nz Nr m dz dr F G v iz ir : F iz ir = Cmult (RtoC v) (G iz ir) ->
  smoothed sm zeros rmax Nz Nr m dz dr F iz ir = Cmult (RtoC v) (smoothed sm zeros rmax Nz Nr m dz dr G iz ir).
Proof. intros H. unfold smoothed. destruct sm; [|exact H]. unfold filter_spect, filter_scalar. rewrite H. ring. Qed.
Lemma sources_rigid c g tr cells sm zeros rmax n m sp v iz ir : grid_ok g -> threads_ok n [sp] -> all_in_grid g [sp] -> rigid v c sp -> t_Nz tr = g_Nz g -> t_Nr tr = g_Nr g ->
  0 <= iz < g_Nz g -> let s := bunch_sources c g tr cells sm zeros rmax n m sp iz ir in Psatd_Model.Jz s = Cmult (RtoC v) (rho_prev s).
Proof.
  intros Hg Ht Hi Hr E1 E2 Hz. cbn. apply smoothed_scal. apply transform_scal; [lia|]. intros i j H1 H2. apply deposit_jz; try assumption; lia.
Qed.
