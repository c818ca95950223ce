(** The moving window inside the PIC loop (for C15). *)
From Verif Require Import Base Step_Model Step_Spec Step_Proofs.
From Coq Require Import Reals Lra Lia.
From Flocq Require Import Core.Core.
Open Scope Z_scope.

Section W.
Variable k : conf.
Variable exch : Z -> R -> species -> species.
Variable here : R -> ant -> bool.
Variable kick : Z -> ptc -> R * R * R.
Variable laser : R -> ptc -> R * R.
Variable elem : Z -> species -> species.
Notation iteration := (iteration k exch here kick laser elem).
Notation loop := (loop k exch here kick laser elem).
Notation step := (step k exch here kick laser elem).
Notation steps := (steps k exch here kick laser elem).

(** The clock and the window are untouched. *)
Definition still (s s' : state) : Prop := st_win s' = st_win s /\ st_time s' = st_time s.
Lemma still_refl s : still s s. Proof. split; reflexivity. Qed.
Lemma still_trans a b c : still a b -> still b c -> still a c.
Proof. intros [A B] [A' B']. split; congruence. Qed.
Lemma still_if (b : bool) s x y : still s x -> still s y -> still s (if b then x else y).
Proof. destruct b; auto. Qed.
Lemma still_gal d s : still s (maybe_galilean k d s).
Proof. unfold maybe_galilean. destruct (k_gal k); apply still_refl || (split; reflexivity). Qed.
Lemma still_write mk l : forall i it s, let s' := write_all mk i l it s in
  still s s' /\ st_zmin s' = st_zmin s /\ st_gmin s' = st_gmin s.
Proof.
  induction l as [|d l IH]; intros i it s; simpl; [split; [apply still_refl|auto]|].
  destruct (IH (S i) it (if writes d it then emit (mk i it) s else s)) as ([A B] & D & E). cbv zeta in *.
  destruct (writes d it); split; try split; auto.
Qed.
Ltac st := first [apply still_refl | split; reflexivity | apply still_gal].
Lemma still_cross mp s : still s (cross_deposit k mp s).
Proof.
  unfold cross_deposit. cbv zeta beta.
  eapply still_trans; [|apply still_gal]. eapply still_trans; [|st]. eapply still_trans; [|apply still_if; st].
  eapply still_trans; [|st]. eapply still_trans; [|apply still_gal]. eapply still_trans; [|st].
  eapply still_trans; [|apply still_if; st]. eapply still_trans; [|st]. eapply still_trans; [|apply still_gal].
  eapply still_trans; [|st]. apply still_if; st.
Qed.
Lemma still_field o s s' : field_update k o s = Ok s' -> still s s'.
Proof.
  unfold field_update. cbv zeta.
  set (r := if o_cc o then _ else _).
  assert (R1 : forall s1, r = Ok s1 -> still s s1).
  { unfold r. destruct (o_cc o).
    - unfold correct_currents. destruct (if 1 <? k_size k then _ else _) as [u|]; simpl; [|discriminate].
      intros s1 H. injection H as <-. split; reflexivity.
    - intros s1 H. injection H as <-. apply still_refl. }
  clearbody r. destruct r as [s1|]; cbn [bind]; [|discriminate].
  unfold push_fields. destruct (if 1 <? k_size k then _ else _) as [u|]; cbn [bind]; [|discriminate].
  intros H. apply still_trans with s1; [apply R1; reflexivity|].
  destruct (o_divE o).
  - unfold correct_divE in H. destruct (k_cross k); [discriminate|]. injection H as <-. split; reflexivity.
  - injection H as <-. split; reflexivity.
Qed.
Lemma still_iteration o b s s' : iteration o b s = Ok s' -> exists s1, still s s1 /\ s' = end_of_step k s1.
Proof.
  unfold Step_Model.iteration. cbv zeta.
  set (s1 := if _ || _ then _ else _). set (s2 := if b then _ else _).
  assert (A : still s s2).
  { apply still_trans with s1; [apply still_if; st|apply still_if; st]. }
  clearbody s2. clear s1.
  assert (B : still s2 (first_half k kick laser elem o s2)).
  { unfold first_half. cbv zeta. eapply still_trans; [|split; reflexivity].
    eapply still_trans; [|apply still_gal]. eapply still_trans; [|st].
    eapply still_trans; [|apply still_if; st]. eapply still_trans; [|apply still_if; st].
    eapply still_trans; [|apply still_write]. split; reflexivity. }
  set (s3 := first_half _ _ _ _ _ _) in *. clearbody s3.
  assert (D : still s3 (second_half k o s3)).
  { unfold second_half. cbv zeta. eapply still_trans; [|split; reflexivity].
    eapply still_trans; [|apply still_gal]. eapply still_trans; [|st].
    eapply still_trans; [|apply still_if; st]. eapply still_trans; [|apply still_if; [apply still_cross|st]]. st. }
  set (s4 := second_half _ _ _) in *. clearbody s4.
  destruct (field_update k o s4) as [s5|] eqn:F; cbn [bind]; [|discriminate].
  intros H. injection H as <-. exists s5. split; [|reflexivity].
  apply still_field in F. eauto using still_trans.
Qed.

Lemma trunc_near a d : (0 < d)%R -> (Rabs (a - IZR (Ztrunc (a / d)) * d) < d)%R.
Proof.
  intros D. assert (E : a = (a / d * d)%R) by (field; lra). set (q := (a / d)%R) in *. rewrite E. clear E.
  replace (q * d - IZR (Ztrunc q) * d)%R with ((q - IZR (Ztrunc q)) * d)%R by ring.
  rewrite Rabs_mult, (Rabs_right d) by lra.
  assert (Rabs (q - IZR (Ztrunc q)) < 1)%R.
  { unfold Ztrunc. destruct (Rlt_bool_spec q 0) as [L|L].
    - pose proof (Zceil_ub q). pose proof (Zceil_lb q). rewrite Rabs_left1; lra.
    - pose proof (Zfloor_lb q). pose proof (Zfloor_ub q). rewrite Rabs_right; lra. }
  nra.
Qed.

(** What holds of the window at the end of each step of a run. *)
Definition window_at (w0 : window) (s : state) : Prop := exists w, st_win s = Some w /\
  w_v w = w_v w0 /\ w_last w = (st_time s - k_dt k)%R /\
  w_zmin w = (w_zmin w0 + w_v w0 * (w_last w - w_last w0))%R.
Lemma iteration_window o b w0 s s' : (0 < k_dz k)%R -> iteration o b s = Ok s' ->
  window_at w0 s \/ st_win s = Some w0 ->
  window_at w0 s' /\ exists w, st_win s' = Some w /\ (Rabs (w_zmin w - st_zmin s') < k_dz k)%R.
Proof.
  intros D E W. apply still_iteration in E as (s1 & [A B] & ->).
  assert (X : exists w, st_win s1 = Some w /\ w_v w = w_v w0 /\ w_zmin w = (w_zmin w0 + w_v w0 * (w_last w - w_last w0))%R).
  { rewrite A. destruct W as [(w & W1 & W2 & W3 & W4)|W]; [exists w; auto|].
    exists w0. split; [exact W|]. split; [reflexivity|ring]. }
  destruct X as (w & X1 & X2 & X3). clear A B W s.
  unfold end_of_step. cbv zeta. set (s2 := move_grids k (st_time s1) s1).
  assert (Y : st_time s2 = st_time s1 /\ st_win s2 =
    Some {| w_v := w_v w; w_zmin := (w_zmin w + w_v w * (st_time s1 - w_last w))%R; w_last := st_time s1 |} /\
    (Rabs (w_zmin w + w_v w * (st_time s1 - w_last w) - st_zmin s2) < k_dz k)%R).
  { unfold s2, move_grids. rewrite X1. cbv zeta.
    set (zw := (w_zmin w + w_v w * (st_time s1 - w_last w))%R). pose proof (trunc_near (zw - st_zmin s1) (k_dz k) D) as T.
    set (n := Ztrunc _) in *. destruct (Z.eqb_spec n 0) as [N|N]; cbn.
    - split; [reflexivity|]. split; [reflexivity|]. rewrite N in T.
      replace (zw - st_zmin s1)%R with (zw - st_zmin s1 - 0 * k_dz k)%R by ring. exact T.
    - split; [reflexivity|]. split; [reflexivity|].
      replace (zw - (st_zmin s1 + IZR n * k_dz k))%R with (zw - st_zmin s1 - IZR n * k_dz k)%R by ring. exact T. }
  destruct Y as (Y1 & Y2 & Y3). clearbody s2.
  set (s3 := {| st_it := _ |}).
  destruct (still_write EvCheckpoint (k_checks k) 0 (st_it s3) s3) as ([A B] & Zm & _). cbv zeta in *.
  rewrite A, Zm. unfold window_at. rewrite A, B. unfold s3; cbn [st_win st_time st_zmin]. rewrite Y2, Y1. split.
  - eexists. split; [reflexivity|]. cbn [w_v w_zmin w_last]. split; [exact X2|]. split; [ring|].
    rewrite X3, X2. ring.
  - eexists. split; [reflexivity|]. exact Y3.
Qed.
Lemma loop_window o w0 : (0 < k_dz k)%R -> forall n b s s', loop o b n s = Ok s' ->
  window_at w0 s \/ st_win s = Some w0 ->
  (n = O /\ s' = s) \/ (window_at w0 s' /\ exists w, st_win s' = Some w /\ (Rabs (w_zmin w - st_zmin s') < k_dz k)%R).
Proof.
  intros D. induction n as [|n IH]; intros b s s' H W.
  - left. split; [reflexivity|]. cbn in H. congruence.
  - right. cbn [Step_Model.loop] in H. destruct (iteration o b s) as [s1|] eqn:E; cbn [bind] in H; [|discriminate].
    destruct (iteration_window _ _ w0 _ _ D E W) as [A B].
    destruct (IH _ _ _ H (or_introl A)) as [[_ ->]|X]; auto.
Qed.
Lemma steps_window w0 : (0 < k_dz k)%R -> forall calls s s', steps calls s = Ok s' ->
  window_at w0 s \/ st_win s = Some w0 ->
  (total calls = 0 /\ s' = s) \/ (window_at w0 s' /\ exists w, st_win s' = Some w /\ (Rabs (w_zmin w - st_zmin s') < k_dz k)%R).
Proof.
  intros D. induction calls as [|[o N] l IH]; intros s s' H W.
  - left. split; [reflexivity|]. cbn in H. congruence.
  - cbn [Step_Model.steps] in H. destruct (step o N s) as [s1|] eqn:E; cbn [bind] in H; [|discriminate].
    unfold Step_Model.step in E. destruct (_ && _); [discriminate|]. destruct (_ && _); [discriminate|].
    destruct (loop_window o w0 D _ _ _ _ E W) as [[Z0 ->]|[A B]].
    + destruct (IH _ _ H W) as [[T ->]|X]; [left|right; exact X]. split; [|reflexivity].
      unfold total in *. cbn. rewrite T. lia.
    + right. destruct (IH _ _ H (or_introl A)) as [[_ ->]|X]; auto.
Qed.
End W.
