From Verif Require Import Base Step_Model Step_Spec.
From Coq Require Import Reals Lra Sorting.Sorted FunctionalExtensionality.
From Flocq Require Import Core.Core.
Open Scope Z_scope.

Section P.
Variable k : conf.
Variable exch : Z -> R -> species -> species.
Variable here : R -> ant -> bool.
Variable kick : Z -> ptc -> R * R * R.
Variable laser : R -> ptc -> R * R.
Variable elem : Z -> species -> species.
Notation iteration := (iteration k exch here kick laser elem).
Notation loop := (loop k exch here kick laser elem).
Notation step := (step k exch here kick laser elem).
Notation steps := (steps k exch here kick laser elem).
Notation first_half := (first_half k kick laser elem).
Notation second_half := (second_half k).
Notation do_exchange := (do_exchange k exch here).

(** ** C12 *)
Definition not_log (e : event) : bool :=
  match e with EvDiag _ _ | EvCheckpoint _ _ => false | _ => true end.

(** A piece of the loop that does not write nor touch the clock. *)
Definition quiet (s s' : state) : Prop :=
  st_it s' = st_it s /\ st_time s' = st_time s /\
  exists t, st_trace s' = st_trace s ++ t /\ forallb not_log t = true.

Lemma quiet_refl s : quiet s s.
Proof. split; [|split]; auto. exists []. rewrite app_nil_r. auto. Qed.
Lemma quiet_trans a b c : quiet a b -> quiet b c -> quiet a c.
Proof.
  intros (A1 & A2 & t & A3 & A4) (B1 & B2 & t' & B3 & B4).
  split; [congruence|]. split; [congruence|]. exists (t ++ t').
  rewrite B3, A3, app_assoc, forallb_app, A4, B4. auto.
Qed.
Lemma quiet_emit e s : not_log e = true -> quiet s (emit e s).
Proof. intros H. split; [|split]; auto. exists [e]. simpl. rewrite H. auto. Qed.
Lemma quiet_species l s : quiet s (set_species l s).
Proof. split; [|split]; auto. exists []. rewrite app_nil_r. auto. Qed.
Lemma quiet_ants l s : quiet s (set_ants l s).
Proof. split; [|split]; auto. exists []. rewrite app_nil_r. auto. Qed.
Lemma quiet_src f l s : quiet s (set_src f l s).
Proof. split; [|split]; auto. exists []. rewrite app_nil_r. auto. Qed.
Lemma quiet_grid a b s : quiet s (set_grid a b s).
Proof. split; [|split]; auto. exists []. rewrite app_nil_r. auto. Qed.
Lemma quiet_win l s : quiet s (set_win l s).
Proof. split; [|split]; auto. exists []. rewrite app_nil_r. auto. Qed.
Lemma quiet_gal d s : quiet s (maybe_galilean k d s).
Proof. unfold maybe_galilean. destruct (k_gal k); [apply quiet_grid|apply quiet_refl]. Qed.
Lemma quiet_deposit f b s : quiet s (deposit k f b s).
Proof. unfold deposit. eapply quiet_trans; [|apply quiet_src]. now apply quiet_emit. Qed.
Lemma quiet_pushx d a b c s : quiet s (push_x_species d a b c s).
Proof. apply quiet_species. Qed.
Lemma quiet_pusha d a b c s : quiet s (push_x_ants d a b c s).
Proof. apply quiet_ants. Qed.

Lemma quiet_if (b : bool) s s1 s2 : quiet s s1 -> quiet s s2 -> quiet s (if b then s1 else s2).
Proof. destruct b; auto. Qed.

Lemma quiet_cross b s : quiet s (cross_deposit k b s).
Proof.
  unfold cross_deposit. cbv zeta.
  repeat first
    [ eapply quiet_trans; [|apply quiet_gal]
    | eapply quiet_trans; [|apply quiet_deposit]
    | eapply quiet_trans; [|apply quiet_pusha]
    | eapply quiet_trans; [|apply quiet_if; [apply quiet_pushx | apply quiet_refl]] ].
  apply quiet_refl.
Qed.

Lemma quiet_exchange o s : quiet s (do_exchange o s).
Proof.
  unfold Step_Model.do_exchange. cbv zeta. eapply quiet_trans; [|apply quiet_deposit].
  eapply quiet_trans; [|apply quiet_emit; reflexivity].
  eapply quiet_trans; [apply quiet_species|apply quiet_ants].
Qed.

Lemma quiet_second o s : quiet s (second_half o s).
Proof.
  unfold Step_Model.second_half. cbv zeta. eapply quiet_trans; [|apply quiet_deposit].
  eapply quiet_trans; [|apply quiet_gal]. eapply quiet_trans; [|apply quiet_pusha].
  eapply quiet_trans; [|apply quiet_if; [apply quiet_pushx|apply quiet_refl]].
  eapply quiet_trans; [|apply quiet_if; [apply quiet_cross|apply quiet_refl]].
  apply quiet_deposit.
Qed.

Lemma quiet_field o s s' : field_update k o s = Ok s' -> quiet s s'.
Proof.
  unfold field_update.
  assert (P : forall s1, bind (push_fields (o_true_rho o) (1 <? k_size k) s1)
            (fun s => if o_divE o then correct_divE k s else Ok s) = Ok s' -> quiet s1 s').
  { intros s1. unfold push_fields.
    destruct (if 1 <? k_size k then _ else _); simpl; [|discriminate].
    unfold correct_divE. intros H.
    assert (E : s' = set_src rho_prev
              {| s_flag := s_flag (st_src s1 rho_prev);
                 s_exch := s_exch (st_src s1 rho_next) |}
              (set_src rho_next {| s_flag := s_flag (st_src s1 rho_next); s_exch := 0 |}
                 (emit (EvPush (st_it s1) (o_true_rho o) (s_exch (st_src s1 J)) (s_exch (st_src s1 rho_prev))
                          (s_exch (st_src s1 rho_next))) s1))).
    { destruct (o_divE o); [destruct (k_cross k); [discriminate|]|]; inversion H; reflexivity. }
    rewrite E. eapply quiet_trans; [|apply quiet_src]. eapply quiet_trans; [|apply quiet_src].
    now apply quiet_emit. }
  destruct (o_cc o); simpl.
  - unfold correct_currents. destruct (if 1 <? k_size k then _ else _); simpl; [|discriminate].
    intros H. apply P in H. eapply quiet_trans; [|exact H].
    eapply quiet_trans; [|apply quiet_src]. now apply quiet_emit.
  - apply P.
Qed.

Lemma quiet_move t s : quiet s (move_grids k t s).
Proof.
  unfold move_grids. destruct (st_win s); [|apply quiet_refl]. cbv zeta.
  eapply quiet_trans; [|apply quiet_emit; reflexivity].
  eapply quiet_trans; [|apply quiet_win].
  apply quiet_if; [apply quiet_refl|apply quiet_grid].
Qed.

(** Log of one element of a list of writers. *)
Definition log_of (mk : nat -> Z -> event) (i : nat) (l : list diag) (it : Z) : list event :=
  flat_map (fun jd => if writes (snd jd) it then [mk (fst jd) it] else [])
           (combine (seq i (length l)) l).

Lemma write_all_spec mk l : forall i it s,
  let s' := write_all mk i l it s in
  st_it s' = st_it s /\ st_time s' = st_time s /\
  st_trace s' = st_trace s ++ log_of mk i l it.
Proof.
  induction l as [|d l IH]; intros i it s; simpl.
  - rewrite app_nil_r. auto.
  - specialize (IH (S i) it (if writes d it then emit (mk i it) s else s)).
    cbv zeta in IH. destruct IH as (A & B & C).
    split; [|split].
    + rewrite A. destruct (writes d it); auto.
    + rewrite B. destruct (writes d it); auto.
    + rewrite C. unfold log_of. simpl. destruct (writes d it); simpl; auto.
      rewrite <- app_assoc. reflexivity.
Qed.

Lemma diag_log_app i a b : diag_log i (a ++ b) = diag_log i a ++ diag_log i b.
Proof. apply flat_map_app. Qed.
Lemma check_log_app i a b : check_log i (a ++ b) = check_log i a ++ check_log i b.
Proof. apply flat_map_app. Qed.

Lemma quiet_logs s s' i : quiet s s' ->
  diag_log i (st_trace s') = diag_log i (st_trace s) /\
  check_log i (st_trace s') = check_log i (st_trace s).
Proof.
  intros (_ & _ & t & -> & H). rewrite diag_log_app, check_log_app.
  assert (diag_log i t = [] /\ check_log i t = []) as [-> ->].
  { induction t as [|e t IH]; simpl in *; auto. apply andb_prop in H as [H1 H2].
    destruct (IH H2) as [E1 E2]. destruct e; simpl in *; try discriminate; auto. }
  rewrite !app_nil_r. auto.
Qed.

Lemma log_diag_diag l it : forall a i,
  diag_log i (log_of EvDiag a l it) =
  match nth_error l (i - a) with
  | Some d => if (a <=? i)%nat && writes d it then [it] else []
  | None => [] end.
Proof.
  unfold log_of. induction l as [|d l IH]; intros a i; simpl.
  - destruct (i - a)%nat; reflexivity.
  - rewrite diag_log_app. rewrite IH. clear IH.
    destruct (Nat.leb_spec a i) as [L|L].
    + destruct (Nat.eq_dec a i) as [->|N].
      * rewrite Nat.sub_diag.
        assert (F : (S i <=? i)%nat = false) by (apply Nat.leb_gt; lia). rewrite F.
        replace (match nth_error l (i - S i) with Some d0 => if false && writes d0 it then [it] else []
                 | None => [] end) with (@nil Z) by (destruct (nth_error l (i - S i)); reflexivity).
        simpl. destruct (writes d it); simpl; [rewrite Nat.eqb_refl|]; reflexivity.
      * replace (i - a)%nat with (S (i - S a)) by lia. simpl.
        assert (F : (S a <=? i)%nat = true) by (apply Nat.leb_le; lia). cbn [Nat.leb] in F. rewrite F.
        replace (diag_log i (if writes d it then [EvDiag a it] else [])) with (@nil Z).
        2:{ destruct (writes d it); simpl; auto.
            replace (a =? i)%nat with false by (symmetry; now apply Nat.eqb_neq). auto. }
        simpl. destruct (nth_error l (i - S a)); auto.
    + replace (i - a)%nat with 0%nat by lia. replace (i - S a)%nat with 0%nat by lia. simpl.
      assert (F : (S a <=? i)%nat = false) by (apply Nat.leb_gt; lia). cbn [Nat.leb] in F. rewrite F.
      replace (diag_log i (if writes d it then [EvDiag a it] else [])) with (@nil Z).
      2:{ destruct (writes d it); simpl; auto.
          replace (a =? i)%nat with false by (symmetry; apply Nat.eqb_neq; lia). auto. }
      simpl. destruct l; auto.
Qed.

Lemma log_check_check l it : forall a i,
  check_log i (log_of EvCheckpoint a l it) =
  match nth_error l (i - a) with
  | Some d => if (a <=? i)%nat && writes d it then [it] else []
  | None => [] end.
Proof.
  intros a i. rewrite <- log_diag_diag. unfold check_log, diag_log, log_of.
  generalize (combine (seq a (length l)) l). intros L. induction L as [|[j d] L IH]; simpl; auto.
  rewrite !flat_map_app, IH. destruct (writes d it); reflexivity.
Qed.
Lemma log_diag_check l it a i : check_log i (log_of EvDiag a l it) = [].
Proof.
  unfold check_log, log_of. generalize (combine (seq a (length l)) l). intros L.
  induction L as [|[j d] L IH]; simpl; auto.
  rewrite flat_map_app, IH. destruct (writes d it); reflexivity.
Qed.
Lemma log_check_diag l it a i : diag_log i (log_of EvCheckpoint a l it) = [].
Proof.
  unfold diag_log, log_of. generalize (combine (seq a (length l)) l). intros L.
  induction L as [|[j d] L IH]; simpl; auto.
  rewrite flat_map_app, IH. destruct (writes d it); reflexivity.
Qed.

Definition one (l : list diag) (i : nat) (it : Z) : list Z :=
  match nth_error l i with Some d => if writes d it then [it] else [] | None => [] end.

Lemma iteration_log o b s s' i : iteration o b s = Ok s' ->
  st_it s' = st_it s + 1 /\ st_time s' = (st_time s + k_dt k)%R /\
  diag_log i (st_trace s') = diag_log i (st_trace s) ++ one (k_diags k) i (st_it s) /\
  check_log i (st_trace s') = check_log i (st_trace s) ++ one (k_checks k) i (st_it s + 1).
Proof.
  unfold Step_Model.iteration. cbv zeta.
  set (s1 := if _ || _ then _ else _).
  set (s2 := if b then _ else _).
  assert (Q : quiet s s2).
  { unfold s2, s1. eapply quiet_trans with (b := s1).
    - apply quiet_if; [apply quiet_exchange|apply quiet_refl].
    - apply quiet_if; [apply quiet_deposit|apply quiet_refl]. }
  unfold Step_Model.first_half. cbv zeta.
  set (s3 := write_all _ _ _ _ _).
  set (s4 := set_species _ _).
  assert (W3 : st_it s3 = st_it s /\ st_time s3 = st_time s /\
          diag_log i (st_trace s3) = diag_log i (st_trace s) ++ one (k_diags k) i (st_it s) /\
          check_log i (st_trace s3) = check_log i (st_trace s)).
  { unfold s3. destruct (write_all_spec EvDiag (k_diags k) 0 (st_it (emit (EvGather (snapshot s2)) s2))
              (emit (EvGather (snapshot s2)) s2)) as (A & B & C). cbv zeta in *.
    rewrite A, B, C. destruct Q as (Q1 & Q2 & Q3).
    assert (Q : quiet s s2) by (split; [|split]; auto).
    pose proof (quiet_trans _ _ _ Q (quiet_emit (EvGather (snapshot s2)) s2 eq_refl)) as Q'.
    destruct (quiet_logs _ _ i Q') as [E1 E2].
    rewrite diag_log_app, check_log_app, E1, E2, log_diag_check, app_nil_r.
    simpl. rewrite Q1, Q2. repeat split; auto. f_equal.
    rewrite log_diag_diag, Nat.sub_0_r. reflexivity. }
  assert (Q4 : quiet s3 s4).
  { unfold s4. eapply quiet_trans; [|apply quiet_species].
    eapply quiet_trans; [|apply quiet_gal]. eapply quiet_trans; [|apply quiet_pusha].
    eapply quiet_trans; [|apply quiet_ants].
    eapply quiet_trans; [|apply quiet_if; [apply quiet_pushx|apply quiet_refl]].
    apply quiet_if; [apply quiet_species|apply quiet_refl]. }
  clearbody s4 s3. clear s1 s2 Q.
  pose proof (quiet_second o s4) as Q5. set (s5 := second_half o s4) in *. clearbody s5.
  destruct (field_update k o s5) as [s6|] eqn:F; simpl; [|discriminate].
  apply quiet_field in F. intros H.
  assert (Q6 : quiet s3 s6) by eauto using quiet_trans.
  assert (E : s' = end_of_step k s6) by (inversion H; reflexivity). clear H. subst s'.
  unfold end_of_step. cbv zeta.
  set (s7 := {| st_it := _ |}).
  destruct (write_all_spec EvCheckpoint (k_checks k) 0 (st_it s7) s7) as (A & B & C). cbv zeta in *.
  rewrite A, B, C. unfold s7. simpl.
  pose proof (quiet_trans _ _ _ Q6 (quiet_move (st_time s6) s6)) as Q7.
  destruct (quiet_logs _ _ i Q7) as [E1 E2].
  rewrite diag_log_app, check_log_app, E1, E2, log_check_diag, app_nil_r, log_check_check, Nat.sub_0_r.
  destruct Q7 as (E3 & E4 & _). destruct W3 as (W1 & W2 & W3 & W4).
  rewrite E3, E4, W1, W2, W3, W4. auto.
Qed.

Fixpoint zfrom (a : Z) (n : nat) : list Z :=
  match n with O => [] | S n => a :: zfrom (a + 1) n end.

Lemma loop_log o n : forall b s s' i, loop o b n s = Ok s' ->
  st_it s' = st_it s + Z.of_nat n /\ st_time s' = (st_time s + INR n * k_dt k)%R /\
  diag_log i (st_trace s') = diag_log i (st_trace s) ++ flat_map (one (k_diags k) i) (zfrom (st_it s) n) /\
  check_log i (st_trace s') = check_log i (st_trace s) ++ flat_map (one (k_checks k) i) (zfrom (st_it s + 1) n).
Proof.
  induction n as [|n IH]; intros b s s' i H.
  - assert (s' = s) by (inversion H; auto). subst. simpl. rewrite !app_nil_r.
    repeat split; auto; try lia; try lra.
  - cbn [Step_Model.loop] in H. destruct (iteration o b s) as [s1|] eqn:E; simpl in H; [|discriminate].
    destruct (iteration_log _ _ _ _ i E) as (A & B & C & D).
    destruct (IH _ _ _ i H) as (A' & B' & C' & D').
    rewrite S_INR. rewrite A', B', C', D', A, B, C, D. simpl. rewrite <- !app_assoc.
    repeat split; auto; try lia; try lra.
Qed.

Lemma zfrom_app a n m : zfrom a (n + m) = zfrom a n ++ zfrom (a + Z.of_nat n) m.
Proof.
  revert a; induction n; intros; simpl.
  - f_equal. lia.
  - rewrite IHn. do 2 f_equal. f_equal. lia.
Qed.

Lemma steps_log calls : forall s s' i, steps calls s = Ok s' ->
  let n := Z.to_nat (total calls) in
  0 <= total calls /\
  st_it s' = st_it s + total calls /\ st_time s' = (st_time s + IZR (total calls) * k_dt k)%R /\
  diag_log i (st_trace s') = diag_log i (st_trace s) ++ flat_map (one (k_diags k) i) (zfrom (st_it s) n) /\
  check_log i (st_trace s') = check_log i (st_trace s) ++ flat_map (one (k_checks k) i) (zfrom (st_it s + 1) n).
Proof.
  induction calls as [|[o N] calls IH]; intros s s' i H; cbn [Step_Model.steps] in H.
  - assert (s' = s) by (inversion H; auto). subst. simpl. rewrite !app_nil_r.
    repeat split; auto; try lia; try lra.
  - destruct (step o N s) as [s1|] eqn:E; simpl in H; [|discriminate].
    unfold Step_Model.step in E.
    destruct ((1 <? k_size k) && o_divE o); [discriminate|].
    destruct ((1 <? k_size k) && o_true_rho o && o_cc o); [discriminate|].
    destruct (loop_log _ _ _ _ _ i E) as (A & B & C & D).
    destruct (IH _ _ i H) as (P & A' & B' & C' & D'). clear IH H E.
    assert (T : total ((o, N) :: calls) = Z.of_nat (Z.to_nat N) + total calls)
      by (cbn [total fold_right snd]; unfold total; lia).
    rewrite T. cbv zeta. rewrite A', B', C', D', A, B, C, D.
    replace (Z.to_nat (Z.of_nat (Z.to_nat N) + total calls))
      with (Z.to_nat N + Z.to_nat (total calls))%nat by lia.
    rewrite !zfrom_app, !flat_map_app, <- !app_assoc, plus_IZR, <- INR_IZR_INZ.
    repeat split; auto; try lia; try lra. do 4 f_equal. lia.
Qed.

Lemma writes_due d it : 1 <= d_period d -> writes d it = true <-> due d it.
Proof.
  intros P. unfold writes, due. rewrite !andb_true_iff.
  rewrite Z.eqb_eq, Z.leb_le, Z.mod_divide by lia.
  destruct (d_max d); [rewrite Z.ltb_lt|]; intuition.
Qed.

Lemma zfrom_In a n x : In x (zfrom a n) <-> a <= x < a + Z.of_nat n.
Proof.
  revert a; induction n; intros; simpl; [lia|]. rewrite IHn. lia.
Qed.

Lemma sched_one l i d a n : nth_error l i = Some d -> 1 <= d_period d ->
  is_schedule d a (a + Z.of_nat n) (flat_map (one l i) (zfrom a n)).
Proof.
  intros E P. unfold is_schedule.
  assert (I : forall x, In x (flat_map (one l i) (zfrom a n)) <-> a <= x < a + Z.of_nat n /\ due d x).
  { intros x. rewrite in_flat_map. unfold one. rewrite E. split.
    - intros (y & H & H'). apply zfrom_In in H. destruct (writes d y) eqn:W; [|easy].
      destruct H' as [<-|[]]. split; auto. now apply writes_due.
    - intros [H1 H2]. exists x. rewrite zfrom_In. split; auto.
      apply writes_due in H2; auto. rewrite H2. now left. }
  split; auto. clear I. revert a. induction n; intros a; simpl; [constructor|].
  unfold one at 1. rewrite E. destruct (writes d a); simpl; auto.
  constructor; auto. apply Forall_forall. intros x Hx.
  apply in_flat_map in Hx as (y & H & H'). apply zfrom_In in H.
  unfold one in H'. rewrite E in H'. destruct (writes d y); [|easy]. destruct H' as [<-|[]]. lia.
Qed.

Lemma C12_main calls s s' : steps calls s = Ok s' ->
  st_it s' = st_it s + total calls /\
  st_time s' = (st_time s + IZR (total calls) * k_dt k)%R /\
  (forall i d, nth_error (k_diags k) i = Some d -> 1 <= d_period d ->
     exists log, diag_log i (st_trace s') = diag_log i (st_trace s) ++ log /\
                 is_schedule d (st_it s) (st_it s + total calls) log) /\
  (forall i d, nth_error (k_checks k) i = Some d -> 1 <= d_period d ->
     exists log, check_log i (st_trace s') = check_log i (st_trace s) ++ log /\
                 is_schedule d (st_it s + 1) (st_it s + total calls + 1) log).
Proof.
  intros H. destruct (steps_log _ _ _ 0%nat H) as (P & A & B & _ & _).
  repeat split; auto.
  - intros i d E Pd. destruct (steps_log _ _ _ i H) as (_ & _ & _ & C & _).
    eexists. split; [exact C|].
    replace (st_it s + total calls) with (st_it s + Z.of_nat (Z.to_nat (total calls))) by lia.
    now apply sched_one.
  - intros i d E Pd. destruct (steps_log _ _ _ i H) as (_ & _ & _ & _ & C).
    eexists. split; [exact C|].
    replace (st_it s + total calls + 1) with (st_it s + 1 + Z.of_nat (Z.to_nat (total calls))) by lia.
    now apply sched_one.
Qed.

Lemma C12_split calls1 calls2 s s1 s2 :
  steps calls1 s = Ok s1 -> steps calls2 s = Ok s2 -> total calls1 = total calls2 ->
  st_it s1 = st_it s2 /\ st_time s1 = st_time s2 /\
  forall i, diag_log i (st_trace s1) = diag_log i (st_trace s2) /\
            check_log i (st_trace s1) = check_log i (st_trace s2).
Proof.
  intros H1 H2 T.
  destruct (steps_log _ _ _ 0%nat H1) as (_ & A & B & _ & _).
  destruct (steps_log _ _ _ 0%nat H2) as (_ & A' & B' & _ & _).
  repeat split; try congruence; intros; rewrite T in *;
  destruct (steps_log _ _ _ i H1) as (_ & _ & _ & C & D);
  destruct (steps_log _ _ _ i H2) as (_ & _ & _ & C' & D'); rewrite T in *; congruence.
Qed.

(** ** C13 *)
Definition grow (s s' : state) : Prop :=
  exists t, st_trace s' = st_trace s ++ t /\ Forall consistent t.
Lemma grow_refl s : grow s s.
Proof. exists []. rewrite app_nil_r. auto. Qed.
Lemma grow_trans a b c : grow a b -> grow b c -> grow a c.
Proof.
  intros (t & A & B) (t' & A' & B'). exists (t ++ t'). rewrite A', A, app_assoc.
  split; auto. apply Forall_app. auto.
Qed.
Lemma grow_same s s' : st_trace s' = st_trace s -> grow s s'.
Proof. intros E. exists []. rewrite E, app_nil_r. auto. Qed.
Lemma grow_emit e s : consistent e -> grow s (emit e s).
Proof. intros H. exists [e]. auto. Qed.
Lemma grow_deposit f b s : grow s (deposit k f b s).
Proof. eapply grow_trans; [|apply grow_same; reflexivity]. apply grow_emit. exact I. Qed.

(** pieces that neither write to the source dictionary nor to the trace *)
Definition inert (s s' : state) := st_src s' = st_src s /\ st_trace s' = st_trace s.
Lemma inert_refl s : inert s s. Proof. split; auto. Qed.
Lemma inert_trans a b c : inert a b -> inert b c -> inert a c.
Proof. intros [] []. split; congruence. Qed.
Lemma inert_gal d s : inert s (maybe_galilean k d s).
Proof. unfold maybe_galilean. destruct (k_gal k); split; auto. Qed.
Lemma inert_if (b : bool) s s1 s2 : inert s s1 -> inert s s2 -> inert s (if b then s1 else s2).
Proof. destruct b; auto. Qed.
Lemma inert_pushx d a b c s : inert s (push_x_species d a b c s). Proof. split; auto. Qed.
Lemma inert_pusha d a b c s : inert s (push_x_ants d a b c s). Proof. split; auto. Qed.

Definition dep (b : bool) : src :=
  {| s_flag := Some b; s_exch := if b && (1 <? k_size k) then 1%nat else 0%nat |}.

Lemma src_deposit f b s g :
  st_src (deposit k f b s) g = if fieldtype_eqb g f then dep b else st_src s g.
Proof. reflexivity. Qed.

(** cross_deposit as a sequence of three moves and two deposits *)
Definition cd_go (mp : bool) (d fx fz g : R) (s : state) : state :=
  maybe_galilean k g
    (push_x_ants d fx fx fz (if mp then push_x_species d fx fx fz s else s)).
Lemma cross_eq mp s : cross_deposit k mp s =
  cd_go mp (0.5 * k_dt k) 1 (-1) (-0.5 * k_dt k)
  (deposit k rho_next_z false
  (cd_go mp (k_dt k) (-1) 1 (k_dt k)
  (deposit k rho_next_xy false
  (cd_go mp (0.5 * k_dt k) 1 (-1) (-0.5 * k_dt k) s)))).
Proof. reflexivity. Qed.
Lemma inert_cd mp d fx fz g s : inert s (cd_go mp d fx fz g s).
Proof.
  unfold cd_go. eapply inert_trans; [|apply inert_gal]. eapply inert_trans; [|apply inert_pusha].
  apply inert_if; [apply inert_pushx|apply inert_refl].
Qed.

Lemma cross_src mp s :
  let s' := cross_deposit k mp s in
  grow s s' /\ (forall g, st_src s' g = match g with
    | rho_next_xy | rho_next_z => dep false | _ => st_src s g end).
Proof.
  cbv zeta. rewrite cross_eq.
  set (a := cd_go mp (0.5 * k_dt k) 1 (-1) (-0.5 * k_dt k) s).
  pose proof (inert_cd mp (0.5 * k_dt k) 1 (-1) (-0.5 * k_dt k) s) as I1. fold a in I1.
  set (b := deposit k rho_next_xy false a).
  set (c := cd_go mp (k_dt k) (-1) 1 (k_dt k) b).
  pose proof (inert_cd mp (k_dt k) (-1) 1 (k_dt k) b) as I2. fold c in I2.
  set (d := deposit k rho_next_z false c).
  pose proof (inert_cd mp (0.5 * k_dt k) 1 (-1) (-0.5 * k_dt k) d) as I3.
  set (e := cd_go mp (0.5 * k_dt k) 1 (-1) (-0.5 * k_dt k) d) in *.
  destruct I1 as [S1 T1], I2 as [S2 T2], I3 as [S3 T3]. split.
  - eapply grow_trans; [|apply grow_same; exact T3].
    eapply grow_trans; [|apply grow_deposit].
    eapply grow_trans; [|apply grow_same; exact T2].
    eapply grow_trans; [|apply grow_deposit]. apply grow_same; exact T1.
  - intros g. rewrite S3. unfold d. rewrite src_deposit, S2. unfold b. rewrite src_deposit, S1.
    destruct g; reflexivity.
Qed.

Lemma exchange_src o s : let s' := do_exchange o s in
  grow s s' /\ st_src s' rho_prev = dep (o_true_rho o).
Proof.
  cbv zeta. unfold Step_Model.do_exchange. cbv zeta. split; [|reflexivity].
  eapply grow_trans; [|apply grow_deposit]. eapply grow_trans; [|apply grow_emit; exact I].
  apply grow_same. reflexivity.
Qed.

Lemma write_all_src mk l : (forall i it, consistent (mk i it)) ->
  forall i it s, let s' := write_all mk i l it s in
  grow s s' /\ st_src s' = st_src s.
Proof.
  intros M. induction l as [|d l IH]; intros i it s; simpl; [split; [apply grow_refl|auto]|].
  destruct (IH (S i) it (if writes d it then emit (mk i it) s else s)) as [A B].
  split.
  - eapply grow_trans; [|exact A]. destruct (writes d it); [apply grow_emit; auto|apply grow_refl].
  - rewrite B. destruct (writes d it); auto.
Qed.

Lemma first_src o s : let s' := first_half o s in grow s s' /\ st_src s' = st_src s.
Proof.
  cbv zeta. unfold Step_Model.first_half. cbv zeta.
  set (s3 := write_all _ _ _ _ _). set (s4 := set_species _ _).
  assert (G3 : grow s s3 /\ st_src s3 = st_src s).
  { unfold s3. destruct (write_all_src EvDiag (k_diags k) (fun _ _ => I) 0
      (st_it (emit (EvGather (snapshot s)) s)) (emit (EvGather (snapshot s)) s)) as [A B].
    split; [|rewrite B; reflexivity].
    eapply grow_trans; [|exact A]. apply grow_emit. exact I. }
  assert (I4 : inert s3 s4).
  { unfold s4. eapply inert_trans with (b := maybe_galilean k _ _); [|split; reflexivity].
    eapply inert_trans; [|apply inert_gal]. eapply inert_trans; [|apply inert_pusha].
    eapply inert_trans with (b := if o_movex o then _ else _); [|split; reflexivity].
    eapply inert_trans; [|apply inert_if; [apply inert_pushx|apply inert_refl]].
    apply inert_if; [split; reflexivity|apply inert_refl]. }
  destruct G3 as [G E], I4 as [E1 E2]. split; [|congruence].
  eapply grow_trans; [exact G|]. now apply grow_same.
Qed.

Lemma second_src o s : let s' := second_half o s in
  grow s s' /\ forall g, st_src s' g = match g with
    | J => dep (negb (o_cc o))
    | rho_next => dep (o_true_rho o)
    | rho_prev => st_src s rho_prev
    | _ => if o_cc o && k_cross k then dep false else st_src s g end.
Proof.
  cbv zeta. unfold Step_Model.second_half. cbv zeta.
  set (s1 := deposit k J _ _). set (s2 := if _ && _ then _ else _).
  set (s3 := maybe_galilean _ _ _).
  assert (A : grow s1 s2 /\ forall g, st_src s2 g = match g with
    | rho_next_xy | rho_next_z => if o_cc o && k_cross k then dep false else st_src s1 g
    | _ => st_src s1 g end).
  { unfold s2. destruct (o_cc o && k_cross k).
    - apply cross_src.
    - split; [apply grow_refl|]. intros []; reflexivity. }
  assert (B : inert s2 s3).
  { unfold s3. eapply inert_trans; [|apply inert_gal]. eapply inert_trans; [|apply inert_pusha].
    apply inert_if; [apply inert_pushx|apply inert_refl]. }
  destruct A as [G A], B as [B C]. split.
  - eapply grow_trans; [|apply grow_deposit]. eapply grow_trans; [|apply grow_same; exact C].
    eapply grow_trans; [|exact G]. apply grow_deposit.
  - intros g. rewrite src_deposit, B, A.
    unfold s1. rewrite src_deposit. destruct g; simpl; auto.
Qed.

Lemma field_src o s : 1 < k_size k -> o_true_rho o && o_cc o = false ->
  st_src s rho_prev = dep (o_true_rho o) ->
  st_src s rho_next = dep (o_true_rho o) ->
  st_src s J = dep (negb (o_cc o)) ->
  (o_cc o && k_cross k = true -> st_src s rho_next_xy = dep false /\ st_src s rho_next_z = dep false) ->
  match field_update k o s with
  | Ok s' => grow s s' /\ st_src s' rho_prev = dep (o_true_rho o)
  | Err e => e = AttributeError /\ o_divE o = true /\ k_cross k = true
  end.
Proof.
  intros HS HO P N HJ X.
  assert (M : (1 <? k_size k) = true) by (apply Z.ltb_lt; lia).
  unfold dep in *. rewrite M in *. rewrite !andb_true_r in *.
  unfold field_update. rewrite M.
  assert (D : forall s1, st_src s1 rho_prev = st_src s rho_prev -> st_src s1 rho_next = st_src s rho_next ->
     st_src s1 J = {| s_flag := Some true; s_exch := 1 |} -> grow s s1 ->
     match bind (push_fields (o_true_rho o) true s1)
            (fun s => if o_divE o then correct_divE k s else Ok s) with
     | Ok s' => grow s s' /\ st_src s' rho_prev = {| s_flag := Some (o_true_rho o);
                               s_exch := if o_true_rho o then 1%nat else 0%nat |}
     | Err e => e = AttributeError /\ o_divE o = true /\ k_cross k = true end).
  { intros s1 P1 N1 J1 G1. unfold push_fields, check. rewrite J1, P1, N1, P, N. simpl.
    assert (C : (if o_true_rho o
                 then bind (if Bool.eqb true (o_true_rho o) then Ok tt else Err AssertionError)
                        (fun _ => if Bool.eqb true (o_true_rho o) then Ok tt else Err AssertionError)
                 else Ok tt) = Ok tt) by (destruct (o_true_rho o); reflexivity).
    simpl in C. rewrite C. simpl. clear C.
    unfold correct_divE. destruct (o_divE o).
    - destruct (k_cross k); auto. split; [|simpl; rewrite ?P1, ?N1, ?P, ?N; reflexivity].
      eapply grow_trans; [exact G1|]. eapply grow_trans; [|apply grow_same; reflexivity].
      apply grow_emit. simpl. rewrite ?J1, ?P1, ?N1, ?P, ?N. simpl. split; auto. intros ->. auto.
    - split; [|simpl; rewrite ?P1, ?N1, ?P, ?N; reflexivity].
      eapply grow_trans; [exact G1|]. eapply grow_trans; [|apply grow_same; reflexivity].
      apply grow_emit. simpl. rewrite ?J1, ?P1, ?N1, ?P, ?N. simpl. split; auto. intros ->. auto. }
  destruct (o_cc o) eqn:CC; simpl in HJ.
  - assert (TR : o_true_rho o = false) by (destruct (o_true_rho o); auto; discriminate).
    assert (C : correct_currents k true s = Ok (emit (EvCorrect (st_it s) (s_exch (st_src s J))
       (s_exch (st_src s rho_prev)) (s_exch (st_src s rho_next)) (s_exch (st_src s rho_next_xy))
       (s_exch (st_src s rho_next_z))) s)).
    { unfold correct_currents, check. rewrite P, N, HJ, TR. simpl. destruct (k_cross k); auto.
      destruct (X eq_refl) as [X1 X2]. rewrite X1, X2. reflexivity. }
    rewrite C. cbn [bind]. apply D; auto.
    + simpl. rewrite HJ. reflexivity.
    + eapply grow_trans; [|apply grow_same; reflexivity]. apply grow_emit. simpl.
      rewrite P, N, HJ, TR. simpl. auto.
  - cbn [bind]. apply D; auto. apply grow_refl.
Qed.

Lemma end_src s : let s' := end_of_step k s in grow s s' /\ st_src s' = st_src s.
Proof.
  cbv zeta. unfold end_of_step. cbv zeta. set (s1 := move_grids _ _ _).
  assert (A : grow s s1 /\ st_src s1 = st_src s).
  { unfold s1, move_grids. destruct (st_win s); [|split; [apply grow_refl|auto]]. cbv zeta.
    split.
    - eapply grow_trans; [|apply grow_emit; exact I]. apply grow_same. simpl.
      destruct (_ =? 0); reflexivity.
    - simpl. destruct (_ =? 0); reflexivity. }
  destruct A as [G E].
  destruct (write_all_src EvCheckpoint (k_checks k) (fun _ _ => I) 0
     (st_it s1 + 1) {| st_it := st_it s1 + 1; st_time := (st_time s1 + k_dt k)%R; st_zmin := st_zmin s1;
              st_gmin := st_gmin s1; st_species := st_species s1; st_ants := st_ants s1;
              st_src := st_src s1; st_win := st_win s1; st_trace := st_trace s1 |}) as [A B].
  split; [|exact (eq_trans B E)].
  eapply grow_trans; [exact G|]. eapply grow_trans; [|exact A]. now apply grow_same.
Qed.

Lemma iteration_src o b s : 1 < k_size k -> o_true_rho o && o_cc o = false ->
  (b = true \/ st_src s rho_prev = dep (o_true_rho o)) ->
  match iteration o b s with
  | Ok s' => grow s s' /\ st_src s' rho_prev = dep (o_true_rho o)
  | Err e => e = AttributeError /\ o_divE o = true /\ k_cross k = true
  end.
Proof.
  intros HS HO HB. unfold Step_Model.iteration. cbv zeta.
  set (s1 := if _ || _ then _ else _). set (s2 := if b then _ else _).
  assert (A : grow s s1 /\ st_src s1 rho_prev = dep (o_true_rho o)).
  { unfold s1. destruct (_ =? 0); simpl.
    - apply exchange_src.
    - destruct b; [apply exchange_src|]. destruct HB as [|HB]; [discriminate|].
      split; [apply grow_refl|auto]. }
  assert (B : grow s s2 /\ st_src s2 rho_prev = dep (o_true_rho o)).
  { unfold s2. destruct b; auto. destruct A as [G E]. split; [|exact E].
    eapply grow_trans; [exact G|apply grow_deposit]. }
  clearbody s2. clear s1 A. destruct B as [G E].
  destruct (first_src o s2) as [G1 E1].
  set (s3 := first_half o s2) in *. clearbody s3.
  destruct (second_src o s3) as [G2 E2].
  set (s4 := second_half o s3) in *. clearbody s4.
  pose proof (field_src o s4 HS HO) as F.
  rewrite (E2 rho_prev), (E2 rho_next), (E2 J), (E2 rho_next_xy), (E2 rho_next_z), E1 in F.
  specialize (F E eq_refl eq_refl). 
  assert (X : o_cc o && k_cross k = true ->
    (if o_cc o && k_cross k then dep false else st_src s2 rho_next_xy) = dep false /\
    (if o_cc o && k_cross k then dep false else st_src s2 rho_next_z) = dep false)
    by (intros ->; auto).
  specialize (F X). destruct (field_update k o s4) as [s5|e]; cbn [bind]; auto.
  destruct F as [G5 E5]. destruct (end_src s5) as [G6 E6]. split.
  - eapply grow_trans; [exact G|]. eapply grow_trans; [exact G1|].
    eapply grow_trans; [exact G2|]. eapply grow_trans; [exact G5|exact G6].
  - rewrite E6. exact E5.
Qed.

Lemma loop_src o n : 1 < k_size k -> o_true_rho o && o_cc o = false ->
  forall b s, (b = true \/ st_src s rho_prev = dep (o_true_rho o)) ->
  match loop o b n s with
  | Ok s' => grow s s'
  | Err e => e = AttributeError /\ o_divE o = true /\ k_cross k = true
  end.
Proof.
  intros HS HO. induction n as [|n IH]; intros b s HB; cbn [Step_Model.loop]; [apply grow_refl|].
  pose proof (iteration_src o b s HS HO HB) as H.
  destruct (iteration o b s) as [s1|e]; cbn [bind]; auto.
  destruct H as [G E]. specialize (IH false s1 (or_intror E)).
  destruct (loop o false n s1); auto. eapply grow_trans; eauto.
Qed.

Lemma C13_main calls s : 1 < k_size k ->
  match steps calls s with
  | Ok s' => exists t, st_trace s' = st_trace s ++ t /\ Forall consistent t
  | Err e => e = ValueError /\
      exists o N, In (o, N) calls /\ (o_divE o = true \/ o_true_rho o = true /\ o_cc o = true)
  end.
Proof.
  intros HS. revert s. induction calls as [|[o N] calls IH]; intros s; cbn [Step_Model.steps].
  { apply grow_refl. }
  destruct (step o N s) as [s1|e] eqn:E; cbn [bind].
  - assert (G : grow s s1).
    { unfold Step_Model.step in E.
      destruct ((1 <? k_size k) && o_divE o); [discriminate|].
      destruct ((1 <? k_size k) && o_true_rho o && o_cc o) eqn:V; [discriminate|].
      assert (M : (1 <? k_size k) = true) by (apply Z.ltb_lt; lia). rewrite M in V. simpl in V.
      pose proof (loop_src o (Z.to_nat N) HS V true s (or_introl eq_refl)) as H.
      rewrite E in H. exact H. }
    specialize (IH s1). destruct (steps calls s1).
    + destruct (grow_trans _ _ _ G IH) as [t H]. eauto.
    + destruct IH as [IH (o' & N' & Hin & Hbad)]. split; [exact IH|]. exists o', N'. split; [right|]; auto.
  - unfold Step_Model.step in E.
    assert (M : (1 <? k_size k) = true) by (apply Z.ltb_lt; lia). rewrite M in E. simpl in E.
    destruct (o_divE o) eqn:DV.
    { split; [congruence|]. exists o, N. split; [left; reflexivity|auto]. }
    destruct (o_true_rho o && o_cc o) eqn:V.
    { split; [congruence|]. apply Bool.andb_true_iff in V. exists o, N. split; [left; reflexivity|auto]. }
    pose proof (loop_src o (Z.to_nat N) HS V true s (or_introl eq_refl)) as H.
    rewrite E in H. destruct H as [_ [H _]]. congruence.
Qed.

(** On one rank there is nothing to exchange and no assertion is made; the only failure is
    the missing attribute of [correct_divE]. *)
Lemma field_single o s : k_size k <= 1 ->
  match field_update k o s with Ok _ => True | Err e => e = AttributeError /\ o_divE o = true /\ k_cross k = true end.
Proof.
  intros HS. assert (M : (1 <? k_size k) = false) by (apply Z.ltb_ge; lia).
  unfold field_update. rewrite M. unfold correct_currents, push_fields, correct_divE.
  destruct (o_cc o); simpl; destruct (o_divE o), (k_cross k); auto.
Qed.

Lemma loop_single o n : k_size k <= 1 -> forall b s,
  match loop o b n s with Ok _ => True | Err e => e = AttributeError /\ o_divE o = true /\ k_cross k = true end.
Proof.
  intros HS. induction n as [|n IH]; intros b s; cbn [Step_Model.loop]; auto.
  unfold Step_Model.iteration. cbv zeta.
  set (x := second_half o _). pose proof (field_single o x HS) as H.
  destruct (field_update k o x); cbn [bind]; auto. apply IH.
Qed.

Lemma C13_single calls s : k_size k <= 1 ->
  match steps calls s with
  | Ok _ => True
  | Err e => e = AttributeError /\ k_cross k = true /\ exists o N, In (o, N) calls /\ o_divE o = true
  end.
Proof.
  intros HS. revert s. induction calls as [|[o N] calls IH]; intros s; cbn [Step_Model.steps]; auto.
  unfold Step_Model.step. assert (M : (1 <? k_size k) = false) by (apply Z.ltb_ge; lia).
  rewrite M. simpl. pose proof (loop_single o (Z.to_nat N) HS true s) as H.
  destruct (loop o true (Z.to_nat N) s) as [s1|e]; cbn [bind].
  - specialize (IH s1). destruct (steps calls s1); auto.
    destruct IH as (A & B & o' & N' & Hin & Hbad). split; [exact A|]. split; [exact B|].
    exists o', N'. split; [right|]; auto.
  - destruct H as (A & B & C). split; [exact A|]. split; [exact C|]. exists o, N.
    split; [left; reflexivity|exact B].
Qed.

(** ** C14 *)
Lemma push_ptc_disp d fx fz p : displaced (d * fx) (d * fz) p (push_ptc d fx fx fz p) /\
  vx (push_ptc d fx fx fz p) = vx p /\ vy (push_ptc d fx fx fz p) = vy p /\ vz (push_ptc d fx fx fz p) = vz p.
Proof. unfold displaced, push_ptc; simpl. repeat split. Qed.

Lemma ptc_eq p q : px p = px q -> py p = py q -> pz p = pz q ->
  vx p = vx q -> vy p = vy q -> vz p = vz q -> p = q.
Proof. destruct p, q; simpl; intros; subst; reflexivity. Qed.

Definition mv (mp : bool) (d fx fz : R) (l : list species) : list species :=
  if mp then map (fun sp => {| sp_tracer := sp_tracer sp;
                     sp_ptc := map (push_ptc d fx fx fz) (sp_ptc sp) |}) l else l.
Definition mva (d fx fz : R) (l : list ant) : list ant :=
  map (fun a => {| an_here := an_here a; an_ptc := map (push_ptc d fx fx fz) (an_ptc a) |}) l.
Definition gs (g : R) : R := (if k_gal k then k_vcom k * g else 0)%R.

Lemma cd_go_eq mp d fx fz g s : cd_go mp d fx fz g s =
  {| st_it := st_it s; st_time := st_time s; st_zmin := st_zmin s + gs g; st_gmin := st_gmin s + gs g;
     st_species := mv mp d fx fz (st_species s); st_ants := mva d fx fz (st_ants s);
     st_src := st_src s; st_win := st_win s; st_trace := st_trace s |}%R.
Proof.
  destruct s. unfold cd_go, maybe_galilean, shift_galilean, push_x_ants, push_x_species, mv, mva, gs, set_grid,
    set_ants, set_species. destruct (k_gal k), mp; simpl; f_equal; lra.
Qed.

Lemma push3 d p : push_ptc (0.5 * d) 1 1 (-1) (push_ptc d (-1) (-1) 1 (push_ptc (0.5 * d) 1 1 (-1) p)) = p.
Proof. apply ptc_eq; unfold push_ptc; simpl; lra. Qed.

Lemma mv_back mp d l : mv mp (0.5 * d) 1 (-1) (mv mp d (-1) 1 (mv mp (0.5 * d) 1 (-1) l)) = l.
Proof.
  unfold mv. destruct mp; auto. rewrite !map_map. rewrite <- (map_id l) at 2. apply map_ext.
  intros [t ps]. simpl. f_equal. rewrite !map_map. rewrite <- (map_id ps) at 2. apply map_ext.
  intros p. apply push3.
Qed.
Lemma mva_back d l : mva (0.5 * d) 1 (-1) (mva d (-1) 1 (mva (0.5 * d) 1 (-1) l)) = l.
Proof.
  unfold mva. rewrite !map_map. rewrite <- (map_id l) at 2. apply map_ext.
  intros [t ps]. simpl. f_equal. rewrite !map_map. rewrite <- (map_id ps) at 2. apply map_ext.
  intros p. apply push3.
Qed.

Lemma gs_back d z : (z + gs (-0.5 * d) + gs d + gs (-0.5 * d) = z)%R.
Proof. unfold gs. destruct (k_gal k); lra. Qed.


Lemma C14_main mp s : let s' := cross_deposit k mp s in
  st_species s' = st_species s /\ st_ants s' = st_ants s /\
  st_zmin s' = st_zmin s /\ st_gmin s' = st_gmin s /\
  st_it s' = st_it s /\ st_time s' = st_time s /\ st_win s' = st_win s /\
  exists a b, st_trace s' = st_trace s ++ [EvDeposit rho_next_xy a; EvDeposit rho_next_z b] /\
    a = {| sn_it := st_it s;
           sn_species := depositors (mv mp (0.5 * k_dt k) 1 (-1) (st_species s));
           sn_ants := filter an_here (mva (0.5 * k_dt k) 1 (-1) (st_ants s));
           sn_gmin := st_gmin s + gs (-0.5 * k_dt k) |}%R /\
    b = {| sn_it := st_it s;
           sn_species := depositors (mv mp (k_dt k) (-1) 1 (mv mp (0.5 * k_dt k) 1 (-1) (st_species s)));
           sn_ants := filter an_here (mva (k_dt k) (-1) 1 (mva (0.5 * k_dt k) 1 (-1) (st_ants s)));
           sn_gmin := st_gmin s + gs (-0.5 * k_dt k) + gs (k_dt k) |}%R.
Proof.
  cbv zeta. rewrite cross_eq.
  set (s1 := cd_go mp (0.5 * k_dt k) 1 (-1) (-0.5 * k_dt k) s).
  pose proof (cd_go_eq mp (0.5 * k_dt k) 1 (-1) (-0.5 * k_dt k) s) as E1. fold s1 in E1.
  set (s2 := deposit k rho_next_xy false s1).
  set (s3 := cd_go mp (k_dt k) (-1) 1 (k_dt k) s2).
  pose proof (cd_go_eq mp (k_dt k) (-1) 1 (k_dt k) s2) as E3. fold s3 in E3.
  set (s4 := deposit k rho_next_z false s3).
  rewrite (cd_go_eq mp (0.5 * k_dt k) 1 (-1) (-0.5 * k_dt k) s4).
  cbn [st_it st_time st_zmin st_gmin st_species st_ants st_win st_trace].
  assert (S3 : st_species s3 = mv mp (k_dt k) (-1) 1 (mv mp (0.5 * k_dt k) 1 (-1) (st_species s))).
  { rewrite E3. cbn [st_species]. f_equal. change (st_species s2) with (st_species s1). now rewrite E1. }
  assert (A3 : st_ants s3 = mva (k_dt k) (-1) 1 (mva (0.5 * k_dt k) 1 (-1) (st_ants s))).
  { rewrite E3. cbn [st_ants]. f_equal. change (st_ants s2) with (st_ants s1). now rewrite E1. }
  assert (G1 : st_gmin s1 = (st_gmin s + gs (-0.5 * k_dt k))%R) by now rewrite E1.
  assert (G3 : st_gmin s3 = (st_gmin s + gs (-0.5 * k_dt k) + gs (k_dt k))%R).
  { rewrite E3. cbn [st_gmin]. change (st_gmin s2) with (st_gmin s1). now rewrite G1. }
  assert (Z3 : st_zmin s3 = (st_zmin s + gs (-0.5 * k_dt k) + gs (k_dt k))%R).
  { rewrite E3. cbn [st_zmin]. change (st_zmin s2) with (st_zmin s1). now rewrite E1. }
  assert (I1 : st_it s1 = st_it s) by now rewrite E1.
  assert (I3 : st_it s3 = st_it s). { rewrite E3. exact I1. }
  assert (TM : st_time s3 = st_time s). { rewrite E3. cbn [st_time]. change (st_time s2) with (st_time s1). now rewrite E1. }
  assert (W3 : st_win s3 = st_win s). { rewrite E3. cbn [st_win]. change (st_win s2) with (st_win s1). now rewrite E1. }
  assert (S1 : st_species s1 = mv mp (0.5 * k_dt k) 1 (-1) (st_species s)) by now rewrite E1.
  assert (A1 : st_ants s1 = mva (0.5 * k_dt k) 1 (-1) (st_ants s)) by now rewrite E1.
  assert (T1 : st_trace s1 = st_trace s) by now rewrite E1.
  assert (T3 : st_trace s3 = st_trace s2) by now rewrite E3.
  change (st_species s4) with (st_species s3). change (st_ants s4) with (st_ants s3).
  change (st_zmin s4) with (st_zmin s3). change (st_gmin s4) with (st_gmin s3).
  change (st_it s4) with (st_it s3). change (st_time s4) with (st_time s3).
  change (st_win s4) with (st_win s3).
  rewrite S3, A3, G3, Z3, I3, TM, W3, mv_back, mva_back, !gs_back.
  repeat (split; [reflexivity|]).
  assert (U4 : st_trace s4 = st_trace s3 ++ [EvDeposit rho_next_z {| sn_it := st_it s3;
    sn_species := depositors (st_species s3); sn_ants := filter an_here (st_ants s3); sn_gmin := st_gmin s3 |}])
    by reflexivity.
  assert (U2 : st_trace s2 = st_trace s1 ++ [EvDeposit rho_next_xy {| sn_it := st_it s1;
    sn_species := depositors (st_species s1); sn_ants := filter an_here (st_ants s1); sn_gmin := st_gmin s1 |}])
    by reflexivity.
  rewrite U4, T3, U2, T1, I1, I3, S1, S3, A1, A3, G1, G3.
  do 2 eexists. split; [rewrite <- app_assoc; reflexivity|]. split; reflexivity.
Qed.

Lemma F2_map {A B} (P : A -> B -> Prop) (f : A -> B) l : (forall x, P x (f x)) -> Forall2 P l (map f l).
Proof. intros H. induction l; simpl; constructor; auto. Qed.
Lemma F2_id {A} (P : A -> A -> Prop) l : (forall x, P x x) -> Forall2 P l l.
Proof. intros H. induction l; constructor; auto. Qed.

Lemma dep_map f l : (forall sp, sp_tracer (f sp) = sp_tracer sp) ->
  depositors (map f l) = map f (depositors l).
Proof.
  intros H. unfold depositors. induction l as [|a l IH]; simpl; auto.
  rewrite H. destruct (sp_tracer a); simpl; rewrite ?IH; auto.
Qed.
Lemma here_map f l : (forall a, an_here (f a) = an_here a) ->
  filter an_here (map f l) = map f (filter an_here l).
Proof.
  intros H. induction l as [|a l IH]; simpl; auto.
  rewrite H. destruct (an_here a); simpl; rewrite ?IH; auto.
Qed.

Lemma moved_1 mp d fx fz l (f := (fun x : R => if mp : bool then x else 0)%R) :
  moved_species (f (d * fx))%R (f (d * fz))%R (depositors l) (depositors (mv mp d fx fz l)).
Proof.
  assert (T : Forall (fun sp => sp_tracer sp = false) (depositors l)).
  { apply Forall_forall. intros sp H. apply filter_In in H as [_ H]. now destruct (sp_tracer sp). }
  unfold f, moved_species, mv. destruct mp.
  - rewrite dep_map by reflexivity. induction T as [|sp L Hsp T IH]; simpl; constructor; auto.
    simpl. repeat split; auto. apply F2_map. intros p. apply push_ptc_disp.
  - induction T as [|sp L Hsp T IH]; constructor; auto. repeat split; auto. apply F2_id.
    intros p. unfold displaced. repeat split; lra.
Qed.

Lemma moved_2 mp d l (f := (fun x : R => if mp : bool then x else 0)%R) :
  moved_species (f (-0.5 * d))%R (f (0.5 * d))%R (depositors l)
     (depositors (mv mp d (-1) 1 (mv mp (0.5 * d) 1 (-1) l))).
Proof.
  assert (T : Forall (fun sp => sp_tracer sp = false) (depositors l)).
  { apply Forall_forall. intros sp H. apply filter_In in H as [_ H]. now destruct (sp_tracer sp). }
  unfold f, moved_species, mv. destruct mp.
  - rewrite !dep_map by reflexivity. rewrite map_map.
    induction T as [|sp L Hsp T IH]; simpl; constructor; auto.
    simpl. repeat split; auto. rewrite map_map. apply F2_map. intros p.
    unfold displaced, push_ptc; simpl. repeat split; lra.
  - induction T as [|sp L Hsp T IH]; constructor; auto. repeat split; auto. apply F2_id.
    intros p. unfold displaced. repeat split; lra.
Qed.

Lemma moveda_1 d fx fz l : moved_ants (d * fx) (d * fz) (filter an_here l) (filter an_here (mva d fx fz l)).
Proof.
  unfold moved_ants, mva. rewrite here_map by reflexivity. apply F2_map. intros a. simpl.
  apply F2_map. intros p. apply push_ptc_disp.
Qed.
Lemma moveda_2 d l : moved_ants (-0.5 * d) (0.5 * d) (filter an_here l)
  (filter an_here (mva d (-1) 1 (mva (0.5 * d) 1 (-1) l))).
Proof.
  unfold moved_ants, mva. rewrite !here_map by reflexivity. rewrite map_map. apply F2_map. intros a. simpl.
  rewrite map_map. apply F2_map. intros p. unfold displaced, push_ptc; simpl. repeat split; lra.
Qed.

Lemma C14_final mp s (f := (fun x : R => if mp : bool then x else 0)%R) (h := (0.5 * k_dt k)%R)
  (g := (if k_gal k then k_vcom k else 0)%R) : let s' := cross_deposit k mp s in
  st_species s' = st_species s /\ st_ants s' = st_ants s /\
  st_zmin s' = st_zmin s /\ st_gmin s' = st_gmin s /\
  exists a b, st_trace s' = st_trace s ++ [EvDeposit rho_next_xy a; EvDeposit rho_next_z b] /\
    moved_species (f h) (f (- h)%R) (depositors (st_species s)) (sn_species a) /\
    moved_ants h (- h)%R (filter an_here (st_ants s)) (sn_ants a) /\
    sn_gmin a = (st_gmin s - g * h)%R /\
    moved_species (f (- h)%R) (f h) (depositors (st_species s)) (sn_species b) /\
    moved_ants (- h)%R h (filter an_here (st_ants s)) (sn_ants b) /\
    sn_gmin b = (st_gmin s + g * h)%R.
Proof.
  cbv zeta. destruct (C14_main mp s) as (A & B & C & D & _ & _ & _ & a & b & T & -> & ->).
  cbv zeta in *. repeat (split; [assumption|]). do 2 eexists. split; [exact T|]. simpl.
  split; [|split; [|split; [|split; [|split]]]].
  - pose proof (moved_1 mp (0.5 * k_dt k) 1 (-1) (st_species s)) as M. cbv zeta in M.
    replace (0.5 * k_dt k * 1)%R with h in M by (unfold h; lra).
    replace (0.5 * k_dt k * -1)%R with (- h)%R in M by (unfold h; lra). exact M.
  - pose proof (moveda_1 (0.5 * k_dt k) 1 (-1) (st_ants s)) as M.
    replace (0.5 * k_dt k * 1)%R with h in M by (unfold h; lra).
    replace (0.5 * k_dt k * -1)%R with (- h)%R in M by (unfold h; lra). exact M.
  - unfold gs, g, h. destruct (k_gal k); lra.
  - pose proof (moved_2 mp (k_dt k) (st_species s)) as M. cbv zeta in M.
    replace (-0.5 * k_dt k)%R with (- h)%R in M by (unfold h; lra). exact M.
  - pose proof (moveda_2 (k_dt k) (st_ants s)) as M.
    replace (-0.5 * k_dt k)%R with (- h)%R in M by (unfold h; lra). exact M.
  - unfold gs, g, h. destruct (k_gal k); lra.
Qed.
End P.
