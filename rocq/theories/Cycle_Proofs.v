(** Proofs for Cycle_Props. *)
From Verif Require Import Base Step_Model Cycle_Model Cycle_Spec.
From Coq Require Import Reals String.
Open Scope Z_scope.

Section Pf.
Context {P Q A W : Type} (k : kernels P Q A W) (o : opts).

(** Equal except for what the diagnostics may overwrite. *)
Record sim (s t : st P Q A W) : Prop := { e_ptc : ptc s = ptc t; e_ants : ants s = ants t; e_env : env s = env t; e_time : time s = time t;
  e_it : it s = it t; e_iEB : iEB s = iEB t; e_sEB : sEB s = sEB t;
  e_J : aJ (src s) = aJ (src t); e_prev : aprev (src s) = aprev (src t); e_xy : axy (src s) = axy (src t); e_z : az (src s) = az (src t);
  f_J : aJ (flg s) = aJ (flg t); f_prev : aprev (flg s) = aprev (flg t); f_xy : axy (flg s) = axy (flg t); f_z : az (flg s) = az (flg t) }.
Lemma sim_refl s : sim s s. Proof. constructor; reflexivity. Qed.
Lemma sim_sym s t : sim s t -> sim t s. Proof. intros []; constructor; congruence. Qed.
Lemma sim_trans s t u : sim s t -> sim t u -> sim s u. Proof. intros [] []; constructor; congruence. Qed.

Lemma fetch_sim f s : sim (fetch k f s) s. Proof. constructor; reflexivity. Qed.
Lemma density_sim : forall l s acc, sim (fst (fold_left (density_of k) l (s, acc))) s.
Proof.
  induction l as [|x l IH]; intros s acc; [apply sim_refl|]. cbn [fold_left]. unfold density_of at 2. cbn [fst snd].
  destruct (nth_error (ptc s) (snd x)); [|apply IH].
  eapply sim_trans; [apply IH|]. constructor; reflexivity.
Qed.
Lemma write_hdf5_sim d s : sim (fst (write_hdf5 k d s)) s.
Proof.
  unfold write_hdf5. destruct (dg_kind d) as [fts|fts|sps|sps]; cbn [fst].
  - destruct (has Frho fts), (has FJ fts); repeat first [apply sim_refl | (eapply sim_trans; [apply fetch_sim|])].
  - destruct (has Frho fts || has FJ fts); repeat first [apply sim_refl | (eapply sim_trans; [apply fetch_sim|])].
  - apply density_sim.
  - apply sim_refl.
Qed.
Lemma write_sim d s : sim (fst (write k d s)) s.
Proof.
  unfold write. destruct (due d (it s)); [|apply sim_refl]. pose proof (write_hdf5_sim d s) as H.
  destruct (write_hdf5 k d s). exact H.
Qed.
Lemma run_diags_sim : forall ds s, sim (fst (run_diags k ds s)) s.
Proof.
  induction ds as [|d ds IH]; intros s; [apply sim_refl|]. cbn [run_diags].
  pose proof (write_sim d s) as H. destruct (write k d s) as [s1 r]. cbn [fst] in H.
  specialize (IH s1). destruct (run_diags k ds s1). cbn [fst] in *. eapply sim_trans; eauto.
Qed.

(** The records depend only on the rest. *)
Lemma fetch_J s t : sim s t -> iJ (fetch k J s) = iJ (fetch k J t).
Proof. intros []. unfold fetch, get5. cbn. rewrite e_J0, f_J0, e_env0. reflexivity. Qed.
Lemma fetch_rho s t : sim s t -> irho (fetch k rho_prev s) = irho (fetch k rho_prev t).
Proof. intros []. unfold fetch, get5. cbn. rewrite e_prev0, f_prev0, e_env0. reflexivity. Qed.
Lemma grab_eq (s t : st P Q A W) fts : iEB s = iEB t -> (has FJ fts = true -> iJ s = iJ t) -> (has Frho fts = true -> irho s = irho t) ->
  map (grab s) fts = map (grab t) fts.
Proof.
  intros He Hj Hr. apply map_ext_in. intros f Hf. unfold grab. f_equal.
  assert (Hh : has f fts = true) by (unfold has; apply existsb_exists; exists f; split; [exact Hf|destruct f; reflexivity]).
  destruct f; rewrite ?He; auto.
Qed.
Lemma density_rec : forall l s t a, sim s t ->
  snd (fold_left (density_of k) l (s, a)) = snd (fold_left (density_of k) l (t, a)).
Proof.
  induction l as [|x l IH]; intros s t a H; [reflexivity|]. cbn [fold_left]. unfold density_of at 2 4. cbn [fst snd].
  rewrite <- (e_ptc _ _ H). destruct (nth_error (ptc s) (snd x)) as [p|]; [|apply IH; exact H].
  assert (E : forall u v, snd (fold_left (density_of k) l (u, v)) = snd (fold_left (density_of k) l (u, v))) by reflexivity.
  cbn [deposit env get5 src set_flg set_src set_i set5 anext irho is_J]. rewrite <- (e_env _ _ H).
  apply IH. destruct H; constructor; cbn; congruence.
Qed.
Lemma write_rec d s t : sim s t -> snd (write k d s) = snd (write k d t).
Proof.
  intros H. unfold write. rewrite <- (e_it _ _ H). destruct (due d (it s)); [|reflexivity].
  assert (E : snd (write_hdf5 k d s) = snd (write_hdf5 k d t)).
  { unfold write_hdf5. destruct (dg_kind d) as [fts|fts|sps|sps].
    - cbn [snd]. apply grab_eq.
      + destruct (has Frho fts), (has FJ fts); cbn; apply (e_iEB _ _ H).
      + intros Hj. rewrite Hj. destruct (has Frho fts); apply fetch_J; [|exact H].
        eapply sim_trans; [apply fetch_sim|]. eapply sim_trans; [exact H|apply sim_sym, fetch_sim].
      + intros Hr. rewrite Hr. destruct (has FJ fts); [|apply fetch_rho, H].
        cbn. apply (fetch_rho _ _ H).
    - cbn [snd]. apply grab_eq.
      + destruct (has Frho fts || has FJ fts); cbn; apply (e_iEB _ _ H).
      + intros Hj. rewrite Hj, orb_true_r. cbn. apply (fetch_J _ _ H).
      + intros Hr. rewrite Hr. cbn [orb]. apply fetch_rho.
        eapply sim_trans; [apply fetch_sim|]. eapply sim_trans; [exact H|apply sim_sym, fetch_sim].
    - apply density_rec, H.
    - cbn [snd]. rewrite <- (e_ptc _ _ H). reflexivity. }
  destruct (write_hdf5 k d s), (write_hdf5 k d t). cbn [snd] in *. rewrite E, <- (e_env _ _ H). reflexivity.
Qed.
Lemma run_diags_rec : forall ds s, snd (run_diags k ds s) = map (fun d => snd (write k d s)) ds.
Proof.
  induction ds as [|d ds IH]; intros s; [reflexivity|]. cbn [run_diags map].
  pose proof (write_sim d s) as H. destruct (write k d s) as [s1 r]. cbn [fst] in H.
  specialize (IH s1). destruct (run_diags k ds s1) as [s2 rs]. cbn [snd] in *. rewrite IH. f_equal.
  apply map_ext. intros d'. apply write_rec, H.
Qed.

(** Equal except for the current as well. *)
Record sim2 (s t : st P Q A W) : Prop := { e2_ptc : ptc s = ptc t; e2_ants : ants s = ants t; e2_env : env s = env t; e2_time : time s = time t;
  e2_it : it s = it t; e2_iEB : iEB s = iEB t; e2_sEB : sEB s = sEB t;
  e2_prev : aprev (src s) = aprev (src t); e2_xy : axy (src s) = axy (src t); e2_z : az (src s) = az (src t);
  f2_prev : aprev (flg s) = aprev (flg t); f2_xy : axy (flg s) = axy (flg t); f2_z : az (flg s) = az (flg t) }.
Lemma sim_sim2 s t : sim s t -> sim2 s t. Proof. intros []; constructor; assumption. Qed.

(** What follows the diagnostics recomputes everything they may have overwritten. *)
Lemma st_eq (s t : st P Q A W) : sim s t -> iJ s = iJ t -> irho s = irho t -> anext (src s) = anext (src t) ->
  anext (flg s) = anext (flg t) -> s = t.
Proof.
  intros [] Hj Hr Hn Hf. destruct s as [? ? ? ? ? ? ? ? ? [] []], t as [? ? ? ? ? ? ? ? ? [] []]. cbn in *. subst. reflexivity.
Qed.
Lemma deposit_sim f e who s t : sim s t -> sim (deposit k f e who s) (deposit k f e who t).
Proof.
  intros []. unfold deposit. rewrite <- e_ptc0, <- e_ants0, <- e_env0.
  destruct who; destruct f; constructor; cbn; congruence.
Qed.
Lemma move_all_sim dt a b c g s t : sim s t -> sim (move_all k o dt a b c g s) (move_all k o dt a b c g t).
Proof. intros []. unfold move_all. destruct (o_move_x o), (k_galilean k); constructor; cbn; congruence. Qed.
Lemma move_all_i dt a b c g s : iJ (move_all k o dt a b c g s) = iJ s /\ irho (move_all k o dt a b c g s) = irho s.
Proof. unfold move_all. destruct (o_move_x o), (k_galilean k); split; reflexivity. Qed.
Lemma move_all_sim2 dt a b c g s t : sim2 s t -> sim2 (move_all k o dt a b c g s) (move_all k o dt a b c g t).
Proof. intros []. unfold move_all. destruct (o_move_x o), (k_galilean k); constructor; cbn; congruence. Qed.
Lemma deposit_J_i e who s t : sim2 s t -> iJ (deposit k J e who s) = iJ (deposit k J e who t).
Proof. intros []. unfold deposit. rewrite <- e2_ptc0, <- e2_ants0, <- e2_env0. destruct who; reflexivity. Qed.
Lemma deposit_J_sim e who s t : sim2 s t -> sim (deposit k J e who s) (deposit k J e who t).
Proof. intros []. unfold deposit. rewrite <- e2_ptc0, <- e2_ants0, <- e2_env0. destruct who; constructor; cbn; congruence. Qed.
Lemma deposit_rho_i f e who s : is_J f = false -> iJ (deposit k f e who s) = iJ s.
Proof. intros H. unfold deposit. rewrite H. destruct who; reflexivity. Qed.
Lemma deposit_next e who s t : sim s t -> iJ s = iJ t -> deposit k rho_next e who s = deposit k rho_next e who t.
Proof.
  intros H Hj. apply st_eq.
  - apply deposit_sim, H.
  - rewrite !deposit_rho_i by reflexivity. exact Hj.
  - destruct H. unfold deposit. rewrite <- e_ptc0, <- e_ants0, <- e_env0. destruct who; reflexivity.
  - destruct H. unfold deposit. rewrite <- e_ptc0, <- e_ants0, <- e_env0. destruct who; reflexivity.
  - unfold deposit. destruct who; reflexivity.
Qed.
Lemma after_sim2 s t : sim2 s t -> after_diags k o s = after_diags k o t.
Proof.
  intros H. unfold after_diags.
  set (s1 := if o_move_p o then _ else s). set (t1 := if o_move_p o then _ else t).
  assert (H1 : sim2 s1 t1) by (destruct H; subst s1 t1; destruct (o_move_p o); constructor; cbn; congruence).
  clearbody s1 t1. cbn zeta.
  set (s2 := set_ants _ s1). set (t2 := set_ants _ t1).
  assert (H2 : sim2 s2 t2) by (destruct H1; subst s2 t2; constructor; cbn; congruence). clearbody s2 t2.
  set (s3 := move_all k o _ 1 1 1 _ s2). set (t3 := move_all k o _ 1 1 1 _ t2).
  assert (H3 : sim2 s3 t3) by (apply move_all_sim2, H2). clearbody s3 t3.
  rewrite <- (e2_env _ _ H3), <- (e2_time _ _ H3), <- (e2_ptc _ _ H3). destruct (k_elem k _ _ _) as [w ps].
  set (s4 := set_env w (set_ptc ps s3)). set (t4 := set_env w (set_ptc ps t3)).
  assert (H4 : sim2 s4 t4) by (destruct H3; subst s4 t4; constructor; cbn; congruence). clearbody s4 t4.
  set (s5 := deposit k J _ None s4). set (t5 := deposit k J _ None t4).
  assert (H5 : sim s5 t5) by (apply deposit_J_sim, H4). assert (J5 : iJ s5 = iJ t5) by (apply deposit_J_i, H4). clearbody s5 t5.
  set (s6 := if o_cc o && k_cross k then _ else s5). set (t6 := if o_cc o && k_cross k then _ else t5).
  assert (H6 : sim s6 t6 /\ iJ s6 = iJ t6).
  { subst s6 t6. destruct (o_cc o && k_cross k); [|auto]. unfold cross_deposit. split.
    - apply move_all_sim, deposit_sim, move_all_sim, deposit_sim, move_all_sim, H5.
    - rewrite !(proj1 (move_all_i _ _ _ _ _ _)), !(deposit_rho_i rho_next_z) by reflexivity.
      rewrite !(proj1 (move_all_i _ _ _ _ _ _)), !(deposit_rho_i rho_next_xy) by reflexivity.
      rewrite !(proj1 (move_all_i _ _ _ _ _ _)). exact J5. }
  destruct H6 as [H6 J6]. clearbody s6 t6.
  rewrite (deposit_next (o_true_rho o) None (move_all k o (0.5 * k_dt k) 1 1 1 (0.5 * k_dt k) s6) (move_all k o (0.5 * k_dt k) 1 1 1 (0.5 * k_dt k) t6)).
  - reflexivity.
  - apply move_all_sim, H6.
  - rewrite !(proj1 (move_all_i _ _ _ _ _ _)). exact J6.
Qed.

Lemma after_sim s t : sim s t -> after_diags k o s = after_diags k o t.
Proof. intros H. apply after_sim2, sim_sim2, H. Qed.

Lemma iterate_sim : forall n ds first s l l', simulation (iterate k o ds n first s l) = simulation (iterate k o [] n first s l').
Proof.
  induction n as [|n IH]; intros; [reflexivity|]. cbn [iterate run_diags].
  pose proof (run_diags_sim ds (before_diags k o first s)) as H. destruct (run_diags k ds _) as [s1 rs]. cbn [fst] in H.
  rewrite (after_sim _ _ H). destruct (after_diags k o (before_diags k o first s)); [apply IH|reflexivity].
Qed.
Lemma step_sim ds n s : simulation (step k o ds n s) = simulation (step k o [] n s).
Proof.
  unfold step. destruct (k_multi k && o_divE o); [reflexivity|]. destruct (k_multi k && o_true_rho o && o_cc o); [reflexivity|].
  pose proof (iterate_sim n ds true (begin_step k s) (map (fun _ => []) ds) []) as H.
  destruct (iterate k o ds n _ _ _) as [[]|], (iterate k o [] n _ _ _) as [[]|]; cbn in *; congruence.
Qed.

Lemma nth_combine {X} (l m : list (list X)) i : nth_error (map (fun '(a, b) => a ++ b) (combine l m)) i =
  match nth_error l i, nth_error m i with Some a, Some b => Some (a ++ b) | _, _ => None end.
Proof.
  revert m i. induction l as [|a l IH]; intros m i; [destruct i; reflexivity|].
  destruct m as [|b m]; destruct i as [|i]; cbn; try reflexivity.
  - destruct (nth_error l i); reflexivity.
  - apply IH.
Qed.
Lemma iterate_rec i d ds : nth_error ds i = Some d -> forall n first s l l',
  List.length l = List.length ds -> List.length l' = 1%nat -> nth_error l i = nth_error l' 0 ->
  records i (iterate k o ds n first s l) = records 0 (iterate k o [d] n first s l').
Proof.
  intros Hd. induction n as [|n IH]; intros first s l l' Hl Hl' E; [cbn [iterate records]; rewrite E; reflexivity|].
  cbn [iterate]. set (s0 := before_diags k o first s).
  pose proof (run_diags_sim ds s0) as H1. pose proof (run_diags_sim [d] s0) as H2.
  pose proof (run_diags_rec ds s0) as R1. pose proof (run_diags_rec [d] s0) as R2.
  destruct (run_diags k ds s0) as [s1 rs], (run_diags k [d] s0) as [s2 rs']. cbn [fst snd] in *.
  rewrite (after_sim _ _ H1), (after_sim _ _ H2). destruct (after_diags k o s0); [|reflexivity]. cbn [bind]. apply IH.
  - rewrite map_length, combine_length, Hl, R1, map_length. lia.
  - rewrite map_length, combine_length, Hl', R2. reflexivity.
  - rewrite !nth_combine, R1, R2, <- E, (map_nth_error _ _ _ Hd). reflexivity.
Qed.
Lemma step_rec i d ds n s : nth_error ds i = Some d -> records i (step k o ds n s) = records 0 (step k o [d] n s).
Proof.
  intros Hd. unfold step. destruct (k_multi k && o_divE o); [reflexivity|].
  destruct (k_multi k && o_true_rho o && o_cc o); [reflexivity|].
  pose proof (iterate_rec i d ds Hd n true (begin_step k s) (map (fun _ => []) ds) (map (fun _ => []) [d])) as H.
  assert (H' : forall a b : res (st P Q A W * list (list (record P A W))), records i a = records 0 b ->
     records i (bind a (fun '(s, logs) => Ok (fetch k rho_prev (fetch k J s), logs))) =
     records 0 (bind b (fun '(s, logs) => Ok (fetch k rho_prev (fetch k J s), logs)))).
  { intros [[]|] [[]|]; cbn; congruence. }
  apply H', H.
  - apply map_length.
  - reflexivity.
  - rewrite (map_nth_error _ _ _ Hd). reflexivity.
Qed.

(** * Splitting a run *)
Lemma iterate_app : forall n m f s l, iterate k o [] (n + m) f s l = bind (iterate k o [] n f s l) (fun '(s', l') =>
  iterate k o [] m (match n with O => f | _ => false end) s' l').
Proof.
  induction n as [|n IH]; intros m f s l; [reflexivity|]. cbn [iterate plus run_diags].
  destruct (after_diags k o _) as [s'|e]; [|reflexivity]. cbn [bind]. rewrite IH.
  destruct (iterate k o [] n false s' _) as [[s'' l']|e]; [|reflexivity]. cbn [bind]. destruct n; reflexivity.
Qed.
Lemma iterate_nil : forall n f s l, match iterate k o [] n f s l with Ok (_, l') => n <> O -> l' = [] | Err _ => True end.
Proof.
  induction n as [|n IH]; intros f s l; cbn [iterate run_diags]; [congruence|].
  destruct (after_diags k o _) as [s'|e]; [|exact I]. cbn [bind].
  assert (E : map (fun '(a, b) => a ++ b) (combine l (@nil (list (record P A W)))) = []) by (destruct l; reflexivity).
  rewrite E. destruct n as [|n]; [cbn; auto|]. specialize (IH false s' []).
  destruct (iterate k o [] (S n) false s' []) as [[? ?]|]; auto.
Qed.
Lemma after_bound s s' : after_diags k o s = Ok s' -> exists t eb, k_bound k (env s') t eb = (sEB s', iEB s').
Proof.
  unfold after_diags. cbn zeta. destruct (k_elem k _ _ _) as [w ps].
  destruct (if o_cc o then _ else _) as [s1|]; cbn [bind]; [|discriminate].
  destruct (push_fields k o s1) as [s2|]; cbn [bind]; [|discriminate].
  set (s3 := if o_divE o then _ else s2). clearbody s3. set (s4 := if k_window k then _ else s3). clearbody s4.
  destruct (k_bound k (env s4) (time s4) (sEB s4)) as [sp ip] eqn:E. intros H. injection H as <-. cbn. eauto.
Qed.
Lemma iterate_bound : forall n f s l s' l', iterate k o [] n f s l = Ok (s', l') -> n <> O -> exists t eb, k_bound k (env s') t eb = (sEB s', iEB s').
Proof.
  induction n as [|n IH]; intros f s l s' l' H Hn; [congruence|]. cbn [iterate run_diags] in H.
  destruct (after_diags k o _) as [s1|] eqn:E; cbn [bind] in H; [|discriminate].
  destruct n as [|n]; [|apply (IH _ _ _ _ _ H); discriminate].
  cbn in H. injection H as <- <-. apply (after_bound _ _ E).
Qed.
Lemma before_sim2 s t : sim2 s t -> it s mod k_period k = 0 -> sim2 (before_diags k o false s) (before_diags k o true t).
Proof.
  intros H Hp. unfold before_diags. rewrite <- (e2_it _ _ H), Hp. cbn [Z.eqb orb].
  assert (E : sim2 (exchange_particles k o s) (exchange_particles k o t)).
  { destruct H. unfold exchange_particles. rewrite <- e2_env0, <- e2_time0, <- e2_ptc0.
    destruct (k_exch_p k _ _ _) as [w ps]. constructor; cbn; rewrite <- ?e2_ants0; congruence. }
  set (s1 := exchange_particles k o s) in *. set (t1 := exchange_particles k o t) in *. clearbody s1 t1.
  destruct E. constructor; cbn; congruence.
Qed.
Lemma step_split n1 n2 s s1 : n1 <> O -> seamless k -> simulation (step k o [] n1 s) = Ok s1 ->
  it s1 mod k_period k = 0 -> (k_window k = true -> k_init k (env s1) (ptc s1) = ptc s1) ->
  step k o [] (n1 + n2) s = step k o [] n2 s1.
Proof.
  intros Hn Hs H Hp Hi. unfold step in *.
  destruct (k_multi k && o_divE o); [reflexivity|]. destruct (k_multi k && o_true_rho o && o_cc o); [reflexivity|].
  cbn [map] in *. rewrite iterate_app. pose proof (iterate_bound n1 true (begin_step k s) []) as B.
  pose proof (iterate_nil n1 true (begin_step k s) []) as N.
  destruct (iterate k o [] n1 true (begin_step k s) _) as [[s' l']|e]; [|discriminate].
  cbn in H. injection H as H. specialize (B s' l' eq_refl Hn). specialize (N Hn). subst l'. cbn [bind].
  destruct n1 as [|n1]; [congruence|].
  destruct B as (t & eb & B). pose proof (Hs (env s') t eb) as E. rewrite B in E. destruct E as [E1 E2].
  assert (S2 : sim2 s' (begin_step k s1) /\ aJ (src s') = aJ (src (begin_step k s1)) /\ aJ (flg s') = aJ (flg (begin_step k s1))
     /\ anext (src s') = anext (src (begin_step k s1)) /\ anext (flg s') = anext (flg (begin_step k s1))).
  { subst s1. cbn [fetch set_i env ptc] in Hi.
    split; [|unfold begin_step; destruct (k_window k); repeat split; reflexivity].
    unfold begin_step. destruct (k_window k); constructor; cbn; rewrite ?(Hi eq_refl), ?E1, ?E2; reflexivity. }
  destruct S2 as (S2 & HJ & FJ & Hx & Fx). destruct n2 as [|n2].
  - cbn [iterate bind map]. do 2 f_equal. destruct S2.
    set (b := begin_step k s1) in *. clearbody b. unfold fetch. cbn.
    apply st_eq; [constructor; cbn; congruence|cbn..]; try congruence; rewrite ?HJ, ?FJ, ?e2_prev0, ?f2_prev0, ?e2_env0; reflexivity.
  - cbn [iterate run_diags map].
    assert (Hp' : it s' mod k_period k = 0) by (subst s1; exact Hp).
    rewrite (after_sim2 _ _ (before_sim2 _ _ S2 Hp')). reflexivity.
Qed.

(** A call without iteration. *)
Lemma step_0 ds s s' l : step k o ds 0 s = Ok (s', l) -> iEB s' = k_damp k (env s) (k_exch k (env s) (iEB s)).
Proof.
  unfold step. destruct (k_multi k && o_divE o); [discriminate|]. destruct (k_multi k && o_true_rho o && o_cc o); [discriminate|].
  cbn. intros H. injection H as <- _. unfold begin_step. destruct (k_window k); reflexivity.
Qed.

(** * Sum of the densities *)
Section Sum.
Context (plus : A -> A -> A) (zero : A) (M : monoid plus zero) (L : linear_charge k plus zero) (K : keeps_species k).
Context (Hper : k_period k = 1) (Hex : o_true_rho o = false \/ k_multi k = false).
Notation dep w p := (k_dep k false w p zero).
(** The operations applied to the deposited charge before it is written. *)
Definition chain (w : W) (a : A) : A :=
  let v := k_fwd k false (k_reduce k false a) in
  let v := k_bwd k false (if k_filter k then k_filt k false v else v) in
  if k_multi k then k_add k false w v else v.
Lemma chain_additive w : additive plus zero (chain w).
Proof.
  destruct L as [_ _ _ [R0 R1] Ad [F0 F1] [G0 G1] [B0 B1]]. destruct (Ad w) as [A0 A1]. unfold chain.
  destruct (k_filter k), (k_multi k); split; intros; rewrite ?R0, ?F0, ?G0, ?B0, ?A0, ?R1, ?F1, ?G1, ?B1, ?A1; reflexivity.
Qed.
Lemma fold_dep w : forall l a, fold_left (fun a p => k_dep k false w p a) l a = plus a (fold_right plus zero (map (fun p => dep w p) l)).
Proof.
  induction l as [|p l IH]; intros a; cbn [fold_left map fold_right].
  - rewrite (mon_comm _ _ M), (mon_zero _ _ M). reflexivity.
  - rewrite IH, (lc_dep _ _ _ L w p a), (mon_assoc _ _ M). reflexivity.
Qed.
Lemma additive_sum f : additive plus zero f -> forall l, f (fold_right plus zero l) = fold_right plus zero (map f l).
Proof. intros [H0 H1]. induction l as [|a l IH]; cbn; [exact H0|rewrite H1, IH; reflexivity]. Qed.

(** The density records. *)
Lemma density_list : forall (names : list (string * nat)) s acc,
  Forall (fun x => nth_error (ptc s) (snd x) <> None) names ->
  map (charge_of zero) (snd (fold_left (density_of k) names (s, acc))) = map (charge_of zero) acc ++
    flat_map (fun x => match nth_error (ptc s) (snd x) with Some p => [chain (env s) (dep (env s) p)] | None => [] end) names.
Proof.
  induction names as [|x names IH]; intros s acc H; [cbn; rewrite app_nil_r; reflexivity|].
  pose proof (Forall_inv H) as H1. pose proof (Forall_inv_tail H) as H2. clear H.
  cbn [fold_left flat_map]. unfold density_of at 2. cbn [fst snd]. destruct (nth_error (ptc s) (snd x)) as [p|] eqn:E; [|congruence].
  rewrite IH by exact H2. rewrite map_app, <- app_assoc. f_equal. cbn [map app charge_of]. f_equal.
  cbn. rewrite (lc_zero _ _ _ L). unfold chain. destruct (k_filter k), (k_multi k); reflexivity.
Qed.
Lemma positions_flat {X} (f : P -> X) : forall ps n, (forall m, (m < List.length ps)%nat -> True) ->
  flat_map (fun i => match nth_error ps (i - n) with Some p => [f p] | None => [] end) (positions n (map (k_tracer k) ps)) =
  map f (filter (fun p => negb (k_tracer k p)) ps).
Proof.
  induction ps as [|p ps IH]; intros n Hn; [reflexivity|]. cbn [map positions filter].
  assert (E : flat_map (fun i => match nth_error (p :: ps) (i - n) with Some p => [f p] | None => [] end) (positions (S n) (map (k_tracer k) ps)) =
              map f (filter (fun p => negb (k_tracer k p)) ps)).
  { rewrite <- (IH (S n)) by auto. assert (G : Forall (fun i => (S n <= i)%nat) (positions (S n) (map (k_tracer k) ps))).
    { clear. generalize (map (k_tracer k) ps) as l. generalize (S n) as m. intros m l. revert m.
      induction l as [|b l IH]; intros m; cbn; [constructor|]. apply Forall_app. split; [destruct b; repeat constructor|].
      eapply Forall_impl; [|apply IH]. cbn. intros; lia. }
    clear - G. induction G as [|i l Hi G IH]; [reflexivity|]. cbn [flat_map]. rewrite IH. f_equal.
    replace (i - n)%nat with (S (i - S n)) by lia. reflexivity. }
  destruct (k_tracer k p); cbn [negb app flat_map map]; [exact E|].
  replace (n - n)%nat with O by lia. cbn [nth_error app]. rewrite E. reflexivity.
Qed.
Lemma positions_ok : forall ps n, Forall (fun i => nth_error ps (i - n) <> None) (positions n (map (k_tracer k) ps)).
Proof.
  assert (G : forall l n, Forall (fun i => (n <= i < n + List.length l)%nat) (positions n l)).
  { induction l as [|b l IH]; intros n; cbn; [constructor|]. apply Forall_app. split; [destruct b; repeat constructor; lia|].
    eapply Forall_impl; [|apply IH]. cbn. intros; lia. }
  intros ps n. eapply Forall_impl; [|apply G]. cbn. intros i H. rewrite map_length in H. apply nth_error_Some. lia.
Qed.
Lemma map_filter {X Y} (f : X -> Y) (t : X -> bool) : forall l l', map f l = map f l' -> map t l = map t l' ->
  map f (filter (fun p => negb (t p)) l) = map f (filter (fun p => negb (t p)) l').
Proof.
  induction l as [|a l IH]; intros [|b l']; cbn; try discriminate; [reflexivity|]. intros H1 H2. injection H1 as H1 H1'. injection H2 as H2 H2'.
  rewrite H2. destruct (t b); cbn; [|rewrite H1; f_equal]; apply IH; assumption.
Qed.
Lemma map_pres (t : P -> bool) (g : P -> P) l : (forall p, t (g p) = t p) -> map t (map g l) = map t l.
Proof. intros H. rewrite map_map. apply map_ext. exact H. Qed.

Lemma before_rho first s : ants s = [] -> irho (fetch k rho_prev (before_diags k o first s)) =
  fold_right plus zero (map (fun p => chain (env (before_diags k o first s)) (dep (env (before_diags k o first s)) p))
    (filter (fun p => negb (k_tracer k p)) (ptc (before_diags k o first s)))).
Proof.
  intros Ha. unfold before_diags. rewrite Hper, Z.mod_1_r. cbn [Z.eqb orb].
  set (s1 := exchange_particles k o s).
  assert (E : irho (fetch k rho_prev s1) = fold_right plus zero (map (fun p => chain (env s1) (dep (env s1) p)) (filter (fun p => negb (k_tracer k p)) (ptc s1)))).
  { subst s1. unfold exchange_particles. destruct (k_exch_p k _ _ _) as [w ps].
    set (s2 := set_ants _ _). assert (A2 : ants s2 = []) by (subst s2; cbn; rewrite Ha; reflexivity). clearbody s2.
    unfold deposit. rewrite A2. cbn [is_J fold_left]. rewrite fold_dep, (lc_zero _ _ _ L), (mon_zero _ _ M).
    set (l := filter _ (ptc s2)). cbn [fetch set_flg set_src set_i is_J get5 set5 src flg aprev env irho ptc].
    fold l. rewrite <- (map_map (fun p => dep (env s2) p) (chain (env s2))), <- (additive_sum _ (chain_additive (env s2))).
    set (x := fold_right plus zero _). unfold chain.
    destruct Hex as [Hx|Hx]; rewrite Hx; cbn [negb andb]; rewrite ?andb_false_r; destruct (k_filter k); try reflexivity; destruct (k_multi k); reflexivity. }
  set (s3 := if first then _ else s1).
  assert (E3 : irho (fetch k rho_prev s3) = irho (fetch k rho_prev s1) /\ env s3 = env s1 /\ ptc s3 = ptc s1)
    by (subst s3; destruct first; repeat split; reflexivity).
  clearbody s3. destruct E3 as (E3 & E4 & E5). rewrite <- E4, <- E5, <- E3 in E. clear E3 E4 E5. clearbody s1.
  cbn [set_ptc env ptc time]. change (irho (fetch k rho_prev (set_ptc (k_ext k (time s3) (map (k_gather k (env s3) (iEB s3)) (ptc s3)))
    (set_ptc (map (k_gather k (env s3) (iEB s3)) (ptc s3)) s3)))) with (irho (fetch k rho_prev s3)).
  rewrite E. f_equal. apply map_filter.
  - rewrite <- !(map_map (fun p => dep (env s3) p) (chain (env s3))). f_equal. rewrite (ks_ext_dep _ K), map_map.
    apply map_ext. intros p. symmetry. apply (ks_gather_dep _ K).
  - rewrite (ks_ext _ K), map_pres; [reflexivity|]. intros; apply (ks_gather _ K).
Qed.
Lemma before_keeps first s : ants s = [] -> ants (before_diags k o first s) = [] /\
  map (k_tracer k) (ptc (before_diags k o first s)) = map (k_tracer k) (ptc s).
Proof.
  intros Ha. unfold before_diags. rewrite Hper, Z.mod_1_r. cbn [Z.eqb orb].
  set (s1 := exchange_particles k o s).
  assert (E : ants s1 = [] /\ map (k_tracer k) (ptc s1) = map (k_tracer k) (ptc s)).
  { subst s1. unfold exchange_particles. pose proof (ks_exch _ K (env s) (time s) (ptc s)) as H.
    destruct (k_exch_p k _ _ _) as [w ps]. cbn in *. rewrite Ha. auto. }
  clearbody s1. cbn. rewrite (ks_ext _ K), map_pres by (intros; apply (ks_gather _ K)). destruct first; exact E.
Qed.
Lemma move_all_keeps dt a b c g s : ants s = [] -> ants (move_all k o dt a b c g s) = [] /\
  map (k_tracer k) (ptc (move_all k o dt a b c g s)) = map (k_tracer k) (ptc s).
Proof.
  intros Ha. unfold move_all. destruct (o_move_x o), (k_galilean k); cbn; rewrite Ha, ?map_pres by (intros; apply (ks_push_x _ K)); auto.
Qed.
Lemma after_keeps s s' : ants s = [] -> after_diags k o s = Ok s' -> ants s' = [] /\ map (k_tracer k) (ptc s') = map (k_tracer k) (ptc s).
Proof.
  intros Ha. unfold after_diags. cbn zeta.
  set (s1 := if o_move_p o then _ else s).
  assert (H1 : ants s1 = [] /\ map (k_tracer k) (ptc s1) = map (k_tracer k) (ptc s)).
  { subst s1. destruct (o_move_p o); cbn; rewrite ?map_pres by (intros; apply (ks_push_p _ K)); auto. }
  clearbody s1. set (s2 := set_ants _ s1).
  assert (H2 : ants s2 = [] /\ map (k_tracer k) (ptc s2) = map (k_tracer k) (ptc s)) by (subst s2; cbn; rewrite (proj1 H1); split; [reflexivity|apply H1]).
  clear H1. clearbody s2. set (s3 := move_all k o _ 1 1 1 _ s2).
  assert (H3 : ants s3 = [] /\ map (k_tracer k) (ptc s3) = map (k_tracer k) (ptc s)).
  { destruct (move_all_keeps (0.5 * k_dt k) 1 1 1 (0.5 * k_dt k) s2 (proj1 H2)) as [X Y]. split; [exact X|rewrite <- (proj2 H2); exact Y]. }
  clear H2. clearbody s3. pose proof (ks_elem _ K (env s3) (time s3 + 0.5 * k_dt k)%R (ptc s3)) as He.
  destruct (k_elem k _ _ _) as [w ps]. cbn [snd] in He.
  set (s4 := deposit k J _ None _).
  assert (H4 : ants s4 = [] /\ map (k_tracer k) (ptc s4) = map (k_tracer k) (ptc s)) by (split; [apply H3|cbn; rewrite He; apply H3]).
  clear H3. clearbody s4.
  set (s5 := if o_cc o && k_cross k then _ else s4).
  assert (H5 : ants s5 = [] /\ map (k_tracer k) (ptc s5) = map (k_tracer k) (ptc s)).
  { subst s5. destruct (o_cc o && k_cross k); [|exact H4]. unfold cross_deposit.
    set (a1 := deposit k rho_next_xy _ _ _). assert (B1 : ants a1 = [] /\ map (k_tracer k) (ptc a1) = map (k_tracer k) (ptc s)).
    { destruct (move_all_keeps (0.5 * k_dt k) 1 1 (-1) (-0.5 * k_dt k) s4 (proj1 H4)) as [X Y]. split; [exact X|rewrite <- (proj2 H4); exact Y]. }
    clearbody a1. set (a2 := deposit k rho_next_z _ _ _). assert (B2 : ants a2 = [] /\ map (k_tracer k) (ptc a2) = map (k_tracer k) (ptc s)).
    { destruct (move_all_keeps (k_dt k) (-1) (-1) 1 (k_dt k) a1 (proj1 B1)) as [X Y]. split; [exact X|rewrite <- (proj2 B1); exact Y]. }
    clearbody a2. destruct (move_all_keeps (0.5 * k_dt k) 1 1 (-1) (-0.5 * k_dt k) a2 (proj1 B2)) as [X Y]. split; [exact X|rewrite <- (proj2 B2); exact Y]. }
  clear H4. clearbody s5. set (s6 := deposit k rho_next _ _ _).
  assert (H6 : ants s6 = [] /\ map (k_tracer k) (ptc s6) = map (k_tracer k) (ptc s)).
  { destruct (move_all_keeps (0.5 * k_dt k) 1 1 1 (0.5 * k_dt k) s5 (proj1 H5)) as [X Y]. split; [exact X|rewrite <- (proj2 H5); exact Y]. }
  clear H5. clearbody s6.
  assert (C7 : match (if o_cc o then correct_currents k s6 else Ok s6) with Ok s7 => ants s7 = [] /\ map (k_tracer k) (ptc s7) = map (k_tracer k) (ptc s) | Err _ => True end).
  { destruct (o_cc o); [|exact H6]. unfold correct_currents. destruct (_ && _); [exact I|]. destruct (k_multi k); exact H6. }
  destruct (if o_cc o then _ else _) as [s7|]; cbn [bind]; [|discriminate].
  assert (C8 : match push_fields k o s7 with Ok s8 => ants s8 = [] /\ map (k_tracer k) (ptc s8) = map (k_tracer k) (ptc s) | Err _ => True end).
  { unfold push_fields. destruct (_ && _); [exact I|]. exact C7. }
  destruct (push_fields k o s7) as [s8|]; cbn [bind]; [|discriminate].
  set (s9 := if o_divE o then _ else s8).
  assert (H9 : ants s9 = [] /\ map (k_tracer k) (ptc s9) = map (k_tracer k) (ptc s)) by (subst s9; destruct (o_divE o); exact C8).
  clearbody s9. set (s10 := if k_window k then _ else s9).
  assert (H10 : ants s10 = [] /\ map (k_tracer k) (ptc s10) = map (k_tracer k) (ptc s)).
  { subst s10. destruct (k_window k); [|exact H9]. pose proof (ks_move _ K (env s9) (time s9) (ptc s9)) as Hm.
    destruct (k_move k _ _ _) as [[[[w' ps'] x1] x2] x3]. cbn in *. rewrite Hm. exact H9. }
  clearbody s10. destruct (k_bound k _ _ _) as [sp ip]. intros H. injection H as <-. exact H10.
Qed.

Context (dr dd : diagn) (names : list (string * nat)).
Context (Kr : dg_kind dr = KField [Frho]) (Kd : dg_kind dd = KDensity names) (Sc : dg_sched dr = dg_sched dd).
Lemma writes_sum s0 : irho (fetch k rho_prev s0) = fold_right plus zero (map (fun p => chain (env s0) (dep (env s0) p))
    (filter (fun p => negb (k_tracer k p)) (ptc s0))) -> map snd names = positions 0 (map (k_tracer k) (ptc s0)) ->
  Forall2 (is_sum_of plus zero) (snd (write k dr s0)) (snd (write k dd s0)).
Proof.
  intros E Hn. unfold write, due. rewrite Kr, Kd, Sc. destruct (writes (dg_sched dd) (it s0)); [|constructor].
  unfold write_hdf5. rewrite Kr, Kd. cbn [has existsb orb].
  pose proof (density_list names s0 []) as D. destruct (fold_left (density_of k) names (s0, [])) as [s2 l]. cbn [snd map app] in D |- *.
  constructor; [|constructor]. split; [reflexivity|]. apply (f_equal (fun x => [OField Frho x])).
  change (irho (fetch k rho_prev s0) = fold_right plus zero (map (charge_of zero) l)). rewrite E. f_equal. rewrite D.
  - rewrite <- (positions_flat (fun p => chain (env s0) (dep (env s0) p)) (ptc s0) 0) by auto. rewrite <- Hn.
    rewrite flat_map_concat_map, map_map, <- flat_map_concat_map.
    clear. induction names as [|x l' IH]; cbn; [reflexivity|]. rewrite IH, Nat.sub_0_r. reflexivity.
  - apply Forall_map with (P := fun i => nth_error (ptc s0) i <> None). rewrite Hn. eapply Forall_impl; [|apply positions_ok].
    cbn. intros i. rewrite Nat.sub_0_r. auto.
Qed.
Lemma iterate_sum : forall n first s l l' s' logs, ants s = [] -> map snd names = positions 0 (map (k_tracer k) (ptc s)) ->
  Forall2 (is_sum_of plus zero) l l' -> iterate k o [dr; dd] n first s [l; l'] = Ok (s', logs) ->
  exists a b, logs = [a; b] /\ Forall2 (is_sum_of plus zero) a b.
Proof.
  induction n as [|n IH]; intros first s l l' s' logs Ha Hn F H; [cbn in H; injection H as <- <-; eauto|].
  cbn [iterate] in H. set (s0 := before_diags k o first s) in *.
  destruct (before_keeps first s Ha) as [Ka Kp]. fold s0 in Ka, Kp.
  pose proof (run_diags_sim [dr; dd] s0) as HS. pose proof (run_diags_rec [dr; dd] s0) as R.
  destruct (run_diags k [dr; dd] s0) as [s1 rs]. cbn [fst snd map] in *. rewrite (after_sim _ _ HS) in H.
  destruct (after_diags k o s0) as [s2|] eqn:Ea; cbn [bind] in H; [|discriminate].
  destruct (after_keeps _ _ Ka Ea) as [Ka2 Kp2]. subst rs. cbn [combine map] in H.
  eapply (IH _ _ _ _ _ _ Ka2); [| |exact H].
  - rewrite Kp2, Kp. exact Hn.
  - apply Forall2_app; [exact F|]. apply writes_sum; [apply before_rho, Ha|rewrite Kp; exact Hn].
Qed.
Lemma step_sum n s s' logs : ants s = [] -> map snd names = positions 0 (map (k_tracer k) (ptc s)) ->
  step k o [dr; dd] n s = Ok (s', logs) -> exists a b, logs = [a; b] /\ Forall2 (is_sum_of plus zero) a b.
Proof.
  intros Ha Hn. unfold step. destruct (k_multi k && o_divE o); [discriminate|]. destruct (k_multi k && o_true_rho o && o_cc o); [discriminate|].
  cbn [map]. destruct (iterate k o [dr; dd] n true (begin_step k s) _) as [[s2 l]|] eqn:E; cbn [bind]; [|discriminate].
  intros H. injection H as _ <-. eapply iterate_sum; [| | |exact E].
  - unfold begin_step. destruct (k_window k); exact Ha.
  - unfold begin_step. destruct (k_window k); [|exact Hn]. cbn. rewrite (ks_init _ K). exact Hn.
  - constructor.
Qed.
End Sum.
End Pf.
