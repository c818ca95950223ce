(** C49: the boosted-frame particle diagnostic. *)
From Verif Require Import Base Boost_Spec BPart_Model BPart_Spec BPart_Proofs Sort_Model.
From Coq Require Import Reals Lra.
Open Scope R_scope.

(** A particle whose lab time passes the snapshot time between two iterations is recorded in exactly one iteration, at
    the point of its way, linearly interpolated between these iterations, whose lab time is the snapshot time.
    (Missing: a particle exactly on the plane at an iteration, the edges of the snapshot, scattered particles; see the
    refutations below.) *)
Theorem C49_once_partial : forall d b p lo hi a N,
  diag_ok d b -> moves d p ->
  lab_time d b p a < s_t d < lab_time d b p N -> (forall n, lab_time d b p n <> s_t d) ->
  (forall n, lab_time d b p (n - 1) < s_t d < lab_time d b p n -> in_view d b (lo n) (hi n) n) ->
  exists n r w, (a < n <= N)%Z /\ records d lo hi p n = [r] /\ 0 <= w <= 1 /\
    in_lab d b (on_the_way w (at_time (IZR (n - 1) * d_dt d) (p (n - 1)%Z)) (at_time (IZR n * d_dt d) (p n))) =
      {| e_t := s_t d; e_x := lx r; e_y := ly r; e_z := lz r |} /\
    forall m, m <> n -> records d lo hi p m = [].
Proof. intros d b p lo hi a N OK M. apply (once d b OK p M). Qed.
Print Assumptions C49_once_partial.

(** Whatever is recorded, even on the plane, has the snapshot time as lab time and a weight in [0, 1]. *)
Theorem C49_record : forall d b p lo hi n, diag_ok d b -> moves d p ->
  records d lo hi p n <> [] -> exists r w, records d lo hi p n = [r] /\ 0 <= w <= 1 /\
    in_lab d b (on_the_way w (at_time (IZR (n - 1) * d_dt d) (p (n - 1)%Z)) (at_time (IZR n * d_dt d) (p n))) =
      {| e_t := s_t d; e_x := lx r; e_y := ly r; e_z := lz r |}.
Proof.
  intros d b p lo hi n OK M H. pose proof (proj1 (records_iff d b OK p M lo hi n) H) as [_ T].
  destruct (to_lab_event d b OK p M n T) as [w [Hw E]].
  rewrite records_eq in *. destruct (_ && _)%bool; [|congruence]. eauto.
Qed.
Print Assumptions C49_record.

(** A particle that never crosses is never recorded. *)
Theorem C49_never : forall d b p lo hi, diag_ok d b -> moves d p ->
  (forall n, lab_time d b p n < s_t d) \/ (forall n, s_t d < lab_time d b p n) ->
  forall n, records d lo hi p n = [].
Proof. intros d b p lo hi OK M. apply (never d b OK p M). Qed.
Print Assumptions C49_never.

(** The momentum that is recorded is the one in the lab. *)
Theorem C49_momentum : forall d b cur t p, diag_ok d b -> on_shell p ->
  let r := to_lab d cur t p in
  let g' := sqrt (1 + lux r ^ 2 + luy r ^ 2 + luz r ^ 2) in
  let g0 := sqrt (1 + bux p ^ 2 + buy p ^ 2 + buz p ^ 2) in
  lux r = bux p /\ luy r = buy p /\ luz r = d_g d * (buz p + b * g0) /\ g' = d_g d * (g0 + b * buz p) /\ lw r = bw p.
Proof. exact momentum. Qed.
Print Assumptions C49_momentum.

(** The file and the buffer hold the records of all particles and iterations, in order and once each; after an
    iteration that is a multiple of the period the buffer is empty. *)
Theorem C49_written : forall d period lo hi l its,
  let s := run d period lo hi l its ([], []) in
  snd s ++ fst s = flat_map (fun n => flat_map (fun p => store_snapshot_slices d (lo n) (hi n) n [p]) (l n)) its.
Proof. intros. exact (run_records d period lo hi l its ([], [])). Qed.
Print Assumptions C49_written.
Theorem C49_flushed : forall d period lo hi l its n s, (n mod period = 0)%Z -> fst (run d period lo hi l (its ++ [n]) s) = [].
Proof. exact run_flushed. Qed.
Print Assumptions C49_flushed.

(** On the GPU the cells that are copied hold every particle of the grid that is selected. *)
Theorem C49_gpu : forall d b p n g, diag_ok d b -> moves d p -> 0 < g_dz g -> 0 < g_dr g -> (0 <= g_Nr g)%Z ->
  g_zmin g - g_dz g / 2 < bz (p n) -> bz (p n) <= g_zmin g + g_dz g * (IZR (g_Nz g) - 1 / 2) ->
  selected d (current_z_boost d (IZR n * d_dt d)) (prev_z_boost d (IZR n * d_dt d)) (p n) = true ->
  let cells := gpu_cells d (g_zmin g) (g_dz g) (current_z_boost d (IZR n * d_dt d)) (prev_z_boost d (IZR n * d_dt d)) in
  (fst cells * (g_Nr g + 1) <= cell_of g (bx (p n)) (by_ (p n)) (bz (p n)) < snd cells * (g_Nr g + 1))%Z.
Proof.
  intros d b p n g OK M Hdz Hdr HNr W1 W2 Hs. apply (gpu_cell d b p n g); auto.
  - apply (Rmult_lt_reg_l (g_dz g)); auto.
    replace (g_dz g * (/ g_dz g * (bz (p n) - g_zmin g) - / 2)) with (bz (p n) - g_zmin g - g_dz g * / 2) by (field; lra). lra.
  - rewrite minus_IZR. apply (Rmult_le_reg_l (g_dz g)); auto.
    replace (g_dz g * (/ g_dz g * (bz (p n) - g_zmin g) - / 2)) with (bz (p n) - g_zmin g - g_dz g * / 2) by (field; lra). lra.
Qed.
Print Assumptions C49_gpu.

(** REFUTED: a particle that is exactly on the plane at an iteration is recorded twice. *)
Theorem C49_on_plane_refuted : exists d b p lo hi, diag_ok d b /\ moves d p /\
  lab_time d b p 0 < s_t d < lab_time d b p 5 /\ (forall n, (0 <= n <= 4)%Z -> in_view d b (lo n) (hi n) n) /\
  records d lo hi p 2 <> [] /\ records d lo hi p 3 <> [].
Proof.
  exists ex_d, (3 / 5), (fun _ => at_rest 10), (fun _ => 0), (fun _ => 25).
  assert (V : forall n, (0 <= n <= 4)%Z -> in_view ex_d (3 / 5) 0 25 n).
  { intros n H. apply (ex_view _ _ _ _ _ _ eq_refl); assert (0 <= IZR n <= 4) by (split; apply IZR_le; lia); lra. }
  split; [apply ex_ok|]. split; [apply rest_moves|]. split; [|split; [auto|split]].
  - unfold ex_d. rewrite !rest_time. cbn [s_t]. lra.
  - apply (records_iff ex_d _ (ex_ok 0 30) _ (rest_moves _ 10)). split; [apply V; lia|].
    unfold ex_d. rewrite !rest_time. cbn [s_t]. cbn [Z.sub Z.pos_sub Z.opp Z.add Pos.pred_double]. lra.
  - apply (records_iff ex_d _ (ex_ok 0 30) _ (rest_moves _ 10)). split; [apply V; lia|].
    unfold ex_d. rewrite !rest_time. cbn [s_t]. cbn [Z.sub Z.pos_sub Z.opp Z.add Pos.pred_double]. lra.
Qed.
Print Assumptions C49_on_plane_refuted.

(** REFUTED: a particle that crosses inside the snapshot, near its left edge, is never recorded; one that crosses
    outside, near the right edge, is. *)
Theorem C49_edge_refuted : exists d b p lo hi w,
  let e := in_lab d b (on_the_way w (at_time (3 * d_dt d) (p 3%Z)) (at_time (4 * d_dt d) (p 4%Z))) in
  diag_ok d b /\ moves d p /\ (forall n, lo n <= bz (p n) < hi n) /\ 0 < w < 1 /\
  e_t e = s_t d /\ s_zmin d < e_z e < s_zmax d /\ forall n, records d lo hi p n = [].
Proof.
  exists {| d_c := 3; d_g := 5 / 4; d_dt := 1; s_t := 5; s_zmin := 12; s_zmax := 30 |}, (3 / 5), (fun _ => at_rest 4),
    (fun _ => 0), (fun _ => 25), (1 / 5). cbn zeta.
  split; [apply ex_ok|]. split; [apply rest_moves|]. split; [intros; cbn; lra|]. split; [lra|].
  split; [cbn; field|]. split; [cbn; lra|]. intros n.
  match goal with |- ?l = [] => destruct l eqn:E; auto end. exfalso.
  assert (E0 : records {| d_c := 3; d_g := 5 / 4; d_dt := 1; s_t := 5; s_zmin := 12; s_zmax := 30 |} (fun _ => 0) (fun _ => 25) (fun _ => at_rest 4) n <> [])
    by (rewrite E; discriminate).
  apply (records_iff _ _ (ex_ok 12 30) _ (rest_moves _ 4)) in E0 as [V T].
  rewrite !rest_time in T. cbn [s_t] in T. rewrite minus_IZR in T.
  assert (IZR 3 < IZR n) by lra. apply lt_IZR in H. assert (4 <= IZR n) by (apply IZR_le; lia).
  revert V. apply ex_no_view. lra.
Qed.
Print Assumptions C49_edge_refuted.
Theorem C49_outside_refuted : exists d b p lo hi w n,
  let e := in_lab d b (on_the_way w (at_time (IZR (n - 1) * d_dt d) (p (n - 1)%Z)) (at_time (IZR n * d_dt d) (p n))) in
  diag_ok d b /\ moves d p /\ 0 < w < 1 /\ e_t e = s_t d /\ s_zmax d < e_z e /\ records d lo hi p n <> [].
Proof.
  exists {| d_c := 3; d_g := 5 / 4; d_dt := 1; s_t := 5; s_zmin := 0; s_zmax := 15 |}, (3 / 5), (fun _ => at_rest 9),
    (fun _ => 0), (fun _ => 25), (1 / 5), 3%Z. cbn zeta.
  split; [apply ex_ok|]. split; [apply rest_moves|]. split; [lra|].
  split; [cbn; field|]. split; [cbn; lra|].
  apply (records_iff _ _ (ex_ok 0 15) _ (rest_moves _ 9)). split.
  - apply (ex_view _ _ _ _ _ _ eq_refl); lra.
  - rewrite !rest_time. cbn [s_t]. cbn [Z.sub Z.pos_sub Z.opp Z.add Pos.pred_double]. lra.
Qed.
Print Assumptions C49_outside_refuted.

(** REFUTED: a particle that is scattered between the two half steps of an iteration (main.py:487-519) can cross
    without being recorded, since the position at the previous iteration is rebuilt with the new velocity. *)
Theorem C49_kick_refuted : exists d b p lo hi,
  diag_ok d b /\
  (forall n, Rabs (bz (p (n + 1)%Z) - bz (p n) - d_dt d / 2 * d_c d * (buz (p n) * big (p n) + buz (p (n + 1)%Z) * big (p (n + 1)%Z))) = 0) /\
  lab_time d b p 0 < s_t d < lab_time d b p 4 /\ (forall n, (0 <= n <= 4)%Z -> in_view d b (lo n) (hi n) n) /\
  forall n, records d lo hi p n = [].
Proof.
  exists ex_d, (3 / 5), kicked, (fun _ => 0), (fun _ => 25). split; [apply ex_ok|].
  split; [|split; [|split; [|apply kicked_missed]]].
  - intros n. match goal with |- Rabs ?x = 0 => replace x with 0; [apply Rabs_R0|] end.
    unfold kicked. cbn [d_dt d_c ex_d]. destruct (Z.leb_spec n 2), (Z.leb_spec (n + 1) 2); cbn [bz buz big at_rest]; try lia; try lra.
    + assert (n = 2)%Z by lia. subst n. cbn [Z.add Pos.add Pos.succ]. lra.
    + rewrite plus_IZR. lra.
  - unfold lab_time, in_lab, lorentz; cbn. lra.
  - intros n H. apply (ex_view _ _ _ _ _ _ eq_refl); assert (0 <= IZR n <= 4) by (split; apply IZR_le; lia); lra.
Qed.
Print Assumptions C49_kick_refuted.

(** The hypotheses are met: a particle at rest at z = 7 crosses between iterations 2 and 3. *)
Example C49_met : exists n r, records ex_d (fun _ => 0) (fun _ => 25) (fun _ => at_rest 7) n = [r].
Proof.
  destruct (C49_once_partial ex_d (3 / 5) (fun _ => at_rest 7) (fun _ => 0) (fun _ => 25) 0 5) as [n [r [w [_ [H _]]]]].
  - apply ex_ok.
  - apply rest_moves.
  - unfold ex_d. rewrite !rest_time. cbn [s_t]. lra.
  - intros n. unfold ex_d. rewrite rest_time. cbn [s_t]. intros H.
    assert (IZR (5 * n) = IZR 13) by (rewrite mult_IZR; lra). apply eq_IZR in H0. lia.
  - intros n. unfold ex_d. rewrite !rest_time, minus_IZR. cbn [s_t]. intros H.
    assert (IZR n < IZR 4) by lra. assert (IZR 2 < IZR n) by lra. apply lt_IZR in H0, H1. assert (n = 3)%Z by lia. subst n.
    apply (ex_view _ _ _ _ _ _ eq_refl); lra.
  - eauto.
Qed.
