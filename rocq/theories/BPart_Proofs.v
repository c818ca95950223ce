(** Proofs for C49. *)
From Verif Require Import Base Boost_Spec BPart_Model BPart_Spec Sort_Model.
From Coq Require Import Reals Lra Psatz.
From Flocq Require Import Core.Raux.
Open Scope R_scope.

Section D.
Variables (d : bdiag) (b : R).
Hypothesis OK : diag_ok d b.

Lemma beta_eq : beta_boost d = b.
Proof.
  destruct OK as [[G [B E]] [B0 _]]. unfold beta_boost, inv_gamma_boost.
  replace (1 - (1 / d_g d) ^ 2) with (b * b).
  - apply sqrt_square. lra.
  - assert (d_g d <> 0) by lra. apply (Rmult_eq_reg_l (d_g d * d_g d)); [|nra]. field_simplify; [|lra]. nra.
Qed.

(** The plane is where the lab time is the snapshot time. *)
Lemma plane_time z t : e_t (in_lab d b {| e_t := t; e_x := 0; e_y := 0; e_z := z |}) - s_t d =
  d_g d * b / d_c d * (z - current_z_boost d t).
Proof.
  pose proof beta_eq as Hb. destruct OK as [[G [B E]] [B0 [C0 D0]]].
  unfold in_lab, lorentz, current_z_boost, inv_beta_boost, inv_gamma_boost; cbn. rewrite Hb. field. lra.
Qed.

Lemma gbc_pos : 0 < d_g d * b / d_c d.
Proof. destruct OK as [[G [B E]] [B0 [C0 D0]]]. apply Rdiv_lt_0_compat; nra. Qed.

Lemma lab_time_plane p n : lab_time d b p n - s_t d =
  d_g d * b / d_c d * (bz (p n) - current_z_boost d (IZR n * d_dt d)).
Proof.
  unfold lab_time. rewrite <- plane_time. unfold in_lab, lorentz, at_time; cbn. ring.
Qed.

Lemma prev_plane n : prev_z_boost d (IZR n * d_dt d) = current_z_boost d (IZR (n - 1) * d_dt d).
Proof. unfold prev_z_boost, current_z_boost. rewrite minus_IZR. f_equal. f_equal. ring. Qed.

Lemma plane_step n : current_z_boost d (IZR (n - 1) * d_dt d) = current_z_boost d (IZR n * d_dt d) + d_c d / b * d_dt d.
Proof.
  pose proof beta_eq as Hb. destruct OK as [[G [B E]] [B0 [C0 D0]]].
  unfold current_z_boost, inv_beta_boost. rewrite Hb, minus_IZR. field. lra.
Qed.

Lemma cb_gt : d_c d < d_c d / b.
Proof.
  destruct OK as [[G [B E]] [B0 [C0 D0]]]. apply (Rmult_lt_reg_r b); auto.
  replace (d_c d / b * b) with (d_c d) by (field; lra). nra.
Qed.

Variable p : Z -> bptcl.
Hypothesis M : moves d p.

Lemma prev_pos n : bz (p n) - buz (p n) * big (p n) * d_c d * d_dt d = bz (p (n - 1)%Z).
Proof.
  pose proof (M (n - 1)%Z) as [_ [_ [H _]]]. replace (n - 1 + 1)%Z with n in H by lia. rewrite H. ring.
Qed.

Lemma vel n : Rabs (buz (p n) * big (p n)) <= 1.
Proof. apply M. Qed.

Lemma lab_time_incr n : lab_time d b p (n - 1) < lab_time d b p n.
Proof.
  pose proof (lab_time_plane p n) as A1. pose proof (lab_time_plane p (n - 1)) as A2.
  pose proof gbc_pos as G. pose proof (plane_step n) as S1. pose proof (prev_pos n) as P.
  pose proof cb_gt as Cb. pose proof (vel n) as V. apply Rabs_le_inv in V.
  destruct OK as [_ [_ [C0 D0]]].
  assert (0 < d_g d * b / d_c d * ((bz (p n) - current_z_boost d (IZR n * d_dt d)) -
     (bz (p (n - 1)%Z) - current_z_boost d (IZR (n - 1) * d_dt d)))).
  { apply Rmult_lt_0_compat; auto. rewrite S1, <- P.
    replace (_ - _ - _) with ((buz (p n) * big (p n) * d_c d + d_c d / b) * d_dt d) by ring.
    apply Rmult_lt_0_compat; auto. nra. }
  lra.
Qed.

Lemma lab_time_mono n k : (0 <= k)%Z -> lab_time d b p n <= lab_time d b p (n + k).
Proof.
  intros Hk. pattern k. apply natlike_ind; auto.
  - rewrite Z.add_0_r. lra.
  - intros x Hx IH. pose proof (lab_time_incr (n + Z.succ x)). replace (n + Z.succ x - 1)%Z with (n + x)%Z in H by lia. lra.
Qed.

Lemma lab_time_smono m n : (m < n)%Z -> lab_time d b p m < lab_time d b p n.
Proof.
  intros H. pose proof (lab_time_incr n). pose proof (lab_time_mono m (n - 1 - m) ltac:(lia)).
  replace (m + (n - 1 - m))%Z with (n - 1)%Z in H1 by lia. lra.
Qed.

Lemma le_plane n : current_z_boost d (IZR n * d_dt d) <= bz (p n) <-> s_t d <= lab_time d b p n.
Proof. pose proof (lab_time_plane p n). pose proof gbc_pos. split; nra. Qed.
Lemma ge_plane n : bz (p n) <= current_z_boost d (IZR n * d_dt d) <-> lab_time d b p n <= s_t d.
Proof. pose proof (lab_time_plane p n). pose proof gbc_pos. split; nra. Qed.

Lemma Rle_bool_iff x y : Rle_bool x y = true <-> x <= y.
Proof. case Rle_bool_spec; split; intros; auto; try discriminate; lra. Qed.
Lemma Rlt_bool_iff x y : Rlt_bool x y = true <-> x < y.
Proof. case Rlt_bool_spec; split; intros; auto; try discriminate; lra. Qed.

Lemma selected_iff n :
  selected d (current_z_boost d (IZR n * d_dt d)) (prev_z_boost d (IZR n * d_dt d)) (p n) = true <->
  lab_time d b p (n - 1) <= s_t d <= lab_time d b p n.
Proof.
  unfold selected. rewrite orb_true_iff, !andb_true_iff, !Rle_bool_iff, prev_pos, prev_plane, !le_plane, !ge_plane.
  pose proof (lab_time_incr n). split; [intros [H0|H0]|intros H0; left]; lra.
Qed.

Definition view_ok (lo hi : R) (n : Z) : bool :=
  Rle_bool lo (current_z_boost d (IZR n * d_dt d)) && Rlt_bool (current_z_boost d (IZR n * d_dt d)) hi &&
  Rle_bool (s_zmin d) (current_z_lab d (IZR n * d_dt d)) && Rlt_bool (current_z_lab d (IZR n * d_dt d)) (s_zmax d).

Lemma view_iff lo hi n : view_ok lo hi n = true <-> in_view d b lo hi n.
Proof.
  unfold view_ok. rewrite !andb_true_iff, !Rle_bool_iff, !Rlt_bool_iff.
  assert (L : e_z (in_lab d b {| e_t := IZR n * d_dt d; e_x := 0; e_y := 0; e_z := current_z_boost d (IZR n * d_dt d) |})
              = current_z_lab d (IZR n * d_dt d)).
  { pose proof beta_eq as Hb. destruct OK as [[G [B E]] [B0 [C0 D0]]].
    unfold in_lab, lorentz, current_z_boost, current_z_lab, inv_beta_boost, inv_gamma_boost; cbn. rewrite Hb.
    assert (Eg : 1 / d_g d = d_g d * (1 - b * b)) by (apply (Rmult_eq_reg_l (d_g d)); [field_simplify; lra|lra]).
    transitivity (d_c d * (1 / b) * (s_t d - IZR n * d_dt d * (d_g d * (1 - b * b)))); [field; lra|].
    rewrite <- Eg. ring. }
  unfold in_view. split.
  - intros [[[H1 H2] H3] H4]. exists (current_z_boost d (IZR n * d_dt d)). cbn zeta. rewrite L.
    pose proof (plane_time (current_z_boost d (IZR n * d_dt d)) (IZR n * d_dt d)) as T.
    rewrite (Rminus_diag_eq (current_z_boost d (IZR n * d_dt d)) _ eq_refl), Rmult_0_r in T. repeat split; auto; lra.
  - cbn zeta. intros [z [H1 [H2 H3]]].
    pose proof (plane_time z (IZR n * d_dt d)) as T. rewrite H1 in T. pose proof gbc_pos as G.
    assert (z = current_z_boost d (IZR n * d_dt d)) by nra. subst z. rewrite L in H3. tauto.
Qed.

Lemma records_eq lo hi n : records d lo hi p n =
  if view_ok (lo n) (hi n) n &&
     selected d (current_z_boost d (IZR n * d_dt d)) (prev_z_boost d (IZR n * d_dt d)) (p n)
  then [to_lab d (current_z_boost d (IZR n * d_dt d)) (IZR n * d_dt d) (p n)] else [].
Proof.
  unfold records, store_snapshot_slices, view_ok, extract_slice, get_particle_slice. cbn [filter].
  destruct (_ && _ && _ && _)%bool; cbn [andb]; [|reflexivity].
  destruct (selected _ _ _ _); reflexivity.
Qed.

Lemma records_iff lo hi n : records d lo hi p n <> [] <->
  in_view d b (lo n) (hi n) n /\ lab_time d b p (n - 1) <= s_t d <= lab_time d b p n.
Proof.
  rewrite records_eq, <- view_iff, <- selected_iff, <- andb_true_iff.
  destruct (_ && _)%bool; split; intros H; congruence || (exfalso; apply H; reflexivity) || discriminate.
Qed.

(** The crossing step. *)
Lemma crossing_step a N : lab_time d b p a < s_t d -> s_t d < lab_time d b p N ->
  (forall n, lab_time d b p n <> s_t d) ->
  exists n, (a < n <= N)%Z /\ lab_time d b p (n - 1) < s_t d < lab_time d b p n.
Proof.
  intros Ha HN Hne.
  assert (a < N)%Z.
  { destruct (Z_lt_le_dec a N); auto. pose proof (lab_time_mono N (a - N) ltac:(lia)).
    replace (N + (a - N))%Z with a in H by lia. lra. }
  assert (P : forall k, (0 <= k)%Z -> s_t d < lab_time d b p (a + k) ->
     exists n, (a < n <= a + k)%Z /\ lab_time d b p (n - 1) < s_t d < lab_time d b p n).
  { intros k Hk. pattern k. apply natlike_ind; auto.
    - rewrite Z.add_0_r. lra.
    - intros x Hx IH HS. destruct (Rtotal_order (s_t d) (lab_time d b p (a + x))) as [L|[E|L]].
      + destruct (IH L) as [n [H1 H2]]. exists n. split; [lia|auto].
      + exfalso. apply (Hne (a + x)%Z). auto.
      + exists (a + Z.succ x)%Z. split; [lia|]. replace (a + Z.succ x - 1)%Z with (a + x)%Z by lia. lra. }
  destruct (P (N - a)%Z ltac:(lia)) as [n Hn]; [replace (a + (N - a))%Z with N by lia; auto|].
  replace (a + (N - a))%Z with N in Hn by lia. eauto.
Qed.

(** What is recorded: the crossing itself. *)
Lemma to_lab_event n : lab_time d b p (n - 1) <= s_t d <= lab_time d b p n ->
  let r := to_lab d (current_z_boost d (IZR n * d_dt d)) (IZR n * d_dt d) (p n) in
  exists w, 0 <= w <= 1 /\
    in_lab d b (on_the_way w (at_time (IZR (n - 1) * d_dt d) (p (n - 1)%Z)) (at_time (IZR n * d_dt d) (p n))) =
      {| e_t := s_t d; e_x := lx r; e_y := ly r; e_z := lz r |}.
Proof.
  intros [H1 H2]. cbn zeta.
  pose proof (lab_time_plane p n) as A1. pose proof (lab_time_plane p (n - 1)) as A2.
  pose proof gbc_pos as G. pose proof (plane_step n) as S1. pose proof (prev_pos n) as P.
  pose proof cb_gt as Cb. pose proof (vel n) as V. apply Rabs_le_inv in V.
  pose proof beta_eq as Hb. pose proof (M (n - 1)%Z) as [Mx [My [Mz _]]].
  replace (n - 1 + 1)%Z with n in Mx, My, Mz by lia.
  set (P0 := current_z_boost d (IZR n * d_dt d)) in *.
  assert (C0 : 0 < d_c d) by apply OK. assert (D0 : 0 < d_dt d) by apply OK.
  assert (B0 : 0 < b) by apply OK. assert (G0 : 1 <= d_g d) by apply OK.
  set (v := buz (p n) * big (p n) * d_c d) in *.
  assert (Q : 0 < v + d_c d / b) by (unfold v; nra).
  set (D := bz (p n) - P0). set (s := D / (v + d_c d / b)).
  assert (HD : 0 <= D) by (apply (Rmult_le_reg_l (d_g d * b / d_c d)); auto; unfold D; lra).
  assert (HD1 : D <= (v + d_c d / b) * d_dt d).
  { rewrite <- P, S1 in A2. fold v in A2.
    assert (bz (p n) - v * d_dt d - (P0 + d_c d / b * d_dt d) <= 0).
    { apply (Rmult_le_reg_l (d_g d * b / d_c d)); auto. rewrite Rmult_0_r. lra. }
    unfold D. lra. }
  assert (s0 : 0 <= s) by (apply Rle_mult_inv_pos; lra).
  assert (sq : s * (v + d_c d / b) = D).
  { assert (Q0 : v + d_c d / b <> 0) by lra. unfold s, Rdiv at 1. rewrite Rmult_assoc, Rinv_l by exact Q0. ring. }
  assert (s1 : s <= d_dt d) by (apply (Rmult_le_reg_r (v + d_c d / b)); auto; lra).
  assert (TC : t_cross d P0 (IZR n * d_dt d) (p n) = IZR n * d_dt d - s).
  { unfold t_cross. rewrite Hb. fold v. replace (- d_c d / b - v) with (- (v + d_c d / b)) by (field; lra).
    replace (P0 - bz (p n)) with (- D) by (unfold D; ring). rewrite <- sq.
    assert (Q0 : v + d_c d / b <> 0) by lra. clear - Q0. revert Q0. generalize (v + d_c d / b) s. intros q s' Hq. field. auto. }
  exists (1 - s / d_dt d). split.
  { assert (0 <= s / d_dt d) by (apply Rle_mult_inv_pos; lra).
    assert (s / d_dt d <= 1) by (apply (Rmult_le_reg_r (d_dt d)); auto; unfold Rdiv; rewrite Rmult_assoc, Rinv_l; lra).
    lra. }
  unfold to_lab. cbn [lx ly lz]. rewrite TC, Hb.
  assert (EZ : bz (p n) - v * s = P0 + d_c d / b * s).
  { unfold D in sq. lra. }
  assert (Wt : forall x1 x2 u, x2 = x1 + d_dt d * d_c d * big (p n) * u ->
     (1 - (1 - s / d_dt d)) * x1 + (1 - s / d_dt d) * x2 = x2 + d_c d * (IZR n * d_dt d - s - IZR n * d_dt d) * big (p n) * u).
  { intros x1 x2 u ->. field. lra. }
  assert (Wz : (1 - (1 - s / d_dt d)) * bz (p (n - 1)%Z) + (1 - s / d_dt d) * bz (p n) = bz (p n) - v * s).
  { rewrite <- P. unfold v. field. lra. }
  assert (Wtt : (1 - (1 - s / d_dt d)) * (IZR (n - 1) * d_dt d) + (1 - s / d_dt d) * (IZR n * d_dt d) = IZR n * d_dt d - s).
  { rewrite minus_IZR. field. lra. }
  unfold in_lab, lorentz, on_the_way, at_time. cbn [e_t e_x e_y e_z]. f_equal.
  - rewrite Wtt, Wz, EZ.
    unfold P0, current_z_boost, inv_beta_boost, inv_gamma_boost. rewrite Hb. field. lra.
  - apply Wt; auto.
  - apply Wt; auto.
  - rewrite Wtt, Wz. unfold v. ring.
Qed.

Lemma once lo hi a N :
  lab_time d b p a < s_t d < lab_time d b p N -> (forall n, lab_time d b p n <> s_t d) ->
  (forall n, lab_time d b p (n - 1) < s_t d < lab_time d b p n -> in_view d b (lo n) (hi n) n) ->
  exists n r w, (a < n <= N)%Z /\ records d lo hi p n = [r] /\ 0 <= w <= 1 /\
    in_lab d b (on_the_way w (at_time (IZR (n - 1) * d_dt d) (p (n - 1)%Z)) (at_time (IZR n * d_dt d) (p n))) =
      {| e_t := s_t d; e_x := lx r; e_y := ly r; e_z := lz r |} /\
    forall m, m <> n -> records d lo hi p m = [].
Proof.
  intros [Ha HN] Hne V. destruct (crossing_step a N Ha HN Hne) as [n [Hn Hc]].
  set (r := to_lab d (current_z_boost d (IZR n * d_dt d)) (IZR n * d_dt d) (p n)).
  destruct (to_lab_event n ltac:(lra)) as [w [Hw E]]. fold r in E.
  exists n, r, w. split; [auto|]. split; [|split; [auto|split; [auto|]]].
  - assert (records d lo hi p n <> []) by (apply records_iff; split; [auto|lra]).
    rewrite records_eq in *. fold r in H. fold r. destruct (_ && _)%bool; congruence.
  - intros m Hm. destruct (records d lo hi p m) eqn:E1; auto. assert (E0 : records d lo hi p m <> []) by congruence.
    exfalso. apply records_iff in E0 as [_ E0].
    destruct (Z_lt_le_dec m n).
    + pose proof (lab_time_mono m (n - 1 - m) ltac:(lia)). replace (m + (n - 1 - m))%Z with (n - 1)%Z in H by lia. lra.
    + pose proof (lab_time_mono n (m - 1 - n) ltac:(lia)). replace (n + (m - 1 - n))%Z with (m - 1)%Z in H by lia. lra.
Qed.

Lemma never lo hi : (forall n, lab_time d b p n < s_t d) \/ (forall n, s_t d < lab_time d b p n) ->
  forall n, records d lo hi p n = [].
Proof.
  intros H n. destruct (records d lo hi p n) eqn:E; auto. exfalso.
  assert (E0 : records d lo hi p n <> []) by congruence. apply records_iff in E0 as [_ E0].
  destruct H as [H|H]; [specialize (H n)|specialize (H (n - 1)%Z)]; lra.
Qed.
End D.

Lemma store_each d lo hi n l : store_snapshot_slices d lo hi n l = flat_map (fun p => store_snapshot_slices d lo hi n [p]) l.
Proof.
  unfold store_snapshot_slices. cbn zeta. destruct (_ && _ && _ && _)%bool.
  - unfold extract_slice, get_particle_slice. induction l as [|p l IH]; [reflexivity|]. cbn [filter flat_map].
    cbn [filter] in IH. destruct (selected _ _ _ p); cbn [map app]; rewrite <- IH; reflexivity.
  - induction l; cbn; auto.
Qed.

Lemma run_records d period lo hi l its s :
  let s' := run d period lo hi l its s in
  snd s' ++ fst s' = snd s ++ fst s ++ flat_map (records_of_all d lo hi l) its.
Proof.
  cbn zeta. revert s. induction its as [|n r IH]; intros s; cbn [run flat_map].
  - rewrite app_nil_r. reflexivity.
  - rewrite IH. unfold records_of_all at 2. rewrite <- store_each. unfold write. cbn zeta.
    destruct (_ =? _)%Z; cbn [fst snd app]; rewrite ?app_assoc; reflexivity.
Qed.

Lemma run_flushed d period lo hi l its n s : (n mod period = 0)%Z -> fst (run d period lo hi l (its ++ [n]) s) = [].
Proof.
  intros H. revert s. induction its as [|m r IH]; intros s; cbn [run app]; auto.
  unfold write. cbn zeta. rewrite (proj2 (Z.eqb_eq _ _) H). reflexivity.
Qed.

Lemma momentum d b cur t p : diag_ok d b -> on_shell p ->
  let r := to_lab d cur t p in
  let g' := sqrt (1 + lux r ^ 2 + luy r ^ 2 + luz r ^ 2) in
  let g0 := sqrt (1 + bux p ^ 2 + buy p ^ 2 + buz p ^ 2) in
  lux r = bux p /\ luy r = buy p /\ luz r = d_g d * (buz p + b * g0) /\ g' = d_g d * (g0 + b * buz p) /\ lw r = bw p.
Proof.
  intros OK Hs. cbn zeta. pose proof (beta_eq d b OK) as Hb. destruct OK as [[G [B E]] [B0 [C0 D0]]].
  set (g0 := sqrt (1 + bux p ^ 2 + buy p ^ 2 + buz p ^ 2)).
  assert (P1 : 1 <= 1 + bux p ^ 2 + buy p ^ 2 + buz p ^ 2) by nra.
  assert (P0 : 1 <= g0) by (unfold g0; rewrite <- sqrt_1 at 1; apply sqrt_le_1_alt; auto).
  assert (Q : g0 * g0 = 1 + bux p ^ 2 + buy p ^ 2 + buz p ^ 2) by (apply sqrt_sqrt; lra).
  unfold to_lab. cbn [lux luy luz lw]. rewrite Hb.
  assert (Ez : d_g d * buz p + 1 / big p * (b * d_g d) = d_g d * (buz p + b * g0)).
  { unfold on_shell in Hs. fold g0 in Hs. rewrite Hs. field. lra. }
  rewrite Ez. repeat split.
  replace (1 + bux p ^ 2 + buy p ^ 2 + (d_g d * (buz p + b * g0)) ^ 2) with ((d_g d * (g0 + b * buz p)) * (d_g d * (g0 + b * buz p))).
  - apply sqrt_square. apply Rmult_le_pos; [lra|]. assert (Rabs (buz p) <= g0).
    { rewrite <- (Rabs_pos_eq g0) by lra. apply Rsqr_le_abs_0. unfold Rsqr. nra. }
    apply Rabs_le_inv in H. nra.
  - transitivity (d_g d * d_g d * (1 - b * b) * (g0 * g0 - buz p ^ 2) + (d_g d * (buz p + b * g0)) ^ 2); [ring|].
    rewrite E, Q. ring.
Qed.

(** The copy from the GPU holds every particle that is selected. *)
Lemma gpu_range d b p n g : diag_ok d b -> moves d p -> 0 < g_dz g ->
  selected d (current_z_boost d (IZR n * d_dt d)) (prev_z_boost d (IZR n * d_dt d)) (p n) = true ->
  let iz := Zceil ((/ g_dz g * (bz (p n) - g_zmin g) - / 2)%R) in
  let '(lo, hi) := gpu_cells d (g_zmin g) (g_dz g) (current_z_boost d (IZR n * d_dt d)) (prev_z_boost d (IZR n * d_dt d)) in
  (lo <= iz < hi)%Z.
Proof.
  intros OK M Hdz Hs. cbn zeta. unfold gpu_cells.
  apply (selected_iff d b OK p M) in Hs as [H1 H2].
  apply (le_plane d b OK) in H2. apply (ge_plane d b OK) in H1.
  rewrite (prev_plane d n). rewrite <- (prev_pos d p M n) in H1.
  pose proof (vel d p M n) as V. apply Rabs_le_inv in V.
  destruct OK as [_ [_ [C0 D0]]].
  assert (H3 : bz (p n) <= current_z_boost d (IZR (n - 1) * d_dt d) + d_dt d * d_c d).
  { assert (0 < d_dt d * d_c d) by nra. assert (buz (p n) * big (p n) * (d_dt d * d_c d) <= 1 * (d_dt d * d_c d)).
    { apply Rmult_le_compat_r; lra. } lra. }
  split.
  - apply Zceil_le.
    replace (/ g_dz g * (bz (p n) - g_zmin g) - / 2) with ((bz (p n) - g_zmin g - 1 / 2 * g_dz g) / g_dz g) by (field; lra).
    apply Rmult_le_compat_r; [left; apply Rinv_0_lt_compat; auto|lra].
  - apply Z.lt_succ_r, Zceil_le.
    replace (/ g_dz g * (bz (p n) - g_zmin g) - / 2) with ((bz (p n) - g_zmin g - 1 / 2 * g_dz g) / g_dz g) by (field; lra).
    apply Rmult_le_compat_r; [left; apply Rinv_0_lt_compat; auto|lra].
Qed.

(** * Cases *)
Definition ex_d : bdiag := {| d_c := 3; d_g := 5 / 4; d_dt := 1; s_t := 5; s_zmin := 0; s_zmax := 30 |}.
Lemma ex_ok zmin zmax : diag_ok {| d_c := 3; d_g := 5 / 4; d_dt := 1; s_t := 5; s_zmin := zmin; s_zmax := zmax |} (3 / 5).
Proof. unfold diag_ok, boost_ok; cbn. lra. Qed.
(** At rest at z. *)
Definition at_rest (z : R) : bptcl := {| bx := 0; by_ := 0; bz := z; bux := 0; buy := 0; buz := 0; bw := 1; big := 1 |}.
Lemma rest_moves d z : moves d (fun _ => at_rest z).
Proof. intros n. cbn. rewrite Rmult_0_l, Rabs_R0. repeat split; try ring. lra. Qed.
Lemma rest_time zmin zmax z n :
  lab_time {| d_c := 3; d_g := 5 / 4; d_dt := 1; s_t := 5; s_zmin := zmin; s_zmax := zmax |} (3 / 5) (fun _ => at_rest z) n
  = 5 / 4 * IZR n + z / 4.
Proof. unfold lab_time, in_lab, lorentz; cbn. field. Qed.
Lemma ex_view zmin zmax lo hi n z :
  z = 20 - 5 * IZR n -> lo <= z < hi -> zmin <= 25 - 4 * IZR n < zmax ->
  in_view {| d_c := 3; d_g := 5 / 4; d_dt := 1; s_t := 5; s_zmin := zmin; s_zmax := zmax |} (3 / 5) lo hi n.
Proof. intros E H1 H2. exists z. cbn. repeat split; try lra. Qed.
Lemma ex_no_view zmin zmax lo hi n :
  ~ (zmin <= 25 - 4 * IZR n < zmax) ->
  ~ in_view {| d_c := 3; d_g := 5 / 4; d_dt := 1; s_t := 5; s_zmin := zmin; s_zmax := zmax |} (3 / 5) lo hi n.
Proof. intros E [z H]. cbn in H. apply E. lra. Qed.

(** A particle that scatters between the two half steps that lead to iteration 3: at rest before, -4/5 c after. *)
Definition kicked (n : Z) : bptcl :=
  if (n <=? 2)%Z then at_rest 9 else
  {| bx := 0; by_ := 0; bz := 9 - 12 / 5 * (IZR n - 2 - 1 / 2); bux := 0; buy := 0; buz := - 4 / 3; bw := 1; big := 3 / 5 |}.
Lemma ex_beta zmin zmax : beta_boost {| d_c := 3; d_g := 5 / 4; d_dt := 1; s_t := 5; s_zmin := zmin; s_zmax := zmax |} = 3 / 5.
Proof. apply beta_eq, ex_ok. Qed.
Lemma ex_cur zmin zmax t : current_z_boost {| d_c := 3; d_g := 5 / 4; d_dt := 1; s_t := 5; s_zmin := zmin; s_zmax := zmax |} t = 20 - 5 * t.
Proof. unfold current_z_boost, inv_beta_boost. rewrite ex_beta. unfold inv_gamma_boost; cbn. field. Qed.
Lemma ex_prev zmin zmax t : prev_z_boost {| d_c := 3; d_g := 5 / 4; d_dt := 1; s_t := 5; s_zmin := zmin; s_zmax := zmax |} t = 25 - 5 * t.
Proof. unfold prev_z_boost, inv_beta_boost. rewrite ex_beta. unfold inv_gamma_boost; cbn. field. Qed.
Lemma kicked_missed lo hi n : records ex_d lo hi kicked n = [].
Proof.
  unfold records, store_snapshot_slices. cbn zeta. destruct (_ && _ && _ && _)%bool; [|reflexivity].
  unfold extract_slice, get_particle_slice. cbn [filter].
  replace (selected _ _ _ _) with false; [reflexivity|]. symmetry. apply not_true_is_false. intros H.
  unfold selected in H. unfold ex_d in H. rewrite ex_cur, ex_prev in H. cbn in H. unfold kicked in H.
  destruct (Z.leb_spec n 2); cbn in H; rewrite orb_true_iff, !andb_true_iff, !Rle_bool_iff in H.
  - apply IZR_le in H0. lra.
  - assert (3 <= IZR n) by (apply IZR_le; lia). lra.
Qed.

Lemma gpu_cell d b p n g : diag_ok d b -> moves d p -> 0 < g_dz g -> 0 < g_dr g -> (0 <= g_Nr g)%Z ->
  -1 < / g_dz g * (bz (p n) - g_zmin g) - / 2 -> / g_dz g * (bz (p n) - g_zmin g) - / 2 <= IZR (g_Nz g - 1) ->
  selected d (current_z_boost d (IZR n * d_dt d)) (prev_z_boost d (IZR n * d_dt d)) (p n) = true ->
  let cells := gpu_cells d (g_zmin g) (g_dz g) (current_z_boost d (IZR n * d_dt d)) (prev_z_boost d (IZR n * d_dt d)) in
  (fst cells * (g_Nr g + 1) <= cell_of g (bx (p n)) (by_ (p n)) (bz (p n)) < snd cells * (g_Nr g + 1))%Z.
Proof.
  intros OK M Hdz Hdr HNr W1 W2 Hs. cbn zeta. pose proof (gpu_range d b p n g OK M Hdz Hs) as H. cbn zeta in H.
  destruct (gpu_cells _ _ _ _ _) as [lo hi]. cbn [fst snd]. unfold cell_of. cbn zeta.
  set (iz := Zceil (/ g_dz g * (bz (p n) - g_zmin g) - / 2)) in *.
  assert (I0 : (0 <= iz)%Z).
  { unfold iz. assert (IZR (-1) < IZR (Zceil (/ g_dz g * (bz (p n) - g_zmin g) - / 2))).
    { eapply Rlt_le_trans; [|apply Zceil_ub]. lra. }
    apply lt_IZR in H0. lia. }
  assert (I1 : (iz <= g_Nz g - 1)%Z) by (apply Zceil_glb; auto).
  rewrite !Z.gtb_ltb. replace (iz <? 0)%Z with false by lia. replace (g_Nz g - 1 <? iz)%Z with false by lia.
  set (r := Zceil (/ g_dr g * (sqrt (bx (p n) ^ 2 + by_ (p n) ^ 2) - 0) - / 2)).
  assert (R0 : (0 <= r)%Z).
  { assert (IZR (-1) < IZR r).
    { eapply Rlt_le_trans; [|apply Zceil_ub].
      assert (0 <= / g_dr g * (sqrt (bx (p n) ^ 2 + by_ (p n) ^ 2) - 0)).
      { apply Rmult_le_pos; [left; apply Rinv_0_lt_compat; auto|]. pose proof (sqrt_pos (bx (p n) ^ 2 + by_ (p n) ^ 2)). lra. }
      lra. }
    apply lt_IZR in H0. lia. }
  assert (lo * (g_Nr g + 1) <= iz * (g_Nr g + 1))%Z by (apply Z.mul_le_mono_nonneg_r; lia).
  assert (iz * (g_Nr g + 1) <= (hi - 1) * (g_Nr g + 1))%Z by (apply Z.mul_le_mono_nonneg_r; lia).
  destruct (g_Nr g <? r)%Z eqn:E; lia.
Qed.
