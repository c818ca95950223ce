(** Proofs for C50. *)
From Verif Require Import Base Boost_Spec BField_Model BField_Spec.
From Coq Require Import Reals Lra Psatz.
From Flocq Require Import Core.Raux.
Open Scope R_scope.

Lemma Rlt_bool_iff x y : Rlt_bool x y = true <-> x < y.
Proof. case Rlt_bool_spec; split; intros; auto; try discriminate; lra. Qed.

(** Consecutive integers. *)
Definition zr (a b : Z) : list Z := map (fun i => (a + i)%Z) (range (b - a)).
Lemma zr_nil a b : (b <= a)%Z -> zr a b = [].
Proof. intros H. unfold zr. rewrite range_0 by lia. reflexivity. Qed.
Lemma zr_snoc a b : (a <= b)%Z -> zr a (b + 1) = zr a b ++ [b].
Proof.
  intros H. unfold zr. replace (b + 1 - a)%Z with (b - a + 1)%Z by lia. rewrite range_succ, map_app by lia.
  cbn. do 2 f_equal. lia.
Qed.
Lemma zr_length a b : length (zr a b) = Z.to_nat (b - a).
Proof. unfold zr. rewrite map_length. apply length_range. Qed.
Lemma zr_nth a b i : (0 <= i < b - a)%Z -> nth (Z.to_nat i) (zr a b) 0%Z = (a + i)%Z.
Proof.
  intros H. unfold zr. rewrite (nth_indep _ 0%Z (a + 0)%Z) by (rewrite map_length, length_range; lia).
  rewrite (map_nth (fun i => (a + i)%Z)). f_equal. unfold range, zrange.
  rewrite (nth_indep _ 0%Z (Z.of_nat 0)) by (rewrite map_length, seq_length; lia).
  rewrite map_nth, seq_nth by lia. lia.
Qed.

Section D.
Variables (d : fdiag) (b : R).
Hypothesis OK : fdiag_ok d b.

Lemma fbeta_eq : f_beta d = b.
Proof.
  destruct OK as [[G [B E]] [B0 _]]. unfold f_beta, f_inv_gamma.
  replace (1 - (1 / f_g d) ^ 2) with (b * b).
  - apply sqrt_square. lra.
  - assert (f_g d <> 0) by lra. apply (Rmult_eq_reg_l (f_g d * f_g d)); [|nra]. field_simplify; [|lra]. nra.
Qed.

Lemma event_iff t z : snapshot_event d b t z <-> z = fz_boost d t.
Proof.
  pose proof fbeta_eq as Hb. destruct OK as [[G [B E]] [B0 [C0 [D0 _]]]].
  assert (T : e_t (lorentz (f_c d) (f_g d) (- b) {| e_t := t; e_x := 0; e_y := 0; e_z := z |}) - f_t d =
    f_g d * b / f_c d * (z - fz_boost d t)).
  { unfold lorentz, fz_boost, f_inv_beta, f_inv_gamma; cbn. rewrite Hb. field. lra. }
  assert (Q : 0 < f_g d * b / f_c d) by (apply Rdiv_lt_0_compat; nra).
  unfold snapshot_event. split; intros H.
  - rewrite H in T. nra.
  - rewrite H in T at 2. rewrite (Rminus_diag_eq (fz_boost d t) _ eq_refl), Rmult_0_r in T. lra.
Qed.

Lemma lab_eq t : lab_z d b t (fz_boost d t) = fz_lab d t.
Proof.
  pose proof fbeta_eq as Hb. destruct OK as [[G [B E]] [B0 [C0 [D0 _]]]].
  unfold lab_z, lorentz, fz_boost, fz_lab, f_inv_beta, f_inv_gamma; cbn. rewrite Hb.
  assert (Eg : 1 / f_g d = f_g d * (1 - b * b)) by (apply (Rmult_eq_reg_l (f_g d)); [field_simplify; lra|lra]).
  transitivity (f_c d * (1 / b) * (f_t d - t * (f_g d * (1 - b * b)))); [field; lra|].
  rewrite <- Eg. ring.
Qed.

Lemma stores_iff lo hi n : stores d lo hi n = true <-> seen d b lo hi n.
Proof.
  unfold stores, seen. cbn zeta. rewrite !andb_true_iff, !Rlt_bool_iff, <- lab_eq. split.
  - intros [[[H1 H2] H3] H4]. exists (fz_boost d (IZR n * f_dt d)). rewrite event_iff. repeat split; auto.
  - intros [z [H1 [H2 H3]]]. apply event_iff in H1. subst z. tauto.
Qed.

Lemma dz_pos : 0 < dz_lab d.
Proof.
  pose proof fbeta_eq as Hb. destruct OK as [[G [B E]] [B0 [C0 [D0 _]]]].
  unfold dz_lab, f_inv_beta, f_inv_gamma. rewrite Hb.
  assert (0 < 1 / b) by (apply Rdiv_lt_0_compat; lra). assert (0 < 1 / f_g d) by (apply Rdiv_lt_0_compat; lra).
  apply Rmult_lt_0_compat; auto. apply Rmult_lt_0_compat; auto. nra.
Qed.

(** The index of iteration n is K - n. *)
Definition K : Z := Zfloor ((fz_lab d 0 - f_zmin d) * inv_dz_lab d).
Lemma position n : (fz_lab d (IZR n * f_dt d) - f_zmin d) * inv_dz_lab d = (fz_lab d 0 - f_zmin d) * inv_dz_lab d - IZR n.
Proof.
  pose proof dz_pos as P. unfold inv_dz_lab.
  assert (E : fz_lab d (IZR n * f_dt d) = fz_lab d 0 - IZR n * dz_lab d) by (unfold fz_lab, dz_lab; ring).
  rewrite E. field. lra.
Qed.
Lemma floor_minus x n : Zfloor (x - IZR n) = (Zfloor x - n)%Z.
Proof.
  apply Zfloor_imp. pose proof (Zfloor_lb x). pose proof (Zfloor_ub x). rewrite plus_IZR, !minus_IZR. lra.
Qed.

Lemma index_eq n lo hi : stores d lo hi n = true ->
  Ztrunc ((fz_lab d (IZR n * f_dt d) - f_zmin d) * inv_dz_lab d) = (K - n)%Z /\ (0 <= K - n < Nz_lab d)%Z.
Proof.
  intros H. unfold stores in H. cbn zeta in H. rewrite !andb_true_iff, !Rlt_bool_iff in H. destruct H as [[_ H3] H4].
  pose proof dz_pos as P. assert (IP : 0 < inv_dz_lab d) by (apply Rdiv_lt_0_compat; lra).
  assert (X0 : 0 <= (fz_lab d (IZR n * f_dt d) - f_zmin d) * inv_dz_lab d) by (apply Rmult_le_pos; lra).
  rewrite Ztrunc_floor by auto. rewrite position. rewrite floor_minus. fold K. split; [reflexivity|].
  assert (E : Zfloor ((fz_lab d (IZR n * f_dt d) - f_zmin d) * inv_dz_lab d) = (K - n)%Z) by (rewrite position, floor_minus; reflexivity).
  rewrite <- E. split.
  - apply Zfloor_lub. auto.
  - unfold Nz_lab. apply Z.lt_succ_r. rewrite Ztrunc_floor.
    + apply Zfloor_le. unfold inv_dz_lab, Rdiv. rewrite Rmult_1_l. apply Rmult_le_compat_r; [left; apply Rinv_0_lt_compat|]; lra.
    + apply Rle_mult_inv_pos; lra.
Qed.

Variables (procs : nat) (e : Z -> nat -> R).
Hypothesis EO : edges_ok d b procs e.
Notation st q n := (stores d (e n q) (e n (S q)) n).

Lemma relative q m n : (m <= n)%Z ->
  e m q - fz_boost d (IZR m * f_dt d) <= e n q - fz_boost d (IZR n * f_dt d).
Proof.
  intros H. replace n with (m + (n - m))%Z by lia. assert (0 <= n - m)%Z by lia. clear H. revert H0.
  generalize (n - m)%Z. intros k Hk. pattern k. apply natlike_ind; auto; clear k Hk.
  - rewrite Z.add_0_r. lra.
  - intros k Hk IH. replace (m + Z.succ k)%Z with (m + k + 1)%Z by lia.
    destruct EO as [_ E2]. specialize (E2 (m + k)%Z q).
    assert (fz_boost d (IZR (m + k + 1) * f_dt d) = fz_boost d (IZR (m + k) * f_dt d) - f_c d / b * f_dt d).
    { pose proof fbeta_eq as Hb. destruct OK as [_ [B0 _]].
      unfold fz_boost, f_inv_beta. rewrite Hb, (plus_IZR (m + k)). field. lra. }
    lra.
Qed.

Lemma lab_decr m n : (m <= n)%Z -> fz_lab d (IZR n * f_dt d) <= fz_lab d (IZR m * f_dt d).
Proof.
  intros H. apply IZR_le in H. pose proof dz_pos.
  replace (fz_lab d (IZR n * f_dt d)) with (fz_lab d 0 - IZR n * dz_lab d) by (unfold fz_lab, dz_lab; ring).
  replace (fz_lab d (IZR m * f_dt d)) with (fz_lab d 0 - IZR m * dz_lab d) by (unfold fz_lab, dz_lab; ring). nra.
Qed.

Lemma convex q a n c : (a <= n <= c)%Z -> st q a = true -> st q c = true -> st q n = true.
Proof.
  intros [H1 H2]. unfold stores. cbn zeta. rewrite !andb_true_iff, !Rlt_bool_iff. intros [[[A1 A2] A3] A4] [[[B1 B2] B3] B4].
  pose proof (relative q n c H2). pose proof (relative (S q) a n H1). pose proof (lab_decr a n H1). pose proof (lab_decr n c H2).
  lra.
Qed.

Lemma edge_mono n q k : (q + k <= procs)%nat -> e n q <= e n (q + k)%nat.
Proof.
  induction k; intros H; [rewrite Nat.add_0_r; lra|]. rewrite Nat.add_succ_r.
  destruct EO as [E1 _]. specialize (E1 n (q + k)%nat ltac:(lia)). specialize (IHk ltac:(lia)). lra.
Qed.

Lemma one_process n q q' : (q < procs)%nat -> (q' < procs)%nat -> st q n = true -> st q' n = true -> q = q'.
Proof.
  unfold stores. cbn zeta. rewrite !andb_true_iff, !Rlt_bool_iff. intros Hq Hq' [[[A1 A2] A3] A4] [[[B1 B2] B3] B4].
  destruct (Nat.lt_trichotomy q q') as [L|[E|L]]; auto; exfalso.
  - pose proof (edge_mono n (S q) (q' - S q) ltac:(lia)). replace (S q + (q' - S q))%nat with q' in H by lia. lra.
  - pose proof (edge_mono n (S q') (q - S q') ltac:(lia)). replace (S q' + (q - S q'))%nat with q in H by lia. lra.
Qed.

Variable A : Type.
Variable zero : A.
Variable slice : Z -> nat -> A.

(** What belongs at index k. *)
Definition val (k : Z) : A :=
  match find (fun q => st q (K - k)%Z) (seq 0 procs) with Some q => slice (K - k)%Z q | None => zero end.
Lemma val_stored n q : (q < procs)%nat -> st q n = true -> val (K - n) = slice n q.
Proof.
  intros Hq H. unfold val. replace (K - (K - n))%Z with n by lia.
  destruct (find _ _) as [q'|] eqn:F.
  - apply find_some in F as [F1 F2]. apply in_seq in F1. rewrite (one_process n q q'); auto. lia.
  - eapply find_none in F; [|apply in_seq; split; [apply Nat.le_0_l|exact Hq]]. cbn in F. congruence.
Qed.
Lemma val_none k : (forall q, (q < procs)%nat -> st q (K - k) = false) -> val k = zero.
Proof.
  intros H. unfold val. destruct (find _ _) as [q|] eqn:F; auto.
  apply find_some in F as [F1 F2]. apply in_seq in F1. rewrite H in F2 by lia. discriminate.
Qed.

(** The buffer of process q after the iterations f, ..., n-1. *)
Definition binv (f n : Z) (q : nat) (buf : buffer A) : Prop := (q < procs)%nat /\
  exists a c, (f <= a <= c)%Z /\ (c <= n)%Z /\ (forall m, (f <= m < n)%Z -> (st q m = true <-> (a <= m < c)%Z)) /\
  buf = {| b_idx := map (fun m => (K - m)%Z) (zr a c); b_sl := map (fun m => slice m q) (zr a c) |}.

Lemma binv_start f q : (q < procs)%nat -> binv f f q (empty_buffer A).
Proof.
  intros Hq. split; auto. exists f, f. split; [lia|]. split; [lia|]. split; [lia|]. rewrite zr_nil by lia. reflexivity.
Qed.

Lemma register_snoc t sl buf l x : b_idx A buf = l ++ [x] ->
  register_slice A d t sl buf = {| b_idx := b_idx A buf ++ [(x - 1)%Z]; b_sl := b_sl A buf ++ [sl] |}.
Proof.
  intros E. unfold register_slice. f_equal. f_equal. f_equal. rewrite E, last_last. destruct (l ++ [x]) eqn:L; [destruct l; discriminate|reflexivity].
Qed.

Lemma binv_step f n q buf : (f <= n)%Z -> binv f n q buf ->
  binv f (n + 1) q (if st q n then register_slice A d (IZR n * f_dt d) (slice n q) buf else buf).
Proof.
  intros Hfn [Hq [a [c [H1 [H2 [H3 ->]]]]]]. split; auto. destruct (st q n) eqn:E.
  - destruct (Z.eq_dec a c) as [->|Hne].
    + exists n, (n + 1)%Z. split; [lia|]. split; [lia|]. split.
      * intros m Hm. destruct (Z.eq_dec m n) as [->|]; [split; [lia|auto]|]. rewrite H3 by lia. lia.
      * unfold register_slice. rewrite (zr_nil c c) by lia. cbn [b_idx b_sl map].
        rewrite zr_snoc by lia. rewrite (zr_nil n n) by lia. cbn [app map].
        destruct (index_eq n _ _ E) as [-> _]. reflexivity.
    + assert (c = n).
      { destruct (Z.eq_dec c n); auto. exfalso.
        assert (Ha : st q a = true) by (apply H3; lia).
        assert (Hc : st q c = true) by (apply (convex q a c n); auto; lia). apply H3 in Hc; lia. }
      subst c. exists a, (n + 1)%Z. split; [lia|]. split; [lia|]. split.
      * intros m Hm. destruct (Z.eq_dec m n) as [->|]; [split; [lia|auto]|]. rewrite H3 by lia. lia.
      * erewrite (register_snoc _ _ _ (map (fun m => (K - m)%Z) (zr a (n - 1))) (K - (n - 1))%Z).
        -- cbn [b_idx b_sl]. rewrite zr_snoc, !map_app by lia. cbn [map].
           replace (K - (n - 1) - 1)%Z with (K - n)%Z by lia. reflexivity.
        -- cbn [b_idx]. replace n with (n - 1 + 1)%Z at 1 by lia. rewrite zr_snoc, map_app by lia. reflexivity.
  - exists a, c. split; [lia|]. split; [lia|]. split; auto.
    intros m Hm. destruct (Z.eq_dec m n) as [->|]; [split; [congruence|lia]|]. apply H3. lia.
Qed.

(** What a process hands over at a flush. *)
Definition good (f n : Z) (p : piece A) : Prop := let '(a, lo, hi) := p in
  (0 <= lo < hi)%Z /\ (hi <= Nz_lab d)%Z /\ Z.of_nat (length a) = (hi - lo)%Z /\ (f <= K - (hi - 1))%Z /\ (K - lo < n)%Z /\
  forall k, (lo <= k < hi)%Z -> nth (Z.to_nat (k - lo)) a zero = val k.
Definition covers (k : Z) (p : piece A) : Prop := let '(a, lo, hi) := p in (lo <= k < hi)%Z.

Lemma contiguous_zr a c : contiguous (K - a) (map (fun m => (K - m)%Z) (zr (a + 1) c)) = true.
Proof.
  assert (forall k, (0 <= k)%Z -> forall a, contiguous (K - a) (map (fun m => (K - m)%Z) (zr (a + 1) (a + 1 + k))) = true).
  { intros k Hk. pattern k. apply natlike_ind; auto; clear k Hk.
    - intros a'. rewrite zr_nil by lia. reflexivity.
    - intros k Hk IH a'. replace (zr (a' + 1) (a' + 1 + Z.succ k)) with ((a' + 1)%Z :: zr (a' + 1 + 1) (a' + 1 + 1 + k)).
      + cbn [map contiguous]. rewrite IH. apply andb_true_iff. split; [lia|reflexivity].
      + unfold zr. replace (a' + 1 + 1 + k - (a' + 1 + 1))%Z with k by lia. replace (a' + 1 + Z.succ k - (a' + 1))%Z with (Z.succ k) by lia.
        unfold range, zrange. rewrite Z2Nat.inj_succ by lia. cbn [seq map]. f_equal; [lia|].
        rewrite <- seq_shift, !map_map. apply map_ext. intros. lia. }
  destruct (Z_le_gt_dec c (a + 1)); [rewrite zr_nil by lia; reflexivity|].
  replace c with (a + 1 + (c - a - 1))%Z by lia. apply H. lia.
Qed.

Lemma zr_cons a c : (a < c)%Z -> zr a c = a :: zr (a + 1) c.
Proof.
  intros H. unfold zr, range, zrange. replace (Z.to_nat (c - a)) with (S (Z.to_nat (c - (a + 1)))) by lia.
  cbn [seq map]. f_equal; [lia|]. rewrite <- seq_shift, !map_map. apply map_ext. intros. lia.
Qed.

Lemma compact_inv f n q buf : binv f n q buf ->
  (compact_slices A buf = NoSlices A /\ forall m, (f <= m < n)%Z -> st q m = false) \/
  (exists a lo hi, compact_slices A buf = Slices A a lo hi /\ good f n (a, lo, hi) /\
     forall m, (f <= m < n)%Z -> st q m = true -> (lo <= K - m < hi)%Z).
Proof.
  intros [Hq [a [c [H1 [H2 [H3 ->]]]]]]. destruct (Z.eq_dec a c) as [->|Hne].
  - left. unfold compact_slices. rewrite zr_nil by lia. cbn. split; [reflexivity|].
    intros m Hm. destruct (st q m) eqn:E; auto. apply H3 in E; lia.
  - right.
    assert (EC : compact_slices A {| b_idx := map (fun m => (K - m)%Z) (zr a c); b_sl := map (fun m => slice m q) (zr a c) |} =
      Slices A (rev (map (fun m => slice m q) (zr a c))) (last (map (fun m => (K - m)%Z) (zr a c)) 0%Z) (K - a + 1)).
    { unfold compact_slices. cbn [b_idx b_sl]. rewrite (zr_cons a c) by lia. cbn [map]. rewrite contiguous_zr. reflexivity. }
    rewrite EC. exists (rev (map (fun m => slice m q) (zr a c))), (K - (c - 1))%Z, (K - a + 1)%Z.
    assert (Sa : forall m, (a <= m < c)%Z -> st q m = true) by (intros; apply H3; lia).
    split; [|split].
    + f_equal. replace c with (c - 1 + 1)%Z at 1 by lia. rewrite zr_snoc, map_app by lia. cbn [map]. apply last_last.
    + pose proof (proj2 (index_eq _ _ _ (Sa (c - 1)%Z ltac:(lia)))). pose proof (proj2 (index_eq _ _ _ (Sa a ltac:(lia)))).
      unfold good. split; [lia|]. split; [lia|]. split; [rewrite rev_length, map_length, zr_length; lia|].
      split; [lia|]. split; [lia|]. intros k Hk.
      rewrite rev_nth by (rewrite map_length, zr_length; lia). rewrite map_length, zr_length.
      replace (Z.to_nat (c - a) - S (Z.to_nat (k - (K - (c - 1)))))%nat with (Z.to_nat (K - k - a)) by lia.
      rewrite (nth_indep _ zero (slice 0%Z q)) by (rewrite map_length, zr_length; lia).
      rewrite (map_nth (fun m => slice m q)), zr_nth by lia. replace (a + (K - k - a))%Z with (K - k)%Z by lia.
      rewrite <- (val_stored (K - k) q); auto; [f_equal; lia|]. apply Sa. lia.
    + intros m Hm E. apply H3 in E; lia.
Qed.

Lemma pieces_inv f n qs bufs : Forall2 (binv f n) qs bufs ->
  exists ps, pieces A (map (compact_slices A) bufs) = Some ps /\ Forall (good f n) ps /\ (length ps <= length bufs)%nat /\
  forall q m, In q qs -> (f <= m < n)%Z -> st q m = true -> exists p, In p ps /\ covers (K - m) p.
Proof.
  induction 1 as [|q buf qs bufs H F IH].
  - exists []. repeat split; auto. intros q m [].
  - destruct IH as [ps [P1 [P2 [PL P3]]]]. cbn [map pieces]. destruct (compact_inv f n q buf H) as [[-> C]|[a [lo [hi [-> [G C]]]]]].
    + exists ps. split; [auto|]. split; [auto|]. split; [cbn; lia|]. intros q' m [<-|I] Hm E; [rewrite C in E by auto; discriminate|eauto].
    + rewrite P1. exists ((a, lo, hi) :: ps). split; [reflexivity|]. split; [constructor; auto|]. split; [cbn; lia|].
      intros q' m [<-|I] Hm E.
      * exists (a, lo, hi). split; [left; reflexivity|]. cbn. apply C; auto.
      * destruct (P3 q' m I Hm E) as [p [Ip Cp]]. exists p. split; [right|]; auto.
Qed.

Lemma fill_spec f n ps gmin gmax g : Forall (good f n) ps ->
  (forall a lo hi, In (a, lo, hi) ps -> gmin <= lo /\ hi <= gmax)%Z ->
  exists g', fill A zero (gmax - gmin) gmin g ps = Ok g' /\
  forall k, (exists p, In p ps /\ covers (k + gmin) p) /\ g' k = val (k + gmin) \/
            (forall p, In p ps -> ~ covers (k + gmin) p) /\ g' k = g k.
Proof.
  intros F. revert g. induction F as [|[[a lo] hi] ps G F IH]; intros g Hb.
  - exists g. split; [reflexivity|]. intros k. right. split; [intros p []|reflexivity].
  - cbn [fill]. destruct G as [G1 [G2 [G3 [G4 [G5 G6]]]]].
    destruct (Hb a lo hi (or_introl eq_refl)) as [B1 B2].
    unfold assign at 1. replace (0 <=? lo - gmin)%Z with true by lia. replace (lo - gmin <=? hi - gmin)%Z with true by lia.
    replace (hi - gmin <=? gmax - gmin)%Z with true by lia. replace (Z.of_nat (length a) =? hi - gmin - (lo - gmin))%Z with true by lia.
    cbn [andb bind].
    destruct (IH (fun k => if ((lo - gmin <=? k)%Z && (k <? hi - gmin)%Z)%bool then nth (Z.to_nat (k - (lo - gmin))) a zero else g k)) as [g' [E1 E2]].
    { intros. apply (Hb a0). right. auto. }
    exists g'. split; [auto|]. intros k. destruct (E2 k) as [[[p [Ip Cp]] Ev]|[Nc Ev]].
    + left. split; [exists p; split; [right|]; auto|auto].
    + destruct ((lo - gmin <=? k)%Z && (k <? hi - gmin)%Z)%bool eqn:L.
      * left. split; [exists (a, lo, hi); split; [left; reflexivity|cbn; lia]|].
        rewrite Ev. replace (k - (lo - gmin))%Z with (k + gmin - lo)%Z by lia. apply G6. lia.
      * right. split; [|auto]. intros p [<-|Ip]; [cbn; lia|auto].
Qed.

Lemma min_fold l : forall a, (fold_left Z.min l a <= a)%Z /\ (forall x, In x l -> fold_left Z.min l a <= x)%Z /\ (In (fold_left Z.min l a) (a :: l)).
Proof.
  induction l as [|y l IH]; intros a; cbn [fold_left]; [split; [lia|split; [intros x []|left; reflexivity]]|].
  destruct (IH (Z.min a y)) as [I1 [I2 I3]]. split; [lia|]. split.
  - intros x [<-|H]; [lia|auto].
  - destruct I3 as [I3|I3]; [rewrite <- I3; destruct (Z.min_spec a y) as [[_ ->]|[_ ->]]; [left; auto|right; left; auto]|right; right; auto].
Qed.
Lemma max_fold l : forall a, (a <= fold_left Z.max l a)%Z /\ (forall x, In x l -> x <= fold_left Z.max l a)%Z /\ (In (fold_left Z.max l a) (a :: l)).
Proof.
  induction l as [|y l IH]; intros a; cbn [fold_left]; [split; [lia|split; [intros x []|left; reflexivity]]|].
  destruct (IH (Z.max a y)) as [I1 [I2 I3]]. split; [lia|]. split.
  - intros x [<-|H]; [lia|auto].
  - destruct I3 as [I3|I3]; [rewrite <- I3; destruct (Z.max_spec a y) as [[_ ->]|[_ ->]]; [right; left; auto|left; auto]|right; right; auto].
Qed.

(** The array of the first process. *)
Lemma gather_spec f n ps : Forall (good f n) ps -> ps <> [] ->
  (forall q m, (q < procs)%nat -> (f <= m < n)%Z -> st q m = true -> exists p, In p ps /\ covers (K - m) p) ->
  exists a lo hi, gather_slices A zero ps = Ok (Some (a, lo, hi)) /\ good f n (a, lo, hi) /\ forall k p, In p ps -> covers k p -> (lo <= k < hi)%Z.
Proof.
  intros F Hne Cv. unfold gather_slices. destruct ps as [|p0 ps'] eqn:Ep; [congruence|]. rewrite <- Ep in *. clear Hne.
  set (gmin := min_list (map (fun q => snd (fst q)) ps)). set (gmax := max_list (map snd ps)).
  assert (M1 : (forall x, In x (map (fun q => snd (fst q)) ps) -> gmin <= x)%Z /\ In gmin (map (fun q => snd (fst q)) ps)).
  { unfold gmin. rewrite Ep. cbn [map min_list]. destruct (min_fold (map (fun q : piece A => snd (fst q)) ps') (snd (fst p0))) as [I1 [I2 I3]].
    split; [intros x [<-|H]; auto|auto]. }
  assert (M2 : (forall x, In x (map snd ps) -> x <= gmax)%Z /\ In gmax (map snd ps)).
  { unfold gmax. rewrite Ep. cbn [map max_list]. destruct (max_fold (map snd ps') (snd p0)) as [I1 [I2 I3]].
    split; [intros x [<-|H]; auto|auto]. }
  destruct M1 as [M1 M1']. destruct M2 as [M2 M2'].
  assert (Bd : forall a lo hi, In (a, lo, hi) ps -> (gmin <= lo /\ hi <= gmax)%Z).
  { intros a lo hi I. split; [apply M1; apply in_map_iff; exists (a, lo, hi); auto|apply M2; apply in_map_iff; exists (a, lo, hi); auto]. }
  destruct (fill_spec f n ps gmin gmax (fun _ => zero) F Bd) as [g [E1 E2]].
  rewrite Ep in *. rewrite <- Ep in *. rewrite E1. cbn [bind].
  apply in_map_iff in M1' as [[[a1 lo1] hi1] [L1 I1]]. apply in_map_iff in M2' as [[[a2 lo2] hi2] [L2 I2]]. cbn [fst snd] in L1, L2.
  rewrite Forall_forall in F. pose proof (F _ I1) as G1. pose proof (F _ I2) as G2. cbn in G1, G2.
  pose proof (Bd _ _ _ I1). pose proof (Bd _ _ _ I2).
  exists (map g (range (gmax - gmin))), gmin, gmax. split; [reflexivity|]. split.
  - unfold good. rewrite map_length, length_range. split; [lia|]. split; [lia|]. split; [lia|]. split; [lia|]. split; [lia|].
    intros k Hk. rewrite (nth_indep _ zero (g 0%Z)) by (rewrite map_length, length_range; lia).
    rewrite map_nth.
    assert (En : nth (Z.to_nat (k - gmin)) (range (gmax - gmin)) 0%Z = (k - gmin)%Z).
    { pose proof (zr_nth 0 (gmax - gmin) (k - gmin) ltac:(lia)) as Z0. unfold zr in Z0.
      rewrite Z.sub_0_r in Z0. rewrite (map_ext (fun i => (0 + i)%Z) (fun i => i)) in Z0 by (intros; lia). rewrite map_id in Z0. lia. }
    rewrite En. destruct (E2 (k - gmin)%Z) as [[_ Ev]|[Nc Ev]]; rewrite Ev; replace (k - gmin + gmin)%Z with k in * by lia; auto.
    symmetry. apply val_none. intros q Hq. destruct (st q (K - k)) eqn:Es; auto. exfalso.
    destruct (Cv q (K - k)%Z Hq ltac:(lia) Es) as [p [Ip Cp]]. replace (K - (K - k))%Z with k in Cp by lia. apply (Nc p Ip Cp).
  - intros k [[a lo] hi] I C0. cbn in C0. pose proof (Bd _ _ _ I). lia.
Qed.

Definition dinv (f : Z) (disk : Z -> A) : Prop := forall k, disk k = if ((0 <=? K - k)%Z && (K - k <? f)%Z)%bool then val k else zero.

Lemma write_good f n disk a lo hi : dinv f disk -> (0 <= f <= n)%Z -> good f n (a, lo, hi) ->
  (forall q m, (q < procs)%nat -> (f <= m < n)%Z -> st q m = true -> (lo <= K - m < hi)%Z) ->
  exists disk', assign A zero (Nz_lab d) disk lo hi a = Ok disk' /\ dinv n disk'.
Proof.
  intros D Hf [G1 [G2 [G3 [G4 [G5 G6]]]]] Cv. unfold assign.
  replace (0 <=? lo)%Z with true by lia. replace (lo <=? hi)%Z with true by lia. replace (hi <=? Nz_lab d)%Z with true by lia.
  replace (Z.of_nat (length a) =? hi - lo)%Z with true by lia. cbn [andb]. eexists. split; [reflexivity|].
  intros k. destruct ((lo <=? k)%Z && (k <? hi)%Z)%bool eqn:L.
  - rewrite G6 by lia. replace ((0 <=? K - k)%Z && (K - k <? n)%Z)%bool with true by lia. reflexivity.
  - rewrite (D k). destruct ((0 <=? K - k)%Z && (K - k <? f)%Z)%bool eqn:L1.
    + replace ((0 <=? K - k)%Z && (K - k <? n)%Z)%bool with true by lia. reflexivity.
    + destruct ((0 <=? K - k)%Z && (K - k <? n)%Z)%bool eqn:L2; auto.
      symmetry. apply val_none. intros q Hq. destruct (st q (K - k)) eqn:Es; auto. exfalso.
      specialize (Cv q (K - k)%Z Hq ltac:(lia) Es). lia.
Qed.

Lemma flush_spec f n bufs disk : (0 <= f <= n)%Z -> Forall2 (binv f n) (seq 0 procs) bufs -> dinv f disk ->
  exists disk', flush_to_disk A zero d bufs disk = Some (Ok disk') /\ dinv n disk'.
Proof.
  intros Hf F D. destruct (pieces_inv f n _ _ F) as [ps [P1 [P2 [PL P3]]]]. unfold flush_to_disk. rewrite P1.
  assert (Cv : forall q m, (q < procs)%nat -> (f <= m < n)%Z -> st q m = true -> exists p, In p ps /\ covers (K - m) p).
  { intros q m Hq Hm E. apply (P3 q m); auto. apply in_seq. lia. }
  assert (N0 : ps = [] -> dinv n disk).
  { intros -> k. rewrite (D k). destruct ((0 <=? K - k)%Z && (K - k <? f)%Z)%bool eqn:L1.
    + replace ((0 <=? K - k)%Z && (K - k <? n)%Z)%bool with true by lia. reflexivity.
    + destruct ((0 <=? K - k)%Z && (K - k <? n)%Z)%bool eqn:L2; auto.
      symmetry. apply val_none. intros q Hq. destruct (st q (K - k)) eqn:Es; auto. exfalso.
      destruct (Cv q (K - k)%Z Hq ltac:(lia) Es) as [p [[] _]]. }
  destruct (Z.of_nat (length bufs) >? 1)%Z eqn:Ln.
  - destruct ps as [|p ps'] eqn:Ep.
    + exists disk. split; [reflexivity|auto].
    + rewrite <- Ep in *. destruct (gather_spec f n ps P2 ltac:(rewrite Ep; discriminate) Cv) as [a [lo [hi [E1 [G C]]]]].
      rewrite E1. cbn [bind write_slices].
      destruct (write_good f n disk a lo hi D Hf G) as [disk' [W1 W2]].
      { intros q m Hq Hm E. destruct (Cv q m Hq Hm E) as [p' [I C']]. apply (C _ p'); auto. }
      exists disk'. rewrite W1. auto.
  - destruct ps as [|[[a lo] hi] ps'] eqn:Ep.
    + exists disk. split; [reflexivity|auto].
    + cbn [hd_error write_slices]. assert (ps' = []) by (destruct ps'; auto; cbn in PL; lia). subst ps'.
      inversion P2 as [|? ? G _]; subst.
      destruct (write_good f n disk a lo hi D Hf G) as [disk' [W1 W2]].
      { intros q m Hq Hm E. destruct (Cv q m Hq Hm E) as [p' [[<-|[]] C']]. exact C'. }
      exists disk'. rewrite W1. auto.
Qed.

Lemma Forall2_step {X Y} (P Q : X -> Y -> Prop) (h : X -> Y -> Y) l l' :
  (forall x y, P x y -> Q x (h x y)) -> Forall2 P l l' -> Forall2 Q l (map (fun '(x, y) => h x y) (combine l l')).
Proof. intros H. induction 1; cbn; constructor; auto. Qed.

(** The run: f is the first iteration that has not been flushed. *)
Lemma run_spec N : exists f bufs disk, run A zero d procs (fun n q => e n q) (fun n q => e n (S q)) slice N = Some (Ok (bufs, disk)) /\
  (0 <= f <= Z.of_nat N)%Z /\ (f = 0 \/ (f - 1) mod f_period d = 0)%Z /\
  (forall m, (f <= m < Z.of_nat N)%Z -> (m mod f_period d <> 0)%Z) /\
  Forall2 (binv f (Z.of_nat N)) (seq 0 procs) bufs /\ dinv f disk.
Proof.
  induction N as [|N [f [bufs [disk [R1 [R2 [R3 [R4 [R5 R6]]]]]]]]].
  - exists 0%Z, (repeat (empty_buffer A) procs), (fun _ => zero). split; [reflexivity|]. split; [lia|]. split; [auto|]. split; [lia|]. split.
    + assert (forall k s, (s + k <= procs)%nat -> Forall2 (binv 0 0) (seq s k) (repeat (empty_buffer A) k)).
      { induction k; intros s Hs; cbn; constructor; [apply binv_start; lia|apply IHk; lia]. }
      apply H. lia.
    + intros k. destruct ((0 <=? K - k)%Z && (K - k <? 0)%Z)%bool eqn:L; auto. lia.
  - cbn [run]. rewrite R1. unfold write. cbn [fst snd].
    set (bufs' := map _ _). assert (F' : Forall2 (binv f (Z.of_nat N + 1)) (seq 0 procs) bufs').
    { unfold bufs'. apply (Forall2_step (binv f (Z.of_nat N)) _ (fun q b0 => if stores d (e (Z.of_nat N) q) (e (Z.of_nat N) (S q)) (Z.of_nat N)
         then register_slice A d (IZR (Z.of_nat N) * f_dt d) (slice (Z.of_nat N) q) b0 else b0)); auto.
      intros q b0 H. apply binv_step; auto. lia. }
    rewrite Nat2Z.inj_succ. unfold Z.succ.
    destruct (Z.of_nat N mod f_period d =? 0)%Z eqn:Em.
    + destruct (flush_spec f (Z.of_nat N + 1) bufs' disk ltac:(lia) F' R6) as [disk' [E1 E2]]. rewrite E1. cbn [bind].
      exists (Z.of_nat N + 1)%Z, (map (fun _ => empty_buffer A) bufs'), disk'. split; [reflexivity|]. split; [lia|]. split; [right; replace (Z.of_nat N + 1 - 1)%Z with (Z.of_nat N) by lia; lia|].
      split; [lia|]. split; [|auto].
      clear - F'. induction F' as [|q b0 l l' H F IH]; cbn; constructor; auto. apply binv_start. apply H.
    + exists f, bufs', disk. split; [reflexivity|]. split; [lia|]. split; [auto|]. split; [|auto].
      intros m Hm. destruct (Z.eq_dec m (Z.of_nat N)) as [->|]; [lia|apply R4; lia].
Qed.
End D.

Lemma flushed_iff d b N f n : fdiag_ok d b -> (0 <= f <= Z.of_nat N)%Z -> (f = 0 \/ (f - 1) mod f_period d = 0)%Z ->
  (forall m, (f <= m < Z.of_nat N)%Z -> (m mod f_period d <> 0)%Z) -> (0 <= n)%Z -> flushed d N n <-> (n < f)%Z.
Proof.
  intros OK H1 H2 H3 Hn. split.
  - intros [m [M1 M2]]. destruct (Z_lt_le_dec m f); [lia|]. exfalso. apply (H3 m); auto. lia.
  - intros H. exists (f - 1)%Z. lia.
Qed.

Lemma in_cell_iff d b n k : fdiag_ok d b -> in_cell d b (dz_lab d) n k <-> k = (K d - n)%Z.
Proof.
  intros OK. pose proof (dz_pos d b OK) as P.
  assert (E : Zfloor ((fz_lab d (IZR n * f_dt d) - f_zmin d) * inv_dz_lab d) = (K d - n)%Z)
    by (rewrite (position d b OK), floor_minus; reflexivity).
  assert (Q : forall k, f_zmin d + IZR k * dz_lab d <= fz_lab d (IZR n * f_dt d) < f_zmin d + IZR (k + 1) * dz_lab d <->
     IZR k <= (fz_lab d (IZR n * f_dt d) - f_zmin d) * inv_dz_lab d < IZR (k + 1)).
  { intros j. unfold inv_dz_lab. set (x := fz_lab d (IZR n * f_dt d) - f_zmin d).
    assert (Hx : x = (x * (1 / dz_lab d)) * dz_lab d) by (field; lra). set (y := x * (1 / dz_lab d)) in *.
    unfold x in Hx. split; intros H; split.
    - apply (Rmult_le_reg_r (dz_lab d)); lra.
    - apply (Rmult_lt_reg_r (dz_lab d)); lra.
    - assert (IZR j * dz_lab d <= y * dz_lab d) by (apply Rmult_le_compat_r; lra). lra.
    - assert (y * dz_lab d < IZR (j + 1) * dz_lab d) by (apply Rmult_lt_compat_r; lra). lra. }
  unfold in_cell. split.
  - intros [z [S1 C1]]. apply (event_iff d b OK) in S1. subst z. rewrite (lab_eq d b OK) in C1. apply Q in C1.
    rewrite <- E. symmetry. apply Zfloor_imp. auto.
  - intros ->. exists (fz_boost d (IZR n * f_dt d)). split; [apply (event_iff d b OK); reflexivity|].
    rewrite (lab_eq d b OK). apply Q. rewrite <- E. rewrite plus_IZR. split; [apply Zfloor_lb|apply Zfloor_ub].
Qed.

Lemma file_spec A zero d b procs e slice N : fdiag_ok d b -> edges_ok d b procs e ->
  exists bufs disk, run A zero d procs (fun n q => e n q) (fun n q => e n (S q)) slice N = Some (Ok (bufs, disk)) /\
  (forall n q, (q < procs)%nat -> (0 <= n)%Z -> flushed d N n -> seen d b (e n q) (e n (S q)) n ->
     exists k, (0 <= k < Nz_lab d)%Z /\ in_cell d b (dz_lab d) n k /\ disk k = slice n q) /\
  (forall k, (forall n q, (q < procs)%nat -> (0 <= n)%Z -> flushed d N n -> seen d b (e n q) (e n (S q)) n ->
     ~ in_cell d b (dz_lab d) n k) -> disk k = zero).
Proof.
  intros OK EO. destruct (run_spec d b OK procs e EO A zero slice N) as [f [bufs [disk [R1 [R2 [R3 [R4 [R5 R6]]]]]]]].
  exists bufs, disk. split; [auto|]. split.
  - intros n q Hq Hn Hf Hs. apply (flushed_iff d b N f n OK R2 R3 R4 Hn) in Hf. apply (stores_iff d b OK) in Hs.
    exists (K d - n)%Z. split; [apply (index_eq d b OK n _ _ Hs)|]. split; [apply in_cell_iff; auto|].
    rewrite (R6 (K d - n)%Z). replace ((0 <=? K d - (K d - n))%Z && (K d - (K d - n) <? f)%Z)%bool with true by lia.
    apply (val_stored d b procs e EO A zero slice); auto.
  - intros k H. rewrite (R6 k). destruct ((0 <=? K d - k)%Z && (K d - k <? f)%Z)%bool eqn:L; auto.
    apply val_none. intros q Hq. destruct (stores _ _ _ _) eqn:Es; auto. exfalso.
    apply (H (K d - k)%Z q); auto; try lia.
    + apply (flushed_iff d b N f); auto; lia.
    + apply (stores_iff d b OK). auto.
    + apply in_cell_iff; auto. lia.
Qed.

Lemma gap_free d b procs e n1 n n2 q1 q2 : fdiag_ok d b -> edges_ok d b procs e ->
  (n1 <= n <= n2)%Z -> (q1 < procs)%nat -> (q2 < procs)%nat ->
  seen d b (e n1 q1) (e n1 (S q1)) n1 -> seen d b (e n2 q2) (e n2 (S q2)) n2 ->
  (forall q, (0 < q < procs)%nat -> ~ snapshot_event d b (IZR n * f_dt d) (e n q)) ->
  exists q, (q < procs)%nat /\ seen d b (e n q) (e n (S q)) n.
Proof.
  intros OK EO Hn Hq1 Hq2 S1 S2 NE. apply (stores_iff d b OK) in S1, S2.
  unfold stores in S1, S2. cbn zeta in S1, S2. rewrite !andb_true_iff, !Rlt_bool_iff in S1, S2.
  destruct S1 as [[[A1 A2] A3] A4], S2 as [[[B1 B2] B3] B4].
  pose proof (relative d b OK procs e EO q2 n n2 ltac:(lia)) as Q1. pose proof (relative d b OK procs e EO (S q1) n1 n ltac:(lia)) as Q2.
  pose proof (lab_decr d b OK n1 n ltac:(lia)) as L1. pose proof (lab_decr d b OK n n2 ltac:(lia)) as L2.
  set (P := fz_boost d (IZR n * f_dt d)) in *.
  assert (Lo : e n 0%nat < P).
  { pose proof (edge_mono d b procs e EO n 0 q2 ltac:(lia)). cbn [Nat.add] in H. lra. }
  assert (Hi : P < e n procs).
  { pose proof (edge_mono d b procs e EO n (S q1) (procs - S q1) ltac:(lia)). replace (S q1 + (procs - S q1))%nat with procs in H by lia. lra. }
  assert (G : forall k, (k <= procs)%nat -> P < e n k -> exists q, (q < k)%nat /\ e n q < P < e n (S q)).
  { induction k; intros Hk H; [lra|]. destruct (Rtotal_order P (e n k)) as [L|[E|L]].
    - destruct (IHk ltac:(lia) L) as [q [Hq H']]. exists q. split; [lia|auto].
    - destruct k; [lra|]. exfalso. apply (NE (S k)); [lia|]. apply (event_iff d b OK). symmetry. exact E.
    - exists k. split; [lia|lra]. }
  destruct (G procs (le_n _) Hi) as [q [Hq [X1 X2]]]. exists q. split; auto. apply (stores_iff d b OK).
  unfold stores. cbn zeta. rewrite !andb_true_iff, !Rlt_bool_iff. fold P. repeat split; lra.
Qed.

Lemma weights z zmin dz offset : 0 < dz -> zmin + dz / 2 <= z ->
  let '(iz, Sz) := slice_shape z zmin dz offset in
  0 <= Sz <= 1 /\ (offset <= iz)%Z /\
  zmin + (IZR (iz - offset) + 1 / 2) * dz <= z < zmin + (IZR (iz - offset) + 3 / 2) * dz.
Proof.
  intros Hdz Hz. unfold slice_shape. set (s := (z - zmin - 1 / 2 * dz) / dz).
  assert (Hs : 0 <= s) by (apply Rle_mult_inv_pos; lra).
  assert (E : z = zmin + (s + 1 / 2) * dz) by (unfold s; field; lra).
  rewrite Ztrunc_floor by auto. pose proof (Zfloor_lb s). pose proof (Zfloor_ub s).
  split; [lra|]. split; [pose proof (Zfloor_lub 0 s ltac:(lra)); lia|].
  replace (Zfloor s + offset - offset)%Z with (Zfloor s) by lia. rewrite E. split.
  - apply Rplus_le_compat_l, Rmult_le_compat_r; lra.
  - apply Rplus_lt_compat_l, Rmult_lt_compat_r; lra.
Qed.

Lemma linear z zmin dz offset u v : 0 < dz ->
  let '(iz, Sz) := slice_shape z zmin dz offset in
  extract_slice_cpu (fun j => u + v * (zmin + (IZR (j - offset) + 1 / 2) * dz)) iz Sz = u + v * z.
Proof.
  intros Hdz. unfold slice_shape. set (s := (z - zmin - 1 / 2 * dz) / dz).
  assert (E : z = zmin + (s + 1 / 2) * dz) by (unfold s; field; lra).
  unfold extract_slice_cpu. replace (Ztrunc s + offset - offset)%Z with (Ztrunc s) by lia.
  replace (Ztrunc s + offset + 1 - offset)%Z with (Ztrunc s + 1)%Z by lia. rewrite plus_IZR. rewrite E. ring.
Qed.

Lemma transform_add d w f g : transform_fields d (f_add w f g) = f_add w (transform_fields d f) (transform_fields d g).
Proof. unfold transform_fields, f_add; cbn. f_equal; ring. Qed.
Lemma transform_zero d : transform_fields d f_zero = f_zero.
Proof. unfold transform_fields, f_zero; cbn. f_equal; ring. Qed.
Lemma transform_modes d theta l : forall m,
  modes_at theta m (map (transform_fields d) l) = transform_fields d (modes_at theta m l).
Proof.
  assert (H : forall n l m, (length l <= n)%nat -> modes_at theta m (map (transform_fields d) l) = transform_fields d (modes_at theta m l)).
  { induction n; intros [|re [|im r]] m Hl; cbn in Hl; cbn [map modes_at]; rewrite ?transform_zero; auto; try lia.
    rewrite !transform_add, IHn by lia. reflexivity. }
  intros m. apply (H (length l)). auto.
Qed.
Lemma transform_at_angle d theta l : at_angle theta (map (transform_fields d) l) = transform_fields d (at_angle theta l).
Proof.
  destruct l; cbn [map at_angle]; rewrite ?transform_zero; auto. rewrite transform_modes, transform_add. reflexivity.
Qed.
Lemma invariants d b f : fdiag_ok d b -> let f' := transform_fields d f in
  E_dot_B f' = E_dot_B f /\ E2_c2B2 (f_c d) f' = E2_c2B2 (f_c d) f /\ c2rho2_J2 (f_c d) f' = c2rho2_J2 (f_c d) f.
Proof.
  intros OK. cbn zeta. pose proof (fbeta_eq d b OK) as Hb. destruct OK as [[G [B E]] [B0 [C0 _]]].
  unfold E_dot_B, E2_c2B2, c2rho2_J2, transform_fields; cbn. rewrite Hb. split; [|split].
  - transitivity (f_g d * f_g d * (1 - b * b) * (fEr f * fBr f + fEt f * fBt f) + fEz f * fBz f); [field; lra|]. rewrite E. ring.
  - transitivity (f_g d * f_g d * (1 - b * b) * (fEr f ^ 2 + fEt f ^ 2 - f_c d ^ 2 * (fBr f ^ 2 + fBt f ^ 2)) + fEz f ^ 2 - f_c d ^ 2 * fBz f ^ 2); [field; lra|]. rewrite E. ring.
  - transitivity (f_g d * f_g d * (1 - b * b) * (f_c d ^ 2 * frho f ^ 2 - fJz f ^ 2) - fJr f ^ 2 - fJt f ^ 2); [field; lra|]. rewrite E. ring.
Qed.

(** * Cases *)
Definition ex_f (period : Z) : fdiag := {| f_c := 3; f_g := 5 / 4; f_dt := 1; f_t := 5; f_zmin := 0; f_zmax := 30; f_period := period |}.
Lemma ex_f_ok period : (0 < period)%Z -> fdiag_ok (ex_f period) (3 / 5).
Proof. intros. unfold fdiag_ok, boost_ok; cbn. repeat split; auto; lra. Qed.
(** Two processes at rest, with a cut at 10. *)
Definition ex_e (n : Z) (q : nat) : R := match q with O => 0 | S O => 10 | _ => 25 + (INR q - 2) end.
Lemma ex_e_ok period : edges_ok (ex_f period) (3 / 5) 2 ex_e.
Proof.
  split.
  - intros n [|[|q]] Hq; cbn; try lra; lia.
  - intros n q. unfold ex_e. cbn. destruct q as [|[|q]]; lra.
Qed.
Lemma ex_dz period : (0 < period)%Z -> dz_lab (ex_f period) = 4.
Proof. intros H. unfold dz_lab, f_inv_beta. rewrite (fbeta_eq _ _ (ex_f_ok period H)). unfold f_inv_gamma; cbn. field. Qed.
Lemma ex_event period n z : snapshot_event (ex_f period) (3 / 5) (IZR n * 1) z <-> z = 20 - 5 * IZR n.
Proof. unfold snapshot_event, lorentz; cbn. split; intros; lra. Qed.
Lemma ex_seen period lo hi n : seen (ex_f period) (3 / 5) lo hi n <-> lo < 20 - 5 * IZR n < hi /\ 0 < 25 - 4 * IZR n < 30.
Proof.
  unfold seen. split.
  - intros [z [H1 [H2 H3]]]. apply ex_event in H1. subst z. unfold lab_z, lorentz in H3; cbn in H3. lra.
  - intros [H1 H2]. exists (20 - 5 * IZR n). split; [apply ex_event; reflexivity|]. split; [auto|]. unfold lab_z, lorentz; cbn. lra.
Qed.
Lemma ex_cell period n k : in_cell (ex_f period) (3 / 5) 4 n k <-> IZR k * 4 <= 25 - 4 * IZR n < IZR (k + 1) * 4.
Proof.
  unfold in_cell. split.
  - intros [z [H1 H2]]. apply ex_event in H1. subst z. unfold lab_z, lorentz in H2; cbn in H2. lra.
  - intros H. exists (20 - 5 * IZR n). split; [apply ex_event; reflexivity|]. unfold lab_z, lorentz; cbn. lra.
Qed.
