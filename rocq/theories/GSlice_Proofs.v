(** Proofs of C98. *)
From Coq Require Import Reals Lra.
From Flocq Require Import Core.Core.
From Coquelicot Require Import Complex.
From Verif Require Import Base Decomp_Proofs Chunk_Model Chunk_Proofs Sort_Model Sort_Proofs BField_Model GSlice_Model GSlice_Spec.
Open Scope Z_scope.

Lemma key_eqb_spec a b : reflect (a = b) (key_eqb a b).
Proof.
  destruct a as [[a1 a2] a3], b as [[b1 b2] b3]. unfold key_eqb. cbn [fst snd].
  destruct (Z.eqb_spec a1 b1), (Z.eqb_spec a2 b2), (Z.eqb_spec a3 b3); cbn [andb]; constructor; congruence.
Qed.
Lemma writes_none ws : forall (a : key -> R) k, (forall w, In w ws -> fst w <> k) -> fold_left write_key ws a k = a k.
Proof.
  induction ws as [|w ws IH]; intros a k H; [reflexivity|]. cbn [fold_left]. rewrite IH by (intros; apply H; right; assumption).
  unfold write_key. destruct (key_eqb_spec k (fst w)) as [E|]; [|reflexivity]. exfalso. apply (H w); [left; reflexivity|congruence].
Qed.
Lemma writes_val ws : forall (a : key -> R) k v, (forall w, In w ws -> fst w = k -> snd w = v) -> (exists w, In w ws /\ fst w = k) ->
  fold_left write_key ws a k = v.
Proof.
  induction ws as [|w ws IH]; intros a k v H [w0 [Hin Ek]]; [destruct Hin|]. cbn [fold_left].
  assert (KD : forall x y : key, {x = y} + {x <> y}) by (intros x y; destruct (key_eqb_spec x y); [left|right]; assumption).
  destruct (in_dec KD k (map fst ws)) as [I|I].
  - apply in_map_iff in I as (w1 & E1 & I1). apply IH; [intros; apply H; [right; assumption|assumption]|]. exists w1. auto.
  - rewrite writes_none by (intros w1 I1 E1; apply I; apply in_map_iff; exists w1; auto).
    destruct Hin as [->|Hin]; [|exfalso; apply I; apply in_map_iff; exists w0; auto].
    unfold write_key. destruct (key_eqb_spec k (fst w0)) as [_|E]; [|congruence]. apply H; [left; reflexivity|exact Ek].
Qed.

(** ** One launch *)
Definition entry (Sz : R) (f : Z -> Z -> Z -> C) (iz m : Z) (k : key) : option R :=
  let '(q, im, ir) := k in
  if m =? 0 then (if im =? 0 then Some (Sz * Re (f q iz ir) + (1 - Sz) * Re (f q (iz + 1)%Z ir))%R else None)
  else if im =? 2 * m - 1 then Some (Sz * (2 * Re (f q iz ir)) + (1 - Sz) * (2 * Re (f q (iz + 1)%Z ir)))%R
  else if im =? 2 * m then Some (Sz * (2 * Im (f q iz ir)) + (1 - Sz) * (2 * Im (f q (iz + 1)%Z ir)))%R
  else None.
Lemma thread_write Nr iz Sz f m t w : 0 <= m -> In w (extract_slice_cuda Nr iz Sz f m t) ->
  entry Sz f iz m (fst w) = Some (snd w) /\ snd (fst w) = t /\ t < Nr /\ 0 <= fst (fst (fst w)) < 10.
Proof.
  intros Hm H. unfold extract_slice_cuda in H. destruct (Z.ltb_spec t Nr); [|destruct H].
  unfold entry. rewrite Z.gtb_ltb in H. destruct (Z.ltb_spec 0 m).
  - apply in_app_or in H as [H|H]; apply in_map_iff in H as (q & <- & Hq); apply in_range in Hq; cbn [fst snd].
    + destruct (Z.eqb_spec m 0); [lia|]. rewrite Z.eqb_refl. split; [f_equal; ring|]. unfold n_fields in Hq. lia.
    + destruct (Z.eqb_spec m 0); [lia|]. replace (2 * m - 1 + 1 =? 2 * m - 1) with false by lia. replace (2 * m - 1 + 1 =? 2 * m) with true by lia.
      split; [f_equal; ring|]. unfold n_fields in Hq. lia.
  - rewrite app_nil_r in H. apply in_map_iff in H as (q & <- & Hq); apply in_range in Hq; cbn [fst snd].
    assert (m = 0) as -> by lia. cbn [Z.eqb]. split; [reflexivity|]. unfold n_fields in Hq. lia.
Qed.
Lemma thread_writes_all Nr iz Sz f m k v : 0 <= m -> entry Sz f iz m k = Some v -> 0 <= fst (fst k) < 10 -> 0 <= snd k < Nr ->
  exists w, In w (extract_slice_cuda Nr iz Sz f m (snd k)) /\ fst w = k.
Proof.
  intros Hm E Hq Hr. destruct k as [[q im] ir]. cbn [fst snd] in *. unfold extract_slice_cuda.
  destruct (Z.ltb_spec ir Nr); [|lia]. unfold entry in E. rewrite Z.gtb_ltb. destruct (Z.eqb_spec m 0) as [->|Hn].
  - cbn [Z.ltb Z.compare]. destruct (Z.eqb_spec im 0) as [->|]; [|discriminate].
    eexists. split; [apply in_or_app; left; apply in_map_iff; exists q; split; [reflexivity|apply in_range; unfold n_fields; lia]|reflexivity].
  - destruct (Z.ltb_spec 0 m); [|lia]. destruct (Z.eqb_spec im (2 * m - 1)) as [->|].
    + eexists. split; [apply in_or_app; left; apply in_map_iff; exists q; split; [reflexivity|apply in_range; unfold n_fields; lia]|reflexivity].
    + destruct (Z.eqb_spec im (2 * m)) as [->|]; [|discriminate].
      eexists. split; [apply in_or_app; right; apply in_map_iff; exists q; split; [reflexivity|apply in_range; unfold n_fields; lia]|].
      cbn [fst]. f_equal. f_equal. lia.
Qed.
Lemma launch_entry Nr iz Sz f m a a' k : 0 <= m -> 0 <= Nr < 2 ^ 52 -> launched_slice Nr (extract_slice_cuda Nr iz Sz f m) a a' ->
  0 <= fst (fst k) < 10 -> 0 <= snd k < Nr ->
  a' k = match entry Sz f iz m k with Some v => v | None => a k end.
Proof.
  intros Hm HN (ws & P & ->) Hq Hr. destruct (entry Sz f iz m k) as [v|] eqn:E.
  - apply writes_val.
    + intros w Hw Ek. apply (Permutation_in _ P) in Hw. apply in_flat_map in Hw as (t & _ & Hw).
      destruct (thread_write _ _ _ _ _ _ _ Hm Hw) as [E1 _]. rewrite Ek, E in E1. congruence.
    + destruct (thread_writes_all Nr iz Sz f m k v Hm E Hq Hr) as (w & Hw & Ek). exists w. split; [|exact Ek].
      apply (Permutation_in _ (Permutation_sym P)). apply in_flat_map. exists (snd k). split; [|exact Hw].
      apply threads_in; lia.
  - apply writes_none. intros w Hw Ek. apply (Permutation_in _ P) in Hw. apply in_flat_map in Hw as (t & _ & Hw).
    destruct (thread_write _ _ _ _ _ _ _ Hm Hw) as [E1 _]. rewrite Ek, E in E1. discriminate.
Qed.

(** ** All the modes *)
Definition full_entry (Sz : R) (F : grids) (iz : Z) (k : key) : R :=
  let '(q, im, ir) := k in
  let D i := if im =? 0 then Re (F q 0 i ir) else if Z.odd im then (2 * Re (F q ((im + 1) / 2)%Z i ir))%R else (2 * Im (F q (im / 2)%Z i ir))%R in
  (Sz * D iz + (1 - Sz) * D (iz + 1)%Z)%R.
Lemma entry_full Sz F iz m k v : 0 <= m -> entry Sz (fun q => F q m) iz m k = Some v -> v = full_entry Sz F iz k.
Proof.
  destruct k as [[q im] ir]. intros Hm. unfold entry, full_entry. destruct (Z.eqb_spec m 0) as [->|Hn].
  - destruct (Z.eqb_spec im 0) as [->|]; [|discriminate]. intros E. injection E as <-. reflexivity.
  - destruct (Z.eqb_spec im (2 * m - 1)) as [->|].
    + intros E. injection E as <-. destruct (Z.eqb_spec (2 * m - 1) 0); [lia|].
      replace (Z.odd (2 * m - 1)) with true by (symmetry; rewrite <- Z.negb_even; replace (2 * m - 1) with (1 + 2 * (m - 1)) by lia; rewrite Z.even_add_mul_2; reflexivity).
      replace (2 * m - 1 + 1) with (m * 2) by lia. rewrite Z.div_mul by lia. reflexivity.
    + destruct (Z.eqb_spec im (2 * m)) as [->|]; [|discriminate]. intros E. injection E as <-.
      destruct (Z.eqb_spec (2 * m) 0); [lia|]. rewrite Z.odd_mul. cbn [Z.odd andb]. replace (2 * m) with (m * 2) by lia.
      rewrite Z.div_mul by lia. reflexivity.
Qed.
Lemma gpu_modes F Nr iz Sz ms : 0 <= Nr < 2 ^ 52 -> (forall m, In m ms -> 0 <= m) -> forall a a', extract_slice_gpu F Nr iz Sz ms a a' ->
  forall k, 0 <= fst (fst k) < 10 -> 0 <= snd k < Nr ->
  (a k = full_entry Sz F iz k \/ exists m v, In m ms /\ entry Sz (fun q => F q m) iz m k = Some v) -> a' k = full_entry Sz F iz k.
Proof.
  intros HN Hms a a' H. induction H as [a|m ms a a1 a' H1 H2 IH]; intros k Hq Hr H.
  - destruct H as [H|(m & v & [] & _)]. exact H.
  - pose proof (Hms m ltac:(left; reflexivity)) as Hm.
    apply IH; [intros; apply Hms; right; assumption|exact Hq|exact Hr|].
    rewrite (launch_entry _ _ _ _ _ _ _ k Hm HN H1 Hq Hr). destruct (entry Sz (fun q => F q m) iz m k) as [v|] eqn:E.
    + left. exact (entry_full _ _ _ _ _ _ Hm E).
    + destruct H as [H|(m' & v & [->|I] & E')]; [left; exact H|congruence|right; exists m', v; auto].
Qed.
Lemma gpu_entry F n Nr iz Sz a a' k : 0 <= Nr < 2 ^ 52 -> extract_slice_gpu F Nr iz Sz (range (Z.of_nat n + 1)) a a' -> in_slice n Nr k ->
  a' k = full_entry Sz F iz k.
Proof.
  intros HN H (Hq & Hi & Hr). apply (gpu_modes F Nr iz Sz (range (Z.of_nat n + 1)) HN) with (a := a); auto.
  - intros m Hm. apply in_range in Hm. lia.
  - right. destruct k as [[q im] ir]. cbn [fst snd] in *. destruct (Z.eq_dec im 0) as [->|Hn].
    + exists 0. eexists. split; [apply in_range; lia|]. reflexivity.
    + exists ((im + 1) / 2). pose proof (Z.div_mod (im + 1) 2 ltac:(lia)) as D. pose proof (Z.mod_pos_bound (im + 1) 2 ltac:(lia)) as B.
      set (h := (im + 1) / 2) in *. destruct (Z.eq_dec im (2 * h - 1)) as [E|E].
      * eexists. split; [apply in_range; lia|]. unfold entry. destruct (Z.eqb_spec h 0); [lia|]. destruct (Z.eqb_spec im (2 * h - 1)); [reflexivity|lia].
      * eexists. split; [apply in_range; lia|]. unfold entry. destruct (Z.eqb_spec h 0); [lia|]. destruct (Z.eqb_spec im (2 * h - 1)); [lia|].
        destruct (Z.eqb_spec im (2 * h)); [reflexivity|lia].
Qed.

(** ** CPU *)
Definition data_entry (F : grids) (q iz im ir : Z) : R :=
  if im =? 0 then Re (F q 0 iz ir) else if Z.odd im then (2 * Re (F q ((im + 1) / 2)%Z iz ir))%R else (2 * Im (F q (im / 2)%Z iz ir))%R.
Lemma Re_twice z : Re (Cmult (RtoC 2) z) = (2 * Re z)%R.
Proof. destruct z. unfold Re, Cmult, RtoC. cbn. ring. Qed.
Lemma Im_twice z : Im (Cmult (RtoC 2) z) = (2 * Im z)%R.
Proof. destruct z. unfold Im, Cmult, RtoC. cbn. ring. Qed.
Lemma dataset_entry F n Nz q iz empty : iz < Nz ->
  exists d, get_dataset F (Z.of_nat n + 1) Nz q iz empty = Ok d /\ forall im ir, 0 <= im <= 2 * Z.of_nat n -> d im ir = data_entry F q iz im ir.
Proof.
  intros H. unfold get_dataset. destruct (Z.ltb_spec iz Nz); [|lia]. eexists. split; [reflexivity|].
  replace (Z.of_nat n + 1 - 1) with (Z.of_nat n) by lia. induction n as [|n IH]; intros im ir Him.
  - assert (im = 0) as -> by lia. reflexivity.
  - replace (Z.of_nat (S n)) with (Z.of_nat n + 1) by lia. rewrite range_succ by lia. rewrite map_app, fold_left_app. cbn [map fold_left].
    unfold set_row at 1. destruct (Z.eqb_spec im (2 * (Z.of_nat n + 1))) as [->|N1].
    { rewrite Im_twice. unfold data_entry. destruct (Z.eqb_spec (2 * (Z.of_nat n + 1)) 0); [lia|]. rewrite Z.odd_mul. cbn [Z.odd andb].
      replace (2 * (Z.of_nat n + 1)) with ((Z.of_nat n + 1) * 2) by lia. rewrite Z.div_mul by lia. reflexivity. }
    unfold set_row at 1. destruct (Z.eqb_spec im (2 * (Z.of_nat n + 1) - 1)) as [->|N2].
    { rewrite Re_twice. unfold data_entry. destruct (Z.eqb_spec (2 * (Z.of_nat n + 1) - 1) 0); [lia|].
      replace (Z.odd (2 * (Z.of_nat n + 1) - 1)) with true by (symmetry; rewrite <- Z.negb_even; replace (2 * (Z.of_nat n + 1) - 1) with (1 + 2 * Z.of_nat n) by lia; rewrite Z.even_add_mul_2; reflexivity).
      replace (2 * (Z.of_nat n + 1) - 1 + 1) with ((Z.of_nat n + 1) * 2) by lia. rewrite Z.div_mul by lia. reflexivity. }
    apply IH. lia.
Qed.
Lemma cpu_entry F n Nz iz Sz empty sl0 : iz + 1 < Nz ->
  exists sl, extract_slice_all_cpu F (Z.of_nat n + 1) Nz iz Sz empty sl0 = Ok sl /\
  forall k, 0 <= fst (fst k) < 10 -> 0 <= snd (fst k) <= 2 * Z.of_nat n -> sl k = full_entry Sz F iz k.
Proof.
  intros H. unfold extract_slice_all_cpu.
  assert (G : forall p, 0 <= p -> exists sl,
    fold_left (fun acc q => bind acc (fun sl => bind (get_dataset F (Z.of_nat n + 1) Nz q iz empty) (fun d0 =>
      bind (get_dataset F (Z.of_nat n + 1) Nz q (iz + 1) empty) (fun d1 =>
      Ok (fun k : key => if fst (fst k) =? q then (Sz * d0 (snd (fst k)) (snd k) + (1 - Sz) * d1 (snd (fst k)) (snd k))%R else sl k)))))
    (range p) (Ok sl0) = Ok sl /\ forall k, 0 <= fst (fst k) < p -> 0 <= snd (fst k) <= 2 * Z.of_nat n -> sl k = full_entry Sz F iz k).
  { apply natlike_ind.
    - exists sl0. split; [reflexivity|]. intros k Hk. lia.
    - intros p Hp (sl & E & IH). replace (Z.succ p) with (p + 1) by lia. rewrite range_succ by exact Hp. rewrite fold_left_app, E. cbn [fold_left bind].
      destruct (dataset_entry F n Nz p iz empty ltac:(lia)) as (d0 & E0 & H0). destruct (dataset_entry F n Nz p (iz + 1) empty ltac:(lia)) as (d1 & E1 & H1).
      rewrite E0, E1. cbn [bind]. eexists. split; [reflexivity|]. intros k Hk Hi. cbv beta. destruct (Z.eqb_spec (fst (fst k)) p) as [Ep|Np].
      + rewrite H0, H1 by lia. destruct k as [[q im] ir]. cbn [fst snd] in *. subst q. reflexivity.
      + apply IH; lia. }
  apply (G 10). lia.
Qed.

(** ** The value at an angle *)
Lemma sum1_ext n f g : (forall m, (1 <= m <= Z.of_nat n) -> f m = g m) -> sum1 n f = sum1 n g.
Proof. induction n as [|n IH]; intros H; [reflexivity|]. cbn [sum1]. rewrite IH, H; [reflexivity|lia|]. intros m Hm. apply H. lia. Qed.
Lemma sum1_lin n a b f g : (a * sum1 n f + b * sum1 n g)%R = sum1 n (fun m => a * f m + b * g m)%R.
Proof. induction n as [|n IH]; [cbn [sum1]; ring|]. cbn [sum1]. rewrite <- IH. ring. Qed.
Lemma odd_low m : Z.odd (2 * m - 1) = true.
Proof. rewrite <- Z.negb_even. replace (2 * m - 1) with (1 + 2 * (m - 1)) by lia. rewrite Z.even_add_mul_2. reflexivity. Qed.
Lemma full_read F n iz Sz sl q ir theta : (forall im, 0 <= im <= 2 * Z.of_nat n -> sl (q, im, ir) = full_entry Sz F iz (q, im, ir)) ->
  read_at sl n q ir theta = (Sz * field_at F n q iz ir theta + (1 - Sz) * field_at F n q (iz + 1)%Z ir theta)%R.
Proof.
  intros H. unfold read_at, field_at. rewrite H by lia.
  rewrite !Rmult_plus_distr_l.
  replace (sum1 n (fun m => sl (q, (2 * m - 1)%Z, ir) * cos (IZR m * theta) + sl (q, (2 * m)%Z, ir) * sin (IZR m * theta))%R) with
    (Sz * sum1 n (fun m => 2 * Re (Cmult (F q m iz ir) (cos (IZR m * theta), - sin (IZR m * theta))%R)) +
     (1 - Sz) * sum1 n (fun m => 2 * Re (Cmult (F q m (iz + 1)%Z ir) (cos (IZR m * theta), - sin (IZR m * theta))%R)))%R.
  { unfold full_entry. cbn [Z.eqb]. ring. }
  rewrite sum1_lin. apply sum1_ext. intros m Hm. rewrite !H by lia. unfold full_entry.
  destruct (Z.eqb_spec (2 * m - 1) 0); [lia|]. destruct (Z.eqb_spec (2 * m) 0); [lia|]. rewrite odd_low. rewrite Z.odd_mul. cbn [Z.odd andb].
  replace (2 * m - 1 + 1) with (m * 2) by lia. replace (2 * m) with (m * 2) by lia. rewrite Z.div_mul by lia.
  destruct (F q m iz ir) as [a b]. destruct (F q m (iz + 1)%Z ir) as [a' b']. unfold Re, Im, Cmult. cbn [fst snd]. ring.
Qed.

(** ** The Lorentz transform *)
Lemma read_comb sl' sl n q q1 q2 ir theta a b : (forall im, sl' (q, im, ir) = a * sl (q1, im, ir) + b * sl (q2, im, ir))%R ->
  read_at sl' n q ir theta = (a * read_at sl n q1 ir theta + b * read_at sl n q2 ir theta)%R.
Proof.
  intros H. unfold read_at. rewrite H. rewrite !Rmult_plus_distr_l.
  rewrite (sum1_ext n _ (fun m => (a * (sl (q1, (2 * m - 1)%Z, ir) * cos (IZR m * theta) + sl (q1, (2 * m)%Z, ir) * sin (IZR m * theta)) +
    b * (sl (q2, (2 * m - 1)%Z, ir) * cos (IZR m * theta) + sl (q2, (2 * m)%Z, ir) * sin (IZR m * theta)))%R)).
  2:{ intros m _. rewrite !H. ring. }
  rewrite <- sum1_lin. ring.
Qed.
Lemma fields_eq a b c d e f g h i j a' b' c' d' e' f' g' h' i' j' : a = a' -> b = b' -> c = c' -> d = d' -> e = e' -> f = f' -> g = g' -> h = h' ->
  i = i' -> j = j' -> Build_fields a b c d e f g h i j = Build_fields a' b' c' d' e' f' g' h' i' j'.
Proof. congruence. Qed.
Ltac at_q := unfold by_index; match goal with |- context [Z.to_nat ?q] => let n := eval compute in (Z.to_nat q) in change (Z.to_nat q) with n end;
  cbn [nth]; unfold transform_fields, at_key; cbn [fEr fEt fEz fBr fBt fBz fJr fJt fJz frho]; ring.
Lemma lab_read d sl n ir theta : read_all (to_lab_frame d sl) n ir theta = transform_fields d (read_all sl n ir theta).
Proof.
  assert (Z1 : forall q im, by_index (transform_fields d (at_key sl im ir)) q = to_lab_frame d sl (q, im, ir)) by reflexivity.
  unfold read_all, transform_fields. cbn [fEr fEt fEz fBr fBt fBz fJr fJt fJz frho]. apply fields_eq.
  - rewrite (read_comb _ sl n 0 0 4 ir theta (f_g d) (f_g d * (f_c d * f_beta d))); [ring|]. intros im. rewrite <- Z1. at_q.
  - rewrite (read_comb _ sl n 1 1 3 ir theta (f_g d) (- f_g d * (f_c d * f_beta d))); [ring|]. intros im. rewrite <- Z1. at_q.
  - rewrite (read_comb _ sl n 2 2 2 ir theta 1 0); [ring|]. intros im. rewrite <- Z1. at_q.
  - rewrite (read_comb _ sl n 3 3 1 ir theta (f_g d) (- f_g d * (f_beta d / f_c d))); [ring|]. intros im. rewrite <- Z1. at_q.
  - rewrite (read_comb _ sl n 4 4 0 ir theta (f_g d) (f_g d * (f_beta d / f_c d))); [ring|]. intros im. rewrite <- Z1. at_q.
  - rewrite (read_comb _ sl n 5 5 5 ir theta 1 0); [ring|]. intros im. rewrite <- Z1. at_q.
  - rewrite (read_comb _ sl n 6 6 6 ir theta 1 0); [ring|]. intros im. rewrite <- Z1. at_q.
  - rewrite (read_comb _ sl n 7 7 7 ir theta 1 0); [ring|]. intros im. rewrite <- Z1. at_q.
  - rewrite (read_comb _ sl n 8 8 9 ir theta (f_g d) (f_g d * (f_c d * f_beta d))); [ring|]. intros im. rewrite <- Z1. at_q.
  - rewrite (read_comb _ sl n 9 9 8 ir theta (f_g d) (f_g d * (f_beta d / f_c d))); [ring|]. intros im. rewrite <- Z1. at_q.
Qed.

(** ** No row after the plane *)
Lemma cpu_beyond F Nm iz Sz empty sl0 Nz : iz < Nz <= iz + 1 -> extract_slice_all_cpu F Nm Nz iz Sz empty sl0 = Err IndexError.
Proof.
  intros H. unfold extract_slice_all_cpu.
  assert (G : forall q, get_dataset F Nm Nz q (iz + 1) empty = Err IndexError) by (intros q; unfold get_dataset; destruct (Z.ltb_spec (iz + 1) Nz); [lia|reflexivity]).
  assert (K : forall l acc, (acc = Err IndexError \/ l <> []) -> acc = Err IndexError \/ (exists s, acc = Ok s) ->
    fold_left (fun acc q => bind acc (fun sl => bind (get_dataset F Nm Nz q iz empty) (fun d0 =>
      bind (get_dataset F Nm Nz q (iz + 1) empty) (fun d1 =>
      Ok (fun k : key => if fst (fst k) =? q then (Sz * d0 (snd (fst k)) (snd k) + (1 - Sz) * d1 (snd (fst k)) (snd k))%R else sl k))))) l acc = Err IndexError).
  { induction l as [|q l IH]; intros acc H1 H2.
    - destruct H1 as [H1|H1]; [exact H1|congruence].
    - cbn [fold_left]. apply IH.
      + left. destruct H2 as [->|[s ->]]; [reflexivity|]. cbn [bind]. rewrite G. unfold get_dataset. destruct (iz <? Nz) eqn:E; [reflexivity|lia].
      + left. destruct H2 as [->|[s ->]]; [reflexivity|]. cbn [bind]. rewrite G. unfold get_dataset. destruct (iz <? Nz) eqn:E; [reflexivity|lia]. }
  apply K; [right; discriminate|right; eexists; reflexivity].
Qed.
