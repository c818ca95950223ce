(** Proofs on the transforms of the GPU and of MKL. *)
From Verif Require Import Base Fourier_Lib Deposit_Spec Deposit_Proofs Inject_Proofs Hankel_Model Hankel_Spec Hankel_Proofs Cuda_Model Cuda_Proofs GSpect_Proofs GTrans_Model GTrans_Spec.
From Coq Require Import Reals Lra Lia Bool.
From Coquelicot Require Import Complex.
Open Scope Z_scope.

Lemma launch_own : forall (own : tloc -> option (Z * Z)) Nz Nr kx ky thr (M M' : tmem),
  grid_ok Nz Nr -> 0 <= kx <= 20 -> 0 <= ky <= 20 ->
  (forall i j, ~ (i < Nz /\ j < Nr) -> thr i j = Done) ->
  (forall i j, 0 <= i < Nz -> 0 <= j < Nr -> confined (mine own (i, j)) (shared own) (thr i j)) ->
  (forall l i j, own l = Some (i, j) -> 0 <= i < Nz /\ 0 <= j < Nr) ->
  executes tloc_dec (launch_2d (cuda_tpb_bpg_2d Nz Nr (2 ^ kx) (2 ^ ky)) thr) M M' ->
  forall l, M' l = match own l with None => M l | Some t => run tloc_dec (thr (fst t) (snd t)) M l end.
Proof.
  intros own Nz Nr kx ky thr M M' [HNz HNr] Hkx Hky Hd Hc Ho He l.
  assert (He' := He). unfold cuda_tpb_bpg_2d in He'.
  rewrite (launch_final tloc_dec own _ _ _ _ thr M M') with (2 := He').
  - change ((bpg Nz (2 ^ kx), bpg Nr (2 ^ ky)), (2 ^ kx, 2 ^ ky)) with (cuda_tpb_bpg_2d Nz Nr (2 ^ kx) (2 ^ ky)).
    destruct (own l) as [[i j]|] eqn:E; [|reflexivity]. destruct (Ho _ _ _ E) as [Hi Hj].
    destruct (in_dec zz_dec (i, j) (grid_2d (cuda_tpb_bpg_2d Nz Nr (2 ^ kx) (2 ^ ky)))) as [_|n]; [reflexivity|].
    exfalso. apply n. apply covers; lia.
  - intros i j Hij. change ((bpg Nz (2 ^ kx), bpg Nr (2 ^ ky)), (2 ^ kx, 2 ^ ky)) with (cuda_tpb_bpg_2d Nz Nr (2 ^ kx) (2 ^ ky)) in Hij.
    apply (grid_nonneg Nz Nr kx ky) in Hij; try lia.
    destruct (Z_lt_le_dec i Nz), (Z_lt_le_dec j Nr); try (rewrite Hd by lia; constructor). apply Hc; lia.
Qed.
Definition inb (n i : Z) : bool := (0 <=? i) && (i <? n).
Lemma inb_true : forall n i, inb n i = true <-> 0 <= i < n.
Proof. intros. unfold inb. rewrite andb_true_iff, Z.leb_le, Z.ltb_lt. lia. Qed.
Lemma inb_in : forall n i, 0 <= i < n -> inb n i = true. Proof. intros; apply inb_true; assumption. Qed.
Lemma inb_out : forall n i, ~ 0 <= i < n -> inb n i = false.
Proof. intros. destruct (inb n i) eqn:E; [|reflexivity]. apply inb_true in E. contradiction. Qed.
Ltac inbs := repeat match goal with |- context [inb ?n ?i] => rewrite (inb_in n i) by lia end; cbn [andb].

Section S.
Context (Nz Nr : Z) (HG : grid_ok Nz Nr).
Let HNz : 0 < Nz. Proof. destruct HG; lia. Qed.
Let HNr : 0 < Nr. Proof. destruct HG; lia. Qed.

Lemma copies : forall v100 own thr (M M' : tmem),
  (forall i j, ~ (i < Nz /\ j < Nr) -> thr i j = Done) ->
  (forall i j, 0 <= i < Nz -> 0 <= j < Nr -> confined (mine own (i, j)) (shared own) (thr i j)) ->
  (forall l i j, own l = Some (i, j) -> 0 <= i < Nz /\ 0 <= j < Nr) ->
  executes tloc_dec (launch_2d (copy_dims Nz Nr v100) thr) M M' ->
  forall l, M' l = match own l with None => M l | Some t => run tloc_dec (thr (fst t) (snd t)) M l end.
Proof.
  intros v100 own thr M M' H1 H2 H3 He. unfold copy_dims in He. destruct v100.
  - change 8 with (2 ^ 3) in He. change 32 with (2 ^ 5) in He. exact (launch_own own Nz Nr 3 5 thr M M' HG ltac:(lia) ltac:(lia) H1 H2 H3 He).
  - change 2 with (2 ^ 1) in He. change 16 with (2 ^ 4) in He. exact (launch_own own Nz Nr 1 4 thr M M' HG ltac:(lia) ltac:(lia) H1 H2 H3 He).
Qed.
Lemma upd_here : forall (M : tmem) l v, upd tloc_dec M l v l = v.
Proof. intros. unfold upd. destruct (tloc_dec l l); [reflexivity|contradiction]. Qed.
Lemma upd_away : forall (M : tmem) l v l', l <> l' -> upd tloc_dec M l v l' = M l'.
Proof. intros. unfold upd. destruct (tloc_dec l l'); [contradiction|reflexivity]. Qed.
Lemma split_index : forall n b i, 0 < n -> 0 <= i < n * b -> 0 <= i mod n < n /\ 0 <= i / n < b /\ i mod n + n * (i / n) = i.
Proof.
  intros n b i Hn Hi. pose proof (Z.mod_pos_bound i n Hn). pose proof (Z.div_mod i n ltac:(lia)).
  assert (0 <= i / n) by (apply Z.div_pos; lia). assert (i / n < b) by (apply Z.div_lt_upper_bound; lia). lia.
Qed.
Lemma join_index : forall n i j, 0 <= i < n -> (i + n * j) mod n = i /\ (i + n * j) / n = j.
Proof.
  intros n i j Hi. rewrite (Z.mul_comm n j), Z_mod_plus_full, Z_div_plus_full by lia. rewrite Z.mod_small, Z.div_small by lia. lia.
Qed.

Lemma to_1d : forall v100 a M M', executes tloc_dec (launch_2d (copy_dims Nz Nr v100) (cuda_copy_2d_to_1d Nz Nr a)) M M' ->
  (forall iz ir, 0 <= iz < Nz -> 0 <= ir < Nr -> M' (B1in (iz + Nz * ir)) = M (T2 a iz ir)) /\ (forall b iz ir, M' (T2 b iz ir) = M (T2 b iz ir)).
Proof.
  intros v100 a M M' He.
  set (own := fun l => match l with B1in i => if inb (Nz * Nr) i then Some (i mod Nz, i / Nz) else None | _ => None end).
  assert (H := copies v100 own (cuda_copy_2d_to_1d Nz Nr a) M M'). cbv beta in H.
  assert (HH := fun A B C => H A B C He). clear H. assert (H := HH
    (fun i j Hn => guard_false Nz Nr i j _ Hn)). clear HH.
  assert (A : forall i j, 0 <= i < Nz -> 0 <= j < Nr -> confined (mine own (i, j)) (shared own) (cuda_copy_2d_to_1d Nz Nr a i j)).
  { intros i j Hi Hj. unfold cuda_copy_2d_to_1d. rewrite guard_true by lia. constructor; [right; reflexivity|]. intros v. constructor; [|constructor].
    unfold mine, own. rewrite inb_in by nia. destruct (join_index Nz i j Hi) as [-> ->]. reflexivity. }
  assert (B : forall l i j, own l = Some (i, j) -> 0 <= i < Nz /\ 0 <= j < Nr).
  { intros l i j. unfold own. destruct l; try discriminate. destruct (inb (Nz * Nr) i0) eqn:E; [|discriminate]. intros [= <- <-].
    apply inb_true in E. destruct (split_index Nz Nr i0 HNz E) as (E1 & E2 & _). auto. }
  specialize (H A B). split.
  - intros iz ir Hz Hr. rewrite H. unfold own. rewrite inb_in by nia. destruct (join_index Nz iz ir Hz) as [-> ->]. cbn [fst snd].
    unfold cuda_copy_2d_to_1d. rewrite guard_true by lia. cbn [run]. apply upd_here.
  - intros b iz ir. rewrite H. reflexivity.
Qed.
Lemma to_2d : forall v100 a M M', executes tloc_dec (launch_2d (copy_dims Nz Nr v100) (cuda_copy_1d_to_2d Nz Nr a)) M M' ->
  (forall iz ir, 0 <= iz < Nz -> 0 <= ir < Nr -> M' (T2 a iz ir) = M (B1out (iz + Nz * ir))) /\ (forall b iz ir, b <> a -> M' (T2 b iz ir) = M (T2 b iz ir)).
Proof.
  intros v100 a M M' He.
  set (own := fun l => match l with T2 b iz ir => if (b =? a) && inb Nz iz && inb Nr ir then Some (iz, ir) else None | _ => None end).
  assert (H := fun A B C => copies v100 own (cuda_copy_1d_to_2d Nz Nr a) M M' A B C He).
  specialize (H (fun i j Hn => guard_false Nz Nr i j _ Hn)).
  assert (A : forall i j, 0 <= i < Nz -> 0 <= j < Nr -> confined (mine own (i, j)) (shared own) (cuda_copy_1d_to_2d Nz Nr a i j)).
  { intros i j Hi Hj. unfold cuda_copy_1d_to_2d. rewrite guard_true by lia. constructor; [right; reflexivity|]. intros v. constructor; [|constructor].
    unfold mine, own. rewrite Z.eqb_refl. inbs. reflexivity. }
  assert (B : forall l i j, own l = Some (i, j) -> 0 <= i < Nz /\ 0 <= j < Nr).
  { intros l i j. unfold own. destruct l; try discriminate. destruct ((a0 =? a) && inb Nz iz && inb Nr ir) eqn:E; [|discriminate]. intros [= <- <-].
    rewrite !andb_true_iff, !inb_true in E. tauto. }
  specialize (H A B). split.
  - intros iz ir Hz Hr. rewrite H. unfold own. rewrite Z.eqb_refl. inbs. cbn [fst snd].
    unfold cuda_copy_1d_to_2d. rewrite guard_true by lia. cbn [run]. apply upd_here.
  - intros b iz ir Hb. rewrite H. unfold own. rewrite (proj2 (Z.eqb_neq b a) Hb). reflexivity.
Qed.
Lemma to_real : forall v100 a d M M', executes tloc_dec (launch_2d (copy_dims Nz Nr v100) (cuda_copy_2dC_to_2dR Nz Nr a d)) M M' ->
  (forall i ir, 0 <= i < 2 * Nz -> 0 <= ir < Nr -> M' (Rin d (i * Nr + ir)) = RtoC (copy_2dC_to_2dR Nz (grid_at M a) i ir))
  /\ (forall b iz ir, M' (T2 b iz ir) = M (T2 b iz ir)).
Proof.
  intros v100 a d M M' He.
  set (own := fun l => match l with Rin d' i => if (d' =? d) && inb (Nr * (2 * Nz)) i then
      Some (if i / Nr <? Nz then i / Nr else i / Nr - Nz, i mod Nr) else None | _ => None end).
  assert (H := fun A B C => copies v100 own (cuda_copy_2dC_to_2dR Nz Nr a d) M M' A B C He).
  specialize (H (fun i j Hn => guard_false Nz Nr i j _ Hn)).
  assert (J : forall i ir, 0 <= i < 2 * Nz -> 0 <= ir < Nr -> own (Rin d (i * Nr + ir)) = Some (if i <? Nz then i else i - Nz, ir)).
  { intros i ir Hi Hr. unfold own. rewrite Z.eqb_refl. rewrite inb_in by nia. cbn [andb].
    replace (i * Nr + ir) with (ir + Nr * i) by ring. destruct (join_index Nr ir i Hr) as [-> ->]. reflexivity. }
  assert (A : forall i j, 0 <= i < Nz -> 0 <= j < Nr -> confined (mine own (i, j)) (shared own) (cuda_copy_2dC_to_2dR Nz Nr a d i j)).
  { intros i j Hi Hj. unfold cuda_copy_2dC_to_2dR. rewrite guard_true by lia. constructor; [right; reflexivity|]. intros v. constructor.
    - unfold mine. rewrite J by lia. rewrite (proj2 (Z.ltb_lt i Nz)) by lia. reflexivity.
    - constructor; [right; reflexivity|]. intros w. constructor; [|constructor]. unfold mine. rewrite J by lia.
      rewrite (proj2 (Z.ltb_ge (i + Nz) Nz)) by lia. do 2 f_equal. lia. }
  assert (B : forall l i j, own l = Some (i, j) -> 0 <= i < Nz /\ 0 <= j < Nr).
  { intros l i j. unfold own. destruct l; try discriminate. destruct ((d0 =? d) && inb (Nr * (2 * Nz)) i0) eqn:E; [|discriminate]. intros [= <- <-].
    rewrite andb_true_iff, inb_true in E. destruct E as [_ E]. destruct (split_index Nr (2 * Nz) i0 HNr E) as (E1 & E2 & _).
    destruct (Z.ltb_spec (i0 / Nr) Nz); lia. }
  specialize (H A B). split.
  - intros i ir Hi Hr. rewrite H, J by assumption. cbn [fst snd]. unfold cuda_copy_2dC_to_2dR, copy_2dC_to_2dR, grid_at.
    destruct (Z.ltb_spec i Nz).
    + rewrite guard_true by lia. cbn [run]. rewrite upd_away, upd_here; [reflexivity|]. intros E. assert ((i + Nz) * Nr = i * Nr) by congruence || (injection E; lia). nia.
    + rewrite guard_true by lia. cbn [run]. replace (i - Nz + Nz) with i by lia. rewrite upd_here. rewrite upd_away by discriminate. reflexivity.
  - intros b iz ir. rewrite H. reflexivity.
Qed.
Lemma to_complex : forall v100 a d M M', executes tloc_dec (launch_2d (copy_dims Nz Nr v100) (cuda_copy_2dR_to_2dC Nz Nr d a)) M M' ->
  (forall iz ir, 0 <= iz < Nz -> 0 <= ir < Nr -> M' (T2 a iz ir) = Cplus (M (Rout d (iz * Nr + ir))) (Cmult Ci (M (Rout d ((iz + Nz) * Nr + ir)))))
  /\ (forall b iz ir, b <> a -> M' (T2 b iz ir) = M (T2 b iz ir)).
Proof.
  intros v100 a d M M' He.
  set (own := fun l => match l with T2 b iz ir => if (b =? a) && inb Nz iz && inb Nr ir then Some (iz, ir) else None | _ => None end).
  assert (H := fun A B C => copies v100 own (cuda_copy_2dR_to_2dC Nz Nr d a) M M' A B C He).
  specialize (H (fun i j Hn => guard_false Nz Nr i j _ Hn)).
  assert (A : forall i j, 0 <= i < Nz -> 0 <= j < Nr -> confined (mine own (i, j)) (shared own) (cuda_copy_2dR_to_2dC Nz Nr d a i j)).
  { intros i j Hi Hj. unfold cuda_copy_2dR_to_2dC. rewrite guard_true by lia. constructor; [right; reflexivity|]. intros v. constructor; [right; reflexivity|].
    intros w. constructor; [|constructor]. unfold mine, own. rewrite Z.eqb_refl. inbs. reflexivity. }
  assert (B : forall l i j, own l = Some (i, j) -> 0 <= i < Nz /\ 0 <= j < Nr).
  { intros l i j. unfold own. destruct l; try discriminate. destruct ((a0 =? a) && inb Nz iz && inb Nr ir) eqn:E; [|discriminate]. intros [= <- <-].
    rewrite !andb_true_iff, !inb_true in E. tauto. }
  specialize (H A B). split.
  - intros iz ir Hz Hr. rewrite H. unfold own. rewrite Z.eqb_refl. inbs. cbn [fst snd].
    unfold cuda_copy_2dR_to_2dC. rewrite guard_true by lia. cbn [run]. apply upd_here.
  - intros b iz ir Hb. rewrite H. unfold own. rewrite (proj2 (Z.eqb_neq b a) Hb). reflexivity.
Qed.
(** Kernels that combine two arrays in place. *)
Lemma in_place : forall thr (f g : C -> C -> C) M M',
  (forall i j, thr i j = if (i <? Nz) && (j <? Nr) then Load (T2 buf_r i j) (fun x => Load (T2 buf_t i j) (fun y =>
     Store (T2 buf_r i j) (f x y) (Store (T2 buf_t i j) (g x y) Done))) else Done) ->
  executes tloc_dec (launch_2d (cuda_tpb_bpg_2d Nz Nr 1 32) thr) M M' ->
  (forall iz ir, 0 <= iz < Nz -> 0 <= ir < Nr -> M' (T2 buf_r iz ir) = f (M (T2 buf_r iz ir)) (M (T2 buf_t iz ir))
     /\ M' (T2 buf_t iz ir) = g (M (T2 buf_r iz ir)) (M (T2 buf_t iz ir)))
  /\ (forall b iz ir, user_array b -> M' (T2 b iz ir) = M (T2 b iz ir)).
Proof.
  intros thr f g M M' Ht He.
  set (own := fun l => match l with T2 b iz ir => if ((b =? buf_r) || (b =? buf_t)) && inb Nz iz && inb Nr ir then Some (iz, ir) else None | _ => None end).
  change 1 with (2 ^ 0) in He. change 32 with (2 ^ 5) in He.
  assert (H := fun A B C => launch_own own Nz Nr 0 5 thr M M' HG ltac:(lia) ltac:(lia) A B C He).
  assert (D : forall i j, ~ (i < Nz /\ j < Nr) -> thr i j = Done) by (intros i j Hn; rewrite Ht; apply guard_false; exact Hn). specialize (H D).
  assert (A : forall i j, 0 <= i < Nz -> 0 <= j < Nr -> confined (mine own (i, j)) (shared own) (thr i j)).
  { intros i j Hi Hj. rewrite Ht, guard_true by lia.
    assert (O1 : own (T2 buf_r i j) = Some (i, j)) by (unfold own; rewrite Z.eqb_refl; inbs; reflexivity).
    assert (O2 : own (T2 buf_t i j) = Some (i, j)) by (unfold own; rewrite Z.eqb_refl, orb_true_r; inbs; reflexivity).
    constructor; [left; exact O1|]. intros x. constructor; [left; exact O2|]. intros y. constructor; [exact O1|]. constructor; [exact O2|constructor]. }
  assert (B : forall l i j, own l = Some (i, j) -> 0 <= i < Nz /\ 0 <= j < Nr).
  { intros l i j. unfold own. destruct l; try discriminate. destruct (((a =? buf_r) || (a =? buf_t)) && inb Nz iz && inb Nr ir) eqn:E; [|discriminate]. intros [= <- <-].
    rewrite !andb_true_iff, !inb_true in E. tauto. }
  specialize (H A B). split.
  - intros iz ir Hz Hr. rewrite !H. unfold own. rewrite !Z.eqb_refl, orb_true_r. cbn [orb]. inbs. cbn [fst snd].
    rewrite !Ht, guard_true by lia. cbn [run]. split; [|apply upd_here]. rewrite upd_away by (unfold buf_r, buf_t; congruence). apply upd_here.
  - intros b iz ir [H1 H2]. rewrite H. unfold own. rewrite (proj2 (Z.eqb_neq b buf_r) H1), (proj2 (Z.eqb_neq b buf_t) H2). reflexivity.
Qed.

Lemma runs_app : forall l1 l2 M M', runs (l1 ++ l2) M M' -> exists M1, runs l1 M M1 /\ runs l2 M1 M'.
Proof.
  induction l1 as [|o l1 IH]; intros l2 M M' H; cbn [app] in H.
  - exists M. split; [constructor|exact H].
  - inversion H; subst.
    + destruct (IH _ _ _ H5) as (M2 & A & B). exists M2. split; [econstructor; eauto|exact B].
    + destruct (IH _ _ _ H4) as (M2 & A & B). exists M2. split; [constructor; exact A|exact B].
Qed.
Lemma runs_nil_inv : forall M M', runs [] M M' -> M' = M.
Proof. intros M M' H. inversion H. reflexivity. Qed.
Lemma runs_kernel_inv : forall ts ops M M', runs (Kernel ts :: ops) M M' -> exists M1, executes tloc_dec ts M M1 /\ runs ops M1 M'.
Proof. intros ts ops M M' H. inversion H; subst. eauto. Qed.
Lemma runs_lib_inv : forall f ops M M', runs (Lib f :: ops) M M' -> runs ops (f M) M'.
Proof. intros f ops M M' H. inversion H; subst. assumption. Qed.

Lemma fft_gpu : forall v100 a b M M', runs (gpu_fft Nz Nr v100 a b) M M' ->
  same_grid Nz Nr (grid_at M' b) (fft Nz (grid_at M a)) /\ forall x iz ir, x <> b -> M' (T2 x iz ir) = M (T2 x iz ir).
Proof.
  intros v100 a b M M' H. apply runs_kernel_inv in H. destruct H as (M1 & H1 & H). apply runs_lib_inv in H.
  apply runs_kernel_inv in H. destruct H as (M2 & H2 & H). apply runs_nil_inv in H. subst M2.
  destruct (to_1d _ _ _ _ H1) as [A1 B1]. destruct (to_2d _ _ _ _ H2) as [A2 B2]. split.
  - intros iz ir Hz Hr. unfold grid_at at 1. rewrite A2 by assumption. unfold cufft_plan1d.
    fold (inb (Nz * Nr) (iz + Nz * ir)). rewrite inb_in by nia. destruct (join_index Nz iz ir Hz) as [-> ->]. unfold fft.
    apply lsum_ext. intros j Hj. apply in_range in Hj. replace (ir * Nz + j) with (j + Nz * ir) by ring. rewrite A1 by assumption.
    unfold grid_at. do 2 f_equal. ring.
  - intros x iz ir Hx. rewrite B2 by assumption. cbn. apply B1.
Qed.
Lemma ifft_gpu : forall v100 a b M M', runs (gpu_ifft Nz Nr v100 a b) M M' ->
  same_grid Nz Nr (grid_at M' b) (ifft Nz (grid_at M a)) /\ forall x iz ir, x <> b -> M' (T2 x iz ir) = M (T2 x iz ir).
Proof.
  intros v100 a b M M' H. apply runs_kernel_inv in H. destruct H as (M1 & H1 & H). apply runs_lib_inv in H. apply runs_lib_inv in H.
  apply runs_kernel_inv in H. destruct H as (M2 & H2 & H). apply runs_nil_inv in H. subst M2.
  destruct (to_1d _ _ _ _ H1) as [A1 B1]. destruct (to_2d _ _ _ _ H2) as [A2 B2]. split.
  - intros iz ir Hz Hr. unfold grid_at at 1. rewrite A2 by assumption. unfold multiply_out, cufft_plan1d.
    fold (inb (Nz * Nr) (iz + Nz * ir)). rewrite inb_in by nia. destruct (join_index Nz iz ir Hz) as [-> ->]. unfold ifft.
    rewrite Cmult_comm. f_equal.
    apply lsum_ext. intros j Hj. apply in_range in Hj. replace (ir * Nz + j) with (j + Nz * ir) by ring. rewrite A1 by assumption.
    unfold grid_at. do 2 f_equal. ring.
  - intros x iz ir Hx. rewrite B2 by assumption. cbn. apply B1.
Qed.
Lemma rsum_ext' : forall (f g : Z -> R) l, (forall x, In x l -> f x = g x) -> rsum f l = rsum g l.
Proof. induction l as [|a l IH]; intros H; [reflexivity|]. unfold rsum in *. cbn [fold_right]. rewrite (H a) by (left; reflexivity). rewrite IH; [reflexivity|]. intros; apply H; right; assumption. Qed.
Lemma dht_gpu : forall v100 d A a b M M', runs (gpu_dht Nz Nr v100 d A a b) M M' ->
  same_grid Nz Nr (grid_at M' b) (dht Nz Nr A (grid_at M a)) /\ forall x iz ir, x <> b -> M' (T2 x iz ir) = M (T2 x iz ir).
Proof.
  intros v100 d A a b M M' H. apply runs_kernel_inv in H. destruct H as (M1 & H1 & H). apply runs_lib_inv in H.
  apply runs_kernel_inv in H. destruct H as (M2 & H2 & H). apply runs_nil_inv in H. subst M2.
  destruct (to_real _ _ _ _ _ H1) as [A1 B1]. destruct (to_complex _ _ _ _ _ H2) as [A2 B2]. split.
  - assert (G : forall i ir, 0 <= i < 2 * Nz -> 0 <= ir < Nr ->
      cublas_dgemm d Nr (2 * Nz) Nr 1 (flat Nr A) Nr Nr 0 Nr M1 (Rout d (i * Nr + ir)) = RtoC (np_dot Nr (copy_2dC_to_2dR Nz (grid_at M a)) A i ir)).
    { intros i ir Hi Hr. unfold cublas_dgemm. replace (i * Nr + ir) with (ir + Nr * i) by ring. destruct (join_index Nr ir i Hr) as [-> ->].
      rewrite Z.eqb_refl, (proj2 (Z.leb_le 0 (ir + Nr * i))), (proj2 (Z.ltb_lt ir Nr)), (proj2 (Z.ltb_lt i (2 * Nz))) by nia. cbn [andb].
      f_equal. rewrite Rmult_1_l, Rmult_0_l, Rplus_0_r. unfold np_dot. apply rsum_ext'. intros p Hp. apply in_range in Hp.
      unfold flat. replace (ir + p * Nr) with (ir + Nr * p) by ring. destruct (join_index Nr ir p Hr) as [-> ->].
      replace (p + i * Nr) with (i * Nr + p) by ring. rewrite A1 by assumption. cbn [Re RtoC fst]. apply Rmult_comm. }
    intros iz ir Hz Hr. unfold grid_at at 1. rewrite A2, !G by lia. reflexivity.
  - intros x iz ir Hx. rewrite B2 by assumption. cbn. apply B1.
Qed.

Lemma fft_ext : forall F G, same_grid Nz Nr F G -> same_grid Nz Nr (fft Nz F) (fft Nz G).
Proof. intros F G H iz ir Hz Hr. unfold fft. apply lsum_ext. intros j Hj. apply in_range in Hj. rewrite (H j ir) by assumption. reflexivity. Qed.
Lemma ifft_ext : forall F G, same_grid Nz Nr F G -> same_grid Nz Nr (ifft Nz F) (ifft Nz G).
Proof. intros F G H iz ir Hz Hr. unfold ifft. f_equal. apply lsum_ext. intros j Hj. apply in_range in Hj. rewrite (H j ir) by assumption. reflexivity. Qed.
Lemma dht_ext : forall A F G, same_grid Nz Nr F G -> same_grid Nz Nr (dht Nz Nr A F) (dht Nz Nr A G).
Proof. intros A F G H iz ir Hz Hr. rewrite !dht_sum by assumption. apply lsum_ext. intros j Hj. apply in_range in Hj. rewrite (H iz j) by assumption. reflexivity. Qed.
Lemma same_trans : forall F G H, same_grid Nz Nr F G -> same_grid Nz Nr G H -> same_grid Nz Nr F H.
Proof. intros F G H A B iz ir Hz Hr. rewrite A, B by assumption. reflexivity. Qed.
Lemma same_eq : forall F G, (forall iz ir, F iz ir = G iz ir) -> same_grid Nz Nr F G.
Proof. intros F G H iz ir _ _. apply H. Qed.
End S.

Section Tr.
Context (v100 : bool) (tr : transformer) (HG : grid_ok (t_Nz tr) (t_Nr tr)).
Notation Nz := (t_Nz tr). Notation Nr := (t_Nr tr).
Lemma rt_neq : buf_r <> buf_t. Proof. discriminate. Qed.
Theorem i2s_scal : forall interp spect M M', user_array interp -> user_array spect ->
  runs (gpu_interp2spect_scal v100 tr interp spect) M M' ->
  same_grid Nz Nr (grid_at M' spect) (interp2spect_scal tr (grid_at M interp)) /\ only_writes [spect] M M'.
Proof.
  intros interp spect M M' Hi Hs H. apply runs_app in H. destruct H as (M1 & H1 & H2).
  destruct (fft_gpu Nz Nr HG _ _ _ _ _ H1) as [A1 B1]. destruct (dht_gpu Nz Nr HG _ _ _ _ _ _ _ H2) as [A2 B2]. split.
  - eapply same_trans; [exact A2|]. apply dht_ext. exact A1.
  - intros a [Ha _] Hn iz ir. unfold grid_at. rewrite B2 by (intros ->; apply Hn; left; reflexivity). apply B1. exact Ha.
Qed.
Theorem s2i_scal : forall spect interp M M', user_array interp -> user_array spect ->
  runs (gpu_spect2interp_scal v100 tr spect interp) M M' ->
  same_grid Nz Nr (grid_at M' interp) (spect2interp_scal tr (grid_at M spect)) /\ only_writes [interp] M M'.
Proof.
  intros spect interp M M' Hi Hs H. apply runs_app in H. destruct H as (M1 & H1 & H2).
  destruct (dht_gpu Nz Nr HG _ _ _ _ _ _ _ H1) as [A1 B1]. destruct (ifft_gpu Nz Nr HG _ _ _ _ _ H2) as [A2 B2]. split.
  - eapply same_trans; [exact A2|]. apply ifft_ext. exact A1.
  - intros a [Ha _] Hn iz ir. unfold grid_at. rewrite B2 by (intros ->; apply Hn; left; reflexivity). apply B1. exact Ha.
Qed.
Theorem i2s_vect : forall cells r t p m M M', all_cells Nz Nr cells -> user_array r -> user_array t -> user_array p -> user_array m -> p <> m ->
  runs (gpu_interp2spect_vect v100 tr r t p m) M M' ->
  let '(Gp, Gm) := interp2spect_vect tr cells (grid_at M r) (grid_at M t) in
  same_grid Nz Nr (grid_at M' p) Gp /\ same_grid Nz Nr (grid_at M' m) Gm /\ only_writes [p; m] M M'.
Proof.
  intros cells r t p m M M' [ND HC] Hr Ht Hp Hm Hpm H.
  apply runs_app in H. destruct H as (M1 & H1 & H). apply runs_app in H. destruct H as (M2 & H2 & H).
  apply runs_app in H. destruct H as (M3 & H3 & H). apply runs_app in H. destruct H as (M4 & H4 & H5).
  apply runs_kernel_inv in H3. destruct H3 as (M3' & H3 & E). apply runs_nil_inv in E. subst M3'.
  destruct (fft_gpu Nz Nr HG _ _ _ _ _ H1) as [A1 B1]. destruct (fft_gpu Nz Nr HG _ _ _ _ _ H2) as [A2 B2].
  destruct (in_place Nz Nr HG (cuda_rt_to_pm Nz Nr buf_r buf_t buf_p buf_m) to_p to_m M2 M3 (fun _ _ => eq_refl) H3) as [A3 B3].
  destruct (dht_gpu Nz Nr HG _ _ _ _ _ _ _ H4) as [A4 B4]. destruct (dht_gpu Nz Nr HG _ _ _ _ _ _ _ H5) as [A5 B5].
  assert (Rr : same_grid Nz Nr (grid_at M2 buf_r) (fft Nz (grid_at M r))).
  { intros iz ir Hz Hir. unfold grid_at at 1. rewrite B2 by apply rt_neq. exact (A1 iz ir Hz Hir). }
  assert (Rt : same_grid Nz Nr (grid_at M2 buf_t) (fft Nz (grid_at M t))).
  { eapply same_trans; [exact A2|]. apply fft_ext. apply same_eq. intros iz ir. unfold grid_at. apply B1. apply Ht. }
  unfold interp2spect_vect. set (mem := two_arrays (fft Nz (grid_at M r)) (fft Nz (grid_at M t))).
  assert (L : forall iz ir, 0 <= iz < Nz -> 0 <= ir < Nr ->
     rt_to_pm buf_r buf_t buf_p buf_m cells mem buf_p iz ir = M3 (T2 buf_p iz ir) /\ rt_to_pm buf_r buf_t buf_p buf_m cells mem buf_m iz ir = M3 (T2 buf_m iz ir)).
  { intros iz ir Hz Hir. rewrite rt_to_pm_loop.
    destruct (loop2 to_p to_m buf_r buf_t buf_p buf_m cells ND (conj rt_neq (conj rt_neq (or_introl (conj eq_refl eq_refl)))) mem iz ir) as [L _].
    destruct (L (HC iz ir (conj Hz Hir))) as [-> ->]. change buf_p with buf_r. change buf_m with buf_t. destruct (A3 iz ir Hz Hir) as [-> ->].
    change (M2 (T2 buf_r iz ir)) with (grid_at M2 buf_r iz ir). change (M2 (T2 buf_t iz ir)) with (grid_at M2 buf_t iz ir).
    rewrite Rr, Rt by assumption. split; reflexivity. }
  repeat split.
  - intros iz ir Hz Hir. unfold grid_at at 1. rewrite B5 by exact Hpm. refine (eq_trans (A4 iz ir Hz Hir) _).
    apply (dht_ext Nz Nr); try assumption. intros x y Hx Hy. symmetry. apply L; assumption.
  - eapply same_trans; [exact A5|]. apply dht_ext. intros x y Hx Hy. unfold grid_at. rewrite B4.
    + symmetry. apply L; assumption.
    + destruct Hp as [_ Hp]. intros E. apply Hp. rewrite <- E. reflexivity.
  - intros a Ha Hn iz ir. unfold grid_at. cbn [In] in Hn. rewrite B5, B4 by (intros ->; tauto). rewrite B3 by exact Ha.
    destruct Ha as [Ha1 Ha2]. rewrite B2, B1 by assumption. reflexivity.
Qed.
Theorem s2i_vect : forall cells p m r t M M', all_cells Nz Nr cells -> user_array r -> user_array t -> user_array p -> user_array m -> r <> t ->
  runs (gpu_spect2interp_vect v100 tr p m r t) M M' ->
  let '(Fr, Ft) := spect2interp_vect tr cells (grid_at M p) (grid_at M m) in
  same_grid Nz Nr (grid_at M' r) Fr /\ same_grid Nz Nr (grid_at M' t) Ft /\ only_writes [r; t] M M'.
Proof.
  intros cells p m r t M M' [ND HC] Hr Ht Hp Hm Hrt H.
  apply runs_app in H. destruct H as (M1 & H1 & H). apply runs_app in H. destruct H as (M2 & H2 & H).
  apply runs_app in H. destruct H as (M3 & H3 & H). apply runs_app in H. destruct H as (M4 & H4 & H5).
  apply runs_kernel_inv in H3. destruct H3 as (M3' & H3 & E). apply runs_nil_inv in E. subst M3'.
  destruct (dht_gpu Nz Nr HG _ _ _ _ _ _ _ H1) as [A1 B1]. destruct (dht_gpu Nz Nr HG _ _ _ _ _ _ _ H2) as [A2 B2].
  destruct (in_place Nz Nr HG (cuda_pm_to_rt Nz Nr buf_p buf_m buf_r buf_t) to_r to_t M2 M3 (fun _ _ => eq_refl) H3) as [A3 B3].
  destruct (ifft_gpu Nz Nr HG _ _ _ _ _ H4) as [A4 B4]. destruct (ifft_gpu Nz Nr HG _ _ _ _ _ H5) as [A5 B5].
  assert (Rp : same_grid Nz Nr (grid_at M2 buf_r) (dht Nz Nr (t_invMp tr) (grid_at M p))).
  { intros iz ir Hz Hir. unfold grid_at at 1. rewrite B2 by apply rt_neq. exact (A1 iz ir Hz Hir). }
  assert (Rm : same_grid Nz Nr (grid_at M2 buf_t) (dht Nz Nr (t_invMm tr) (grid_at M m))).
  { eapply same_trans; [exact A2|]. apply dht_ext. apply same_eq. intros iz ir. unfold grid_at. apply B1. apply Hm. }
  unfold spect2interp_vect. set (mem := two_arrays (dht Nz Nr (t_invMp tr) (grid_at M p)) (dht Nz Nr (t_invMm tr) (grid_at M m))).
  assert (L : forall iz ir, 0 <= iz < Nz -> 0 <= ir < Nr ->
     pm_to_rt buf_p buf_m buf_r buf_t cells mem buf_r iz ir = M3 (T2 buf_r iz ir) /\ pm_to_rt buf_p buf_m buf_r buf_t cells mem buf_t iz ir = M3 (T2 buf_t iz ir)).
  { intros iz ir Hz Hir. rewrite pm_to_rt_loop.
    destruct (loop2 to_r to_t buf_p buf_m buf_r buf_t cells ND (conj rt_neq (conj rt_neq (or_introl (conj eq_refl eq_refl)))) mem iz ir) as [L _].
    destruct (L (HC iz ir (conj Hz Hir))) as [-> ->]. change buf_p with buf_r. change buf_m with buf_t. destruct (A3 iz ir Hz Hir) as [-> ->].
    change (M2 (T2 buf_r iz ir)) with (grid_at M2 buf_r iz ir). change (M2 (T2 buf_t iz ir)) with (grid_at M2 buf_t iz ir).
    rewrite Rp, Rm by assumption. split; reflexivity. }
  repeat split.
  - intros iz ir Hz Hir. unfold grid_at at 1. rewrite B5 by exact Hrt. refine (eq_trans (A4 iz ir Hz Hir) _).
    apply (ifft_ext Nz Nr); try assumption. intros x y Hx Hy. symmetry. apply L; assumption.
  - eapply same_trans; [exact A5|]. apply ifft_ext. intros x y Hx Hy. unfold grid_at. rewrite B4.
    + symmetry. apply L; assumption.
    + destruct Hr as [_ Hr]. intros E. apply Hr. rewrite <- E. reflexivity.
  - intros a Ha Hn iz ir. unfold grid_at. cbn [In] in Hn. rewrite B5, B4 by (intros ->; tauto). rewrite B3 by exact Ha.
    destruct Ha as [Ha1 Ha2]. rewrite B2, B1 by assumption. reflexivity.
Qed.
End Tr.
Theorem runs_exists : forall ops M, exists M', runs ops M M'.
Proof.
  induction ops as [|[ts|f] ops IH]; intros M.
  - exists M. constructor.
  - destruct (executes_exists tloc_dec ts M) as [M1 H1]. destruct (IH M1) as [M2 H2]. exists M2. econstructor; eauto.
  - destruct (IH (f M)) as [M2 H2]. exists M2. constructor. exact H2.
Qed.

(** ** MKL *)
Lemma dfti_c_order : forall Nz Nr s scale input output iz ir, 0 <= iz < Nz -> 0 <= ir < Nr ->
  dfti_compute s scale (mk_desc (fourier_mkl Nz Nr)) input output (iz * Nr + ir * 1) =
  Cmult (RtoC scale) (lsum (fun j => Cmult (cis (s * (2 * PI * IZR (iz * j) / IZR Nz))) (input (j * Nr + ir * 1))) (range Nz)).
Proof.
  intros Nz Nr s scale input output iz ir Hz Hr. unfold dfti_compute, fourier_mkl, mkl_init, np_zeros. cbn [mk_desc df_length df_n df_distance df_stride nd_rows nd_cols nd_s0 nd_s1].
  destruct (find _ _) as [[b k]|] eqn:E.
  - apply find_some in E. destruct E as [Hin E]. apply in_flat_map in Hin. destruct Hin as (b' & Hb & Hin). apply in_map_iff in Hin.
    destruct Hin as (k' & [= -> ->] & Hk). apply in_range in Hb. apply in_range in Hk. cbn [fst snd] in E. apply Z.eqb_eq in E.
    assert (k = iz /\ b = ir) as [-> ->].
    { assert (Hk' : k = iz) by nia. split; [exact Hk'|]. subst k. lia. }
    f_equal. apply lsum_ext. intros j _. do 2 f_equal. ring.
  - exfalso.
    assert (Hin : In (ir, iz) (flat_map (fun b : Z => map (fun k : Z => (b, k)) (range Nz)) (range Nr))).
    { apply in_flat_map. exists ir. split; [apply in_range; lia|]. apply in_map_iff. exists iz. split; [reflexivity|apply in_range; lia]. }
    eapply List.find_none in E; [|exact Hin]. cbn [fst snd] in E. apply Z.eqb_neq in E. lia.
Qed.
Theorem mkl_same : forall Nz Nr a b, c_order Nz Nr a -> c_order Nz Nr b ->
  (exists b', mkl_fft (fourier_mkl Nz Nr) a b = Ok b' /\ c_order Nz Nr b' /\ same_grid Nz Nr (nd_get b') (fft Nz (nd_get a))) /\
  (exists b', mkl_ifft (fourier_mkl Nz Nr) a b = Ok b' /\ c_order Nz Nr b' /\ same_grid Nz Nr (nd_get b') (ifft Nz (nd_get a))).
Proof.
  intros Nz Nr a b (A1 & A2 & A3 & A4) (B1 & B2 & B3 & B4). unfold mkl_fft, mkl_ifft, mkl_transform, same_shape.
  change (mk_rows (fourier_mkl Nz Nr)) with Nz. change (mk_cols (fourier_mkl Nz Nr)) with Nr. rewrite A1, A2, B1, B2, !Z.eqb_refl. cbn [andb].
  split; eexists; (split; [reflexivity|]); (split; [repeat split; assumption|]); intros iz ir Hz Hr; unfold nd_get; cbn [nd_data nd_s0 nd_s1];
    rewrite B3, B4, A3, A4, dfti_c_order by assumption.
  - unfold fft. rewrite Cmult_1_l. apply lsum_ext. intros j _. do 2 f_equal. ring.
  - unfold ifft. change (df_scale (mk_desc (fourier_mkl Nz Nr))) with (1 / IZR Nz)%R. f_equal. apply lsum_ext. intros j _. do 2 f_equal. ring.
Qed.
Theorem mkl_rejects : forall Nz Nr s scale a b, ~ (nd_rows a = Nz /\ nd_cols a = Nr /\ nd_rows b = Nz /\ nd_cols b = Nr) ->
  mkl_transform s scale (fourier_mkl Nz Nr) a b = Err AssertionError.
Proof.
  intros Nz Nr s scale a b H. unfold mkl_transform, same_shape. change (mk_rows (fourier_mkl Nz Nr)) with Nz. change (mk_cols (fourier_mkl Nz Nr)) with Nr.
  destruct (Z.eqb_spec (nd_rows a) Nz), (Z.eqb_spec (nd_cols a) Nr), (Z.eqb_spec (nd_rows b) Nz), (Z.eqb_spec (nd_cols b) Nr); cbn [andb]; try reflexivity.
  exfalso. apply H. auto.
Qed.
