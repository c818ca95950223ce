(** C98: the slices of the back-transformed field diagnostic: all the fields, all the modes, on CPU and on GPU. *)
From Coq Require Import Reals Lra.
From Flocq Require Import Core.Core.
From Coquelicot Require Import Complex.
From Verif Require Import Base Decomp_Proofs Chunk_Model BField_Model BField_Proofs GSlice_Model GSlice_Spec GSlice_Proofs.
Open Scope Z_scope.

(** On GPU, whatever the order of the threads and the former content of the array, every element of the slice is that of the CPU
    version; there is a row after the plane. *)
Theorem C98_gpu_partial : forall F n Nz Nr iz Sz empty a a' sl0, 0 <= Nr < 2 ^ 52 -> iz + 1 < Nz ->
  extract_slice_gpu F Nr iz Sz (range (Z.of_nat n + 1)) a a' ->
  exists sl, extract_slice_all_cpu F (Z.of_nat n + 1) Nz iz Sz empty sl0 = Ok sl /\ forall k, in_slice n Nr k -> a' k = sl k.
Proof.
  intros F n Nz Nr iz Sz empty a a' sl0 HN Hz H. destruct (cpu_entry F n Nz iz Sz empty sl0 Hz) as (sl & E & V). exists sl. split; [exact E|].
  intros k Hk. rewrite (gpu_entry F n Nr iz Sz a a' k HN H Hk). symmetry. destruct Hk as (H1 & H2 & H3). apply V; assumption.
Qed.
Print Assumptions C98_gpu_partial.

(** At every angle, what an openPMD reader computes from the modes of the slice is the interpolation of the field of the simulation
    between the rows before and after the plane. *)
Theorem C98_value_partial : forall F n Nz iz Sz empty sl0 sl q ir theta, iz + 1 < Nz -> 0 <= q < 10 ->
  extract_slice_all_cpu F (Z.of_nat n + 1) Nz iz Sz empty sl0 = Ok sl ->
  read_at sl n q ir theta = (Sz * field_at F n q iz ir theta + (1 - Sz) * field_at F n q (iz + 1)%Z ir theta)%R.
Proof.
  intros F n Nz iz Sz empty sl0 sl q ir theta Hz Hq E. destruct (cpu_entry F n Nz iz Sz empty sl0 Hz) as (sl1 & E1 & V).
  assert (sl1 = sl) as -> by congruence. apply full_read. intros im Him. apply V; assumption.
Qed.
Print Assumptions C98_value_partial.

(** On both: a field that varies linearly with z along the line (r, theta) is found exactly, at the position of the plane. *)
Theorem C98_linear_partial : forall F n Nz Nr z zmin dz offset a a' q ir theta u v, (0 < dz)%R -> 0 <= Nr < 2 ^ 52 -> 0 <= q < 10 -> 0 <= ir < Nr ->
  (forall i, field_at F n q i ir theta = u + v * cell_centre zmin dz offset i)%R ->
  let '(iz, Sz) := slice_shape z zmin dz offset in
  (extract_slice_gpu F Nr iz Sz (range (Z.of_nat n + 1)) a a' \/
   exists empty, iz + 1 < Nz /\ extract_slice_all_cpu F (Z.of_nat n + 1) Nz iz Sz empty a = Ok a') ->
  read_at a' n q ir theta = (u + v * z)%R.
Proof.
  intros F n Nz Nr z zmin dz offset a a' q ir theta u v Hd HN Hq Hr HF.
  pose proof (linear z zmin dz offset u v Hd) as L. destruct (slice_shape z zmin dz offset) as [iz Sz].
  intros H. rewrite <- L. unfold extract_slice_cpu. change (fun j => _) with (fun j => u + v * cell_centre zmin dz offset j)%R.
  cbv beta. fold (cell_centre zmin dz offset iz) (cell_centre zmin dz offset (iz + 1)). rewrite <- !HF. destruct H as [H|(empty & Hz & E)].
  - apply full_read. intros im Him. apply (gpu_entry F n Nr iz Sz a a' _ HN H). split; [exact Hq|]. split; assumption.
  - exact (C98_value_partial F n Nz iz Sz empty a a' q ir theta Hz Hq E).
Qed.
Print Assumptions C98_linear_partial.

(** The transform to the lab frame, applied mode by mode, is the transform of the fields at every angle. *)
Theorem C98_lab_frame : forall d sl n ir theta, read_all (to_lab_frame d sl) n ir theta = transform_fields d (read_all sl n ir theta).
Proof. exact lab_read. Qed.
Print Assumptions C98_lab_frame.

(** REFUTED: with no row after the physical domain (no communicator given, or no guard cells), a plane in the last half cell of the
    domain makes the diagnostic raise an IndexError. *)
Theorem C98_last_refuted : exists d lo hi dz Nz it, (0 < dz)%R /\ (hi = lo + IZR Nz * dz)%R /\ stores d lo hi it = true /\
  forall F n empty sl0, let '(iz, Sz) := slice_shape (fz_boost d (IZR it * f_dt d)) lo dz 0 in
    extract_slice_all_cpu F (Z.of_nat n + 1) Nz iz Sz empty sl0 = Err IndexError.
Proof.
  exists (ex_f 1), 0%R, 6%R, 3%R, 2, 3. split; [lra|]. split; [lra|]. split.
  - apply (stores_iff _ (3 / 5) (ex_f_ok 1 ltac:(lia))). apply ex_seen. lra.
  - intros F n empty sl0. replace (fz_boost (ex_f 1) (3 * f_dt (ex_f 1)))%R with 5%R.
    2:{ unfold fz_boost, f_inv_beta. rewrite (fbeta_eq _ _ (ex_f_ok 1 ltac:(lia))). unfold f_inv_gamma; cbn. field. }
    unfold slice_shape. replace ((5 - 0 - 1 / 2 * 3) / 3)%R with (7 / 6)%R by field.
    rewrite Ztrunc_floor, (Zfloor_imp 1) by (cbn; lra). apply cpu_beyond. lia.
Qed.
Print Assumptions C98_last_refuted.

(** The hypotheses are met: a mode-0 and a mode-1 field that vary linearly with z; a plane at z = 2 on a grid of three cells. *)
Definition ex_F : grids := fun q m iz ir => if m =? 0 then (IZR iz + 1 / 2, 0)%R else (0, IZR iz + 1 / 2)%R.
Example C98_met : (forall i, field_at ex_F 1 2 i 0 (PI / 2) = 0 + 3 * cell_centre 0 1 0 i)%R /\
  slice_shape 2 0 1 0 = (1, (1 / 2)%R) /\
  (exists sl, extract_slice_all_cpu ex_F 2 3 1 (1 / 2) (fun _ _ => 7%R) (fun _ => 7%R) = Ok sl /\ read_at sl 1 2 0 (PI / 2) = 6%R) /\
  (exists a', extract_slice_gpu ex_F 4 1 (1 / 2) (range 2) (fun _ => 7%R) a').
Proof.
  assert (HF : forall i, field_at ex_F 1 2 i 0 (PI / 2) = (0 + 3 * cell_centre 0 1 0 i)%R).
  { intros i. unfold field_at, ex_F, cell_centre. cbn [sum1 Z.of_nat Pos.of_succ_nat Z.eqb]. unfold Re, Cmult. cbn [fst snd].
    rewrite Rmult_1_l, cos_PI2, sin_PI2. rewrite Z.sub_0_r. ring. }
  split; [exact HF|]. split.
  { unfold slice_shape. replace ((2 - 0 - 1 / 2 * 1) / 1)%R with (3 / 2)%R by field. rewrite Ztrunc_floor, (Zfloor_imp 1) by (cbn; lra).
    cbn [Z.add Pos.add]. f_equal. lra. }
  split.
  { destruct (cpu_entry ex_F 1 3 1 (1 / 2) (fun _ _ => 7%R) (fun _ => 7%R) ltac:(lia)) as (sl & E & _). exists sl. split; [exact E|].
    rewrite (C98_value_partial ex_F 1 3 1 (1 / 2) _ _ sl 2 0 (PI / 2) ltac:(lia) ltac:(lia) E), !HF. unfold cell_centre.
    change (1 + 1 - 0)%Z with 2%Z. change (1 - 0)%Z with 1%Z. lra. }
  eexists. eapply (gpu_mode _ _ _ _ 0 [1]). { eexists. split; [apply Permutation_refl|reflexivity]. }
  eapply (gpu_mode _ _ _ _ 1 []). { eexists. split; [apply Permutation_refl|reflexivity]. } apply gpu_done.
Qed.
