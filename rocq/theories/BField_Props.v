(** C50: the boosted-frame field diagnostic. *)
From Verif Require Import Base Boost_Spec BField_Model BField_Spec BField_Proofs.
From Coq Require Import Reals Lra.
Open Scope R_scope.

(** The run never stops with an error; after N iterations the file holds, in the cell of its lab position, every slice
    of the snapshot that was inside the domain of a process and has been flushed, and zeros elsewhere. *)
Theorem C50_file : forall A zero d b procs e slice N, fdiag_ok d b -> edges_ok d b procs e ->
  exists bufs disk, run A zero d procs (fun n q => e n q) (fun n q => e n (S q)) slice N = Some (Ok (bufs, disk)) /\
  (forall n q, (q < procs)%nat -> (0 <= n)%Z -> flushed d N n -> seen d b (e n q) (e n (S q)) n ->
     exists k, (0 <= k < Nz_lab d)%Z /\ in_cell d b (dz_lab d) n k /\ disk k = slice n q) /\
  (forall k, (forall n q, (q < procs)%nat -> (0 <= n)%Z -> flushed d N n -> seen d b (e n q) (e n (S q)) n ->
     ~ in_cell d b (dz_lab d) n k) -> disk k = zero).
Proof. intros. apply file_spec; auto. Qed.
Print Assumptions C50_file.

(** One iteration later is one cell to the left: no index is repeated, none is jumped over. *)
Theorem C50_consecutive : forall d b n1 n2 k1 k2, fdiag_ok d b ->
  in_cell d b (dz_lab d) n1 k1 -> in_cell d b (dz_lab d) n2 k2 -> (k1 - k2 = n2 - n1)%Z.
Proof. intros d b n1 n2 k1 k2 OK H1 H2. apply (in_cell_iff d b _ _ OK) in H1, H2. lia. Qed.
Print Assumptions C50_consecutive.

(** Between two iterations at which the snapshot is seen it is seen by exactly one process (missing: the iterations at
    which it is exactly on a cut between two processes). *)
Theorem C50_gap_free_partial : forall d b procs e n1 n n2 q1 q2, fdiag_ok d b -> edges_ok d b procs e ->
  (n1 <= n <= n2)%Z -> (q1 < procs)%nat -> (q2 < procs)%nat ->
  seen d b (e n1 q1) (e n1 (S q1)) n1 -> seen d b (e n2 q2) (e n2 (S q2)) n2 ->
  (forall q, (0 < q < procs)%nat -> ~ snapshot_event d b (IZR n * f_dt d) (e n q)) ->
  exists q, (q < procs)%nat /\ seen d b (e n q) (e n (S q)) n /\
    forall q', (q' < procs)%nat -> seen d b (e n q') (e n (S q')) n -> q' = q.
Proof.
  intros d b procs e n1 n n2 q1 q2 OK EO Hn Hq1 Hq2 S1 S2 NE.
  destruct (gap_free d b procs e n1 n n2 q1 q2 OK EO Hn Hq1 Hq2 S1 S2 NE) as [q [Hq S]].
  exists q. split; [auto|]. split; [auto|]. intros q' Hq' S'. apply (stores_iff d b OK) in S, S'.
  apply (one_process d b procs e EO n q' q); auto.
Qed.
Print Assumptions C50_gap_free_partial.

(** REFUTED: when the snapshot is exactly on a cut, its slice is missing between two that are there. *)
Theorem C50_gap_free_refuted : exists d b procs e N bufs disk, fdiag_ok d b /\ edges_ok d b procs e /\
  run Z 0%Z d procs (fun n q => e n q) (fun n q => e n (S q)) (fun _ _ => 1%Z) N = Some (Ok (bufs, disk)) /\
  disk 5%Z = 1%Z /\ disk 4%Z = 0%Z /\ disk 3%Z = 1%Z.
Proof.
  exists (ex_f 1), (3 / 5), 2%nat, ex_e, 5%nat.
  destruct (C50_file Z 0%Z (ex_f 1) (3 / 5) 2 ex_e (fun _ _ => 1%Z) 5 (ex_f_ok 1 ltac:(lia)) (ex_e_ok 1)) as [bufs [disk [R [W Z0]]]].
  exists bufs, disk. split; [apply ex_f_ok; lia|]. split; [apply ex_e_ok|]. split; [exact R|].
  rewrite (ex_dz 1 ltac:(lia)) in W, Z0.
  assert (Fl : forall n, (0 <= n < 5)%Z -> flushed (ex_f 1) 5 n) by (intros n H; exists n; split; [lia|apply Z.mod_1_r]).
  split; [|split].
  - destruct (W 1%Z 1%nat ltac:(lia) ltac:(lia) (Fl 1%Z ltac:(lia))) as [k [_ [C <-]]]; [apply ex_seen; cbn; lra|].
    apply ex_cell in C. rewrite plus_IZR in C. assert (IZR k < IZR 6) by lra. assert (IZR 4 < IZR k) by lra. apply lt_IZR in H, H0. f_equal. lia.
  - apply Z0. intros n q Hq Hn _ S C. apply ex_cell in C. cbn in C. apply ex_seen in S.
    assert (IZR n < IZR 3) by lra. assert (IZR 1 < IZR n) by lra. apply lt_IZR in H, H0. assert (n = 2)%Z by lia. subst n.
    destruct q as [|[|q]]; cbn in S; try lra; lia.
  - destruct (W 3%Z 0%nat ltac:(lia) ltac:(lia) (Fl 3%Z ltac:(lia))) as [k [_ [C <-]]]; [apply ex_seen; cbn; lra|].
    apply ex_cell in C. rewrite plus_IZR in C. assert (IZR k < IZR 4) by lra. assert (IZR 2 < IZR k) by lra. apply lt_IZR in H, H0. f_equal. lia.
Qed.
Print Assumptions C50_gap_free_refuted.

(** REFUTED: what was stored after the last flush is in no file when the simulation ends. *)
Theorem C50_unflushed_refuted : exists d b procs e N n q bufs disk, fdiag_ok d b /\ edges_ok d b procs e /\
  run Z 0%Z d procs (fun n q => e n q) (fun n q => e n (S q)) (fun _ _ => 1%Z) N = Some (Ok (bufs, disk)) /\
  (0 <= n < Z.of_nat N)%Z /\ (q < procs)%nat /\ seen d b (e n q) (e n (S q)) n /\
  forall k, in_cell d b (dz_lab d) n k -> disk k = 0%Z.
Proof.
  exists (ex_f 5), (3 / 5), 2%nat, ex_e, 4%nat, 1%Z, 1%nat.
  destruct (C50_file Z 0%Z (ex_f 5) (3 / 5) 2 ex_e (fun _ _ => 1%Z) 4 (ex_f_ok 5 ltac:(lia)) (ex_e_ok 5)) as [bufs [disk [R [W Z0]]]].
  exists bufs, disk. split; [apply ex_f_ok; lia|]. split; [apply ex_e_ok|]. split; [exact R|]. split; [lia|]. split; [lia|].
  split; [apply ex_seen; cbn; lra|]. intros k C. apply Z0. intros n q Hq Hn [m [F1 F2]] S C'.
  pose proof (C50_consecutive _ _ _ _ _ _ (ex_f_ok 5 ltac:(lia)) C C'). assert (n = 1)%Z by lia. subst n. cbn [ex_f f_period] in F2.
  assert (m = 1 \/ m = 2 \/ m = 3)%Z as [E|[E|E]] by lia; subst m; discriminate.
Qed.
Print Assumptions C50_unflushed_refuted.

(** From half a cell inside the domain on, the slice is interpolated between the cells on both sides of it. *)
Theorem C50_weights_partial : forall z zmin dz offset, 0 < dz -> zmin + dz / 2 <= z ->
  let '(iz, Sz) := slice_shape z zmin dz offset in
  0 <= Sz <= 1 /\ (offset <= iz)%Z /\
  zmin + (IZR (iz - offset) + 1 / 2) * dz <= z < zmin + (IZR (iz - offset) + 3 / 2) * dz.
Proof. exact weights. Qed.
Print Assumptions C50_weights_partial.
(** A field that varies linearly along z is extracted exactly, in the first half cell too. *)
Theorem C50_linear : forall z zmin dz offset u v, 0 < dz ->
  let '(iz, Sz) := slice_shape z zmin dz offset in
  extract_slice_cpu (fun j => u + v * (zmin + (IZR (j - offset) + 1 / 2) * dz)) iz Sz = u + v * z.
Proof. exact BField_Proofs.linear. Qed.
Print Assumptions C50_linear.
(** REFUTED: in the first half cell of a domain the slice is extrapolated, with a negative weight. *)
Theorem C50_weights_refuted : exists d b lo hi dz n z, fdiag_ok d b /\ 0 < dz /\ seen d b lo hi n /\
  snapshot_event d b (IZR n * f_dt d) z /\ 1 < snd (slice_shape z lo dz 0).
Proof.
  exists (ex_f 1), (3 / 5), 0, 10, 20, 3%Z, 5. split; [apply ex_f_ok; lia|]. split; [lra|]. split; [apply ex_seen; cbn; lra|].
  split; [apply ex_event; cbn; lra|]. unfold slice_shape. cbn [snd].
  replace ((5 - 0 - 1 / 2 * 20) / 20) with (- (1 / 4)) by field.
  rewrite Flocq.Core.Raux.Ztrunc_opp. rewrite (Flocq.Core.Raux.Ztrunc_floor (1 / 4)) by lra.
  rewrite (Flocq.Core.Raux.Zfloor_imp 0) by (cbn; lra). cbn. lra.
Qed.
Print Assumptions C50_weights_refuted.

(** At every angle the fields of the file have the same invariants as the fields of the simulation. *)
Theorem C50_invariants : forall d b theta l, fdiag_ok d b ->
  let f := at_angle theta l in let f' := at_angle theta (map (transform_fields d) l) in
  E_dot_B f' = E_dot_B f /\ E2_c2B2 (f_c d) f' = E2_c2B2 (f_c d) f /\ c2rho2_J2 (f_c d) f' = c2rho2_J2 (f_c d) f.
Proof. intros d b theta l OK. cbn zeta. rewrite transform_at_angle. apply (invariants d b); auto. Qed.
Print Assumptions C50_invariants.
(** ... and are their Lorentz transformation to the lab. *)
Theorem C50_lorentz : forall d b theta l, fdiag_ok d b ->
  let f := at_angle theta l in let f' := at_angle theta (map (transform_fields d) l) in
  let g := f_g d in let c := f_c d in
  fEr f' = g * (fEr f + b * c * fBt f) /\ fEt f' = g * (fEt f - b * c * fBr f) /\ fEz f' = fEz f /\
  fBr f' = g * (fBr f - b / c * fEt f) /\ fBt f' = g * (fBt f + b / c * fEr f) /\ fBz f' = fBz f /\
  fJr f' = fJr f /\ fJt f' = fJt f /\ fJz f' = g * (fJz f + b * c * frho f) /\ frho f' = g * (frho f + b / c * fJz f).
Proof.
  intros d b theta l OK. cbn zeta. rewrite transform_at_angle. unfold transform_fields. cbn.
  rewrite (fbeta_eq d b OK). rewrite !(Rmult_comm (f_c d) b). repeat split.
Qed.
Print Assumptions C50_lorentz.

(** The hypotheses are met: a box cut at 10 between two processes, and snapshots seen by both. *)
Example C50_met : fdiag_ok (ex_f 1) (3 / 5) /\ edges_ok (ex_f 1) (3 / 5) 2 ex_e /\
  seen (ex_f 1) (3 / 5) (ex_e 1 1) (ex_e 1 2) 1 /\ seen (ex_f 1) (3 / 5) (ex_e 3 0) (ex_e 3 1) 3.
Proof. split; [apply ex_f_ok; lia|]. split; [apply ex_e_ok|]. split; apply ex_seen; cbn; lra. Qed.
