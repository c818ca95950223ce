(** C48: restart from checkpoints. *)
From Verif Require Import Base Store_Model Store_Proofs Store_Props Restart_Model Restart_Spec Restart_Proofs.
From Coq Require Import Reals List Lra Lia.
From Coquelicot Require Import Complex.
Open Scope R_scope.

(** Full statement: after any crash, restart refuses, or all ranks resume from one and the same completed checkpoint.
    It holds, for any number of ranks, any checkpoint period and any crash point of each rank ([j r] write operations done on rank r),
    when the iteration is given, with at least one species, and for states that can be saved (real mode 0, massive
    particles: see the refutations). *)
Theorem C48_explicit_partial : forall cc ee Nm Nr dt nf ns period n (st : nat -> Z -> rstate) (j : nat -> nat) size dir nproc win it l,
  0 < cc -> 0 < ee -> (0 < period)%Z -> (0 < ns)%nat -> (forall r i, state_ok nf ns (st r i)) -> (forall r i, ordinary (st r i)) ->
  restart cc ee Nr nf ns (Some it) dir size win (map (fun r => run_disk cc ee Nm dt nf ns (ckpt_its period n) (st r) (j r)) (seq 0 nproc)) = Ok l ->
  nproc = size /\ (size = 0%nat \/ In it (ckpt_its period n)) /\ Forall2 (fun r s => same_state Nm Nr it dt (st r it) s) (seq 0 size) l.
Proof.
  intros cc ee Nm Nr dt nf ns period n st j size dir nproc win it l Hc He Hp Hs WF O H.
  assert (N := its_nodup period n Hp). unfold restart in H. destruct (check_restart _ _ _ _) eqn:CK; [|discriminate]. cbn [bind] in H.
  assert (nproc = size).
  { unfold check_restart in CK. destruct (negb dir); [discriminate|]. rewrite map_length, seq_length in CK. destruct (Nat.eqb_spec nproc size) as [E|E]; [exact E|discriminate]. }
  subst nproc. split; [reflexivity|]. rewrite map_map in H. apply all_ok_forall in H.
  assert (G : Forall2 (fun r s => In it (ckpt_its period n) /\ same_state Nm Nr it dt (st r it) s) (seq 0 size) l).
  { revert H. apply Forall2_weaken. intros r s E. rewrite run_files in E by auto.
    destruct (restart_rank_ok cc ee Nm dt (st r) nf ns (WF r) Nr _ _ _ _ N Hs (fun i _ => O r i) Hc He E) as (i & I & -> & S). auto. }
  split; [|revert G; apply Forall2_weaken; tauto]. destruct size; [left; reflexivity|right]. inversion G. tauto.
Qed.
Print Assumptions C48_explicit_partial.
(** It does not refuse when the checkpoint is complete on every rank, wherever each rank was killed later, even with no species: a
    completed checkpoint can always be resumed exactly. *)
Theorem C48_completed_partial : forall cc ee Nm Nr dt nf ns period n (st : nat -> Z -> rstate) (j : nat -> nat) size k,
  0 < cc -> 0 < ee -> (0 < period)%Z -> (forall r i, state_ok nf ns (st r i)) -> (forall r i, ordinary (st r i)) ->
  (1 <= k <= n)%nat -> (forall r, (r < size)%nat -> (k * (1 + nf + ns) <= j r)%nat) ->
  let it := (Z.of_nat k * period)%Z in exists l,
  restart cc ee Nr nf ns (Some it) true size false (map (fun r => run_disk cc ee Nm dt nf ns (ckpt_its period n) (st r) (j r)) (seq 0 size)) = Ok l /\
  Forall2 (fun r s => same_state Nm Nr it dt (st r it) s) (seq 0 size) l.
Proof.
  intros cc ee Nm Nr dt nf ns period n st j size k Hc He Hp WF O Hk Hj it. assert (N := its_nodup period n Hp).
  unfold restart, check_restart. rewrite map_length, seq_length, Nat.eqb_refl. cbn [negb bind]. rewrite map_map. apply all_ok_exists. intros r Hr. apply in_seq in Hr.
  rewrite run_files by auto.
  destruct (restart_complete cc ee Nm dt (st r) nf ns (WF r) Nr (ckpt_its period n) (j r) (k - 1) N) as (s & E & Sm); try assumption.
  - replace (S (k - 1)) with k by lia. apply Hj. lia.
  - rewrite its_length. lia.
  - intros i _. apply O.
  - rewrite its_nth in E, Sm by lia. replace (S (k - 1)) with k in E, Sm by lia. exists s. auto.
Qed.
Print Assumptions C48_completed_partial.
(** Without a given iteration, and if all the ranks were killed between the same two checkpoints, the last one is resumed. *)
Theorem C48_latest_partial : forall cc ee Nm Nr dt nf ns period n (st : nat -> Z -> rstate) size k,
  0 < cc -> 0 < ee -> (0 < period)%Z -> (forall r i, state_ok nf ns (st r i)) -> (forall r i, ordinary (st r i)) -> (1 <= k <= n)%nat ->
  let it := (Z.of_nat k * period)%Z in exists l,
  restart cc ee Nr nf ns None true size false (map (fun r => run_disk cc ee Nm dt nf ns (ckpt_its period n) (st r) (k * (1 + nf + ns))) (seq 0 size)) = Ok l /\
  Forall2 (fun r s => same_state Nm Nr it dt (st r it) s) (seq 0 size) l.
Proof.
  intros cc ee Nm Nr dt nf ns period n st size k Hc He Hp WF O Hk it. assert (N := its_nodup period n Hp).
  unfold restart, check_restart. rewrite map_length, seq_length, Nat.eqb_refl. cbn [negb bind]. rewrite map_map. apply all_ok_exists. intros r Hr. apply in_seq in Hr.
  rewrite run_files by auto.
  destruct (restart_complete cc ee Nm dt (st r) nf ns (WF r) Nr (ckpt_its period n) (k * (1 + nf + ns)) (k - 1) N) as (s & E & Sm); try assumption.
  - replace (S (k - 1)) with k by lia. unfold L. lia.
  - rewrite its_length. lia.
  - intros i _. apply O.
  - rewrite its_nth in E, Sm by lia. replace (S (k - 1)) with k in E, Sm by lia. exists s. split; [|exact Sm]. rewrite <- E. apply latest_is.
    replace (k * (1 + nf + ns))%nat with (k * L nf ns)%nat by (unfold L; lia). rewrite (files_last cc ee Nm dt (st r) nf ns (WF r)) by (rewrite its_length; lia). rewrite its_nth by lia. f_equal. lia.
Qed.
Print Assumptions C48_latest_partial.

(** REFUTED: if one rank is killed before it has written the last checkpoint, restart without a given iteration resumes the
    ranks from different checkpoints, for every k and every period. *)
Theorem C48_skew_refuted : forall cc ee Nm Nr dt nf ns period n (st : nat -> Z -> rstate) k,
  0 < cc -> 0 < ee -> (0 < period)%Z -> (forall r i, state_ok nf ns (st r i)) -> (forall r i, ordinary (st r i)) -> (1 <= k < n)%nat ->
  exists s0 s1, restart cc ee Nr nf ns None true 2 false
    [run_disk cc ee Nm dt nf ns (ckpt_its period n) (st 0%nat) (S k * (1 + nf + ns)); run_disk cc ee Nm dt nf ns (ckpt_its period n) (st 1%nat) (k * (1 + nf + ns))] = Ok [s0; s1] /\
  n_it s0 = (Z.of_nat (S k) * period)%Z /\ n_it s1 = (Z.of_nat k * period)%Z /\ n_it s0 <> n_it s1 /\ (dt <> 0 -> n_time s0 <> n_time s1).
Proof.
  intros cc ee Nm Nr dt nf ns period n st k Hc He Hp WF O Hk.
  destruct (C48_latest_partial cc ee Nm Nr dt nf ns period n (fun _ => st 0%nat) 1 (S k) Hc He Hp (fun _ => WF 0%nat) (fun _ => O 0%nat) ltac:(lia)) as (l0 & E0 & F0).
  destruct (C48_latest_partial cc ee Nm Nr dt nf ns period n (fun _ => st 1%nat) 1 k Hc He Hp (fun _ => WF 1%nat) (fun _ => O 1%nat) ltac:(lia)) as (l1 & E1 & F1).
  inversion F0 as [|? s0 ? ? S0 X0]; subst. inversion X0; subst. inversion F1 as [|? s1 ? ? S1 X1]; subst. inversion X1; subst.
  cbn [seq map] in E0, E1. unfold restart, check_restart in *. cbn [length Nat.eqb negb bind map all_ok] in *. exists s0, s1.
  destruct (restart_rank cc ee Nr nf ns None (run_disk cc ee Nm dt nf ns (ckpt_its period n) (st 0%nat) (S k * (1 + nf + ns)))) as [a|]; [|discriminate]. cbn [bind] in *.
  destruct (restart_rank cc ee Nr nf ns None (run_disk cc ee Nm dt nf ns (ckpt_its period n) (st 1%nat) (k * (1 + nf + ns)))) as [b|]; [|discriminate]. cbn [bind] in *.
  injection E0 as ->. injection E1 as ->. destruct S0 as (I0 & T0 & _), S1 as (I1 & T1 & _). split; [reflexivity|]. split; [exact I0|]. split; [exact I1|].
  assert (D : (Z.of_nat (S k) * period <> Z.of_nat k * period)%Z) by nia. split; [rewrite I0, I1; exact D|]. intros Hd. rewrite T0, T1. intros E. apply D. apply eq_IZR. apply Rmult_eq_reg_r with dt; assumption.
Qed.
Print Assumptions C48_skew_refuted.
(** REFUTED: with no species, a run killed between the creation of the file and the writing of the fields is resumed at the
    new iteration with all the fields equal to 0. *)
Theorem C48_incomplete_refuted : forall cc ee Nm Nr dt nf period n (st : Z -> rstate) k,
  (0 < period)%Z -> (forall i, state_ok nf 0 (st i)) -> (1 <= k < n)%nat ->
  exists s, restart cc ee Nr nf 0 None true 1 false [run_disk cc ee Nm dt nf 0 (ckpt_its period n) st (k * (1 + nf + 0) + 1)] = Ok [s] /\
  n_it s = (Z.of_nat (S k) * period)%Z /\ length (n_fields s) = nf /\ Forall (fun fl : Z -> farray => forall m iz ir, fl m iz ir = RtoC 0) (n_fields s).
Proof.
  intros cc ee Nm Nr dt nf period n st k Hp WF Hk. assert (N := its_nodup period n Hp). unfold restart, check_restart. cbn [length Nat.eqb negb bind map all_ok].
  rewrite (run_files cc ee Nm dt st nf 0 WF) by exact N.
  destruct (partial_last cc ee Nm dt st nf 0 (ckpt_its period n) k) as [E1 E2]; [rewrite its_length; lia|].
  change (k * (1 + nf + 0) + 1)%nat with (k * L nf 0 + 1)%nat. assert (SP : forall it a b, f_sp (pfile cc ee Nm dt st it a b) = map (conv cc ee) (firstn b (r_species (st it)))) by reflexivity.
  assert (Z0 : forall f, In f (files cc ee Nm dt st nf 0 (ckpt_its period n) (k * L nf 0 + 1)) -> f_sp f = []).
  { intros f I. destruct (files_in cc ee Nm dt st nf 0 WF _ _ _ I) as (it & a & b & _ & -> & _ & Hb & _). rewrite SP. replace b with 0%nat by lia. reflexivity. }
  assert (ND : NoDup (map f_it (files cc ee Nm dt st nf 0 (ckpt_its period n) (k * L nf 0 + 1)))) by (destruct (files_its cc ee Nm dt st nf 0 (ckpt_its period n) (k * L nf 0 + 1) N) as [q ->]; apply NoDup_firstn; exact N).
  assert (F := find_unique _ _ E2 ND). unfold restart_rank. rewrite E1. rewrite its_nth in * by lia. cbn [f_it pfile] in F.
  destruct (files cc ee Nm dt st nf 0 (ckpt_its period n) (k * L nf 0 + 1)) as [|f0 d']; [destruct E2|]. rewrite (Z0 f0 (or_introl eq_refl)). cbn [length Nat.eqb negb].
  unfold find_file. rewrite F. cbn [bind]. destruct (WF (Z.of_nat (S k) * period)%Z) as (LF & _ & _). cbn [pfile f_sp f_data firstn map length].
  unfold data_at. cbn [firstn map app skipn]. rewrite map_length, LF, !Nat.ltb_irrefl. cbn [bind]. eexists. split; [reflexivity|]. cbn [n_it n_fields]. split; [reflexivity|].
  rewrite firstn_all2 by (rewrite map_length; lia). split; [rewrite !map_length; exact LF|]. apply Forall_forall. intros fl I. apply in_map_iff in I as (ds & <- & I). apply in_map_iff in I as (x & <- & _).
  intros m iz ir. unfold load_field, get_field, empty_dataset. destruct (m =? 0)%Z; destruct (Nr + ir >=? Nr)%Z; apply injective_projections; cbn; ring.
Qed.
Print Assumptions C48_incomplete_refuted.
(** REFUTED: for photons (inv_gamma = 1/p) inv_gamma is not restored: it becomes 1/sqrt(1+p^2), so the photon is slower than light
    after every restart. *)
Theorem C48_photon_refuted : forall cc ee p, let P := m_ux p ^ 2 + m_uy p ^ 2 + m_uz p ^ 2 in 0 < P -> m_ig p = 1 / sqrt P ->
  let p' := of_file cc ee 0 (to_file cc ee 0 p) in m_ux p' = m_ux p /\ m_uy p' = m_uy p /\ m_uz p' = m_uz p /\ m_ig p' < m_ig p /\
  m_ig p ^ 2 * P = 1 /\ m_ig p' ^ 2 * P < 1.
Proof.
  intros cc ee p P HP G. unfold of_file, to_file. destruct (Rlt_dec 0 0); [lra|]. destruct (Req_EM_T 0 0); [|lra]. cbn [q_px q_py q_pz m_ux m_uy m_uz m_ig].
  cbv zeta. rewrite !Rmult_1_r. unfold Rdiv at 1 2 3. rewrite Rinv_1, !Rmult_1_r.
  replace (1 + (m_ux p / 1) ^ 2 + (m_uy p / 1) ^ 2 + (m_uz p / 1) ^ 2) with (1 + P) by (unfold P; field). do 3 (split; [reflexivity|]). rewrite G.
  assert (S0 : 0 < sqrt P) by (apply sqrt_lt_R0; exact HP). assert (S1 : sqrt P < sqrt (1 + P)) by (apply sqrt_lt_1; lra).
  assert (Q0 : sqrt P * sqrt P = P) by (apply sqrt_sqrt; lra). assert (Q1 : sqrt (1 + P) * sqrt (1 + P) = 1 + P) by (apply sqrt_sqrt; lra).
  split; [unfold Rdiv; rewrite !Rmult_1_l; apply Rinv_lt_contravar; [apply Rmult_lt_0_compat; lra|exact S1]|]. split.
  - replace ((1 / sqrt P) ^ 2 * P) with (P / (sqrt P * sqrt P)) by (field; lra). rewrite Q0. field. lra.
  - replace ((1 / sqrt (1 + P)) ^ 2 * P) with (P / (sqrt (1 + P) * sqrt (1 + P))) by (field; lra). rewrite Q1. apply Rmult_lt_reg_r with (1 + P); [lra|]. unfold Rdiv. rewrite Rmult_assoc, Rinv_l by lra. lra.
Qed.
Print Assumptions C48_photon_refuted.
(** Wrong set-ups are refused. *)
Theorem C48_refuses : forall cc ee Nr nf ns iteration dir size win disks, dir = false \/ length disks <> size \/ win = true ->
  restart cc ee Nr nf ns iteration dir size win disks = Err RuntimeErr.
Proof.
  intros cc ee Nr nf ns iteration dir size win disks H. unfold restart, check_restart. destruct dir; [|reflexivity]. cbn [negb]. destruct (Nat.eqb_spec (length disks) size) as [E|E]; [|reflexivity]. cbn [negb].
  destruct H as [H|[H|H]]; [discriminate|contradiction|]. subst win. reflexivity.
Qed.
Print Assumptions C48_refuses.

(** A state with one field and one species (a tracked, ionizable particle in motion) meets the hypotheses. *)
Example C48_met : exists s, state_ok 1 1 s /\ ordinary s /\ exists p, In (2, [p]) (r_species s) /\ m_ux p = 1 /\ m_lev p = Some 3%Z.
Proof.
  set (p := {| m_x := 1; m_y := 2; m_z := 3; m_ux := 1; m_uy := 1; m_uz := 1; m_w := 5; m_ig := 1 / sqrt (1 + 1 ^ 2 + 1 ^ 2 + 1 ^ 2); m_id := Some 7%Z; m_lev := Some 3%Z |}).
  exists {| r_zmin := 1; r_fields := [fun m _ _ => if (m =? 0)%Z then RtoC 2 else (1, 3)]; r_species := [(2, [p])] |}.
  split; [split; [reflexivity|split; [reflexivity|repeat constructor; intros; reflexivity]]|]. split; [repeat constructor; cbn; lra|]. exists p. split; [left; reflexivity|]. split; reflexivity.
Qed.
