(** C93: the automatic number of guard cells. *)
From Coq Require Import Reals Lra Lia.
From Coquelicot Require Import Complex.
From Verif Require Import Base Fourier_Lib Hankel_Model ModK_Model Decomp_Model StReach_Model StReach_Spec StReach_Proofs.
Import ListNotations.
Open Scope R_scope.

(** The number returned is the smallest distance, less than half of the grid, at which the response of the solver (in one step,
    to a field concentrated in one cell) is below machine precision; IndexError if there is none. *)
Theorem C93_first c Nz dz cdt n_order v ug kz : (0 < Nz)%Z -> c <> 0 -> (ug = true -> v <> None) ->
  get_modified_k (map (kz_true Nz dz) (range Nz)) n_order dz = Ok kz ->
  let d := if ug then match v with Some v => Rabs v * cdt / c | None => 0 end else 0 in
  let at_ := total (Z.to_nat Nz) (fun n => nth n kz 0) (1 / 2) cdt d in
  match get_stencil_reach c Nz dz cdt n_order v ug with
  | Ok n => (0 <= n < Nz / 2)%Z /\ at_ (Z.to_nat n) < tiny /\ forall m, (m < Z.to_nat n)%nat -> tiny <= at_ m
  | Err e => e = IndexError /\ forall m, (m < Z.to_nat (Nz / 2))%nat -> tiny <= at_ m
  end.
Proof.
  intros HN Hc Hv Hk d at_. unfold get_stencil_reach. rewrite Hk. cbn [bind].
  assert (L : length kz = Z.to_nat Nz).
  { unfold get_modified_k in Hk. destruct (n_order =? -1)%Z; [|destruct ((n_order mod 2 =? 1)%Z || (n_order <=? 0)%Z)%bool; [discriminate|]];
      injection Hk as <-; rewrite ?map_length; apply length_range. }
  rewrite reach_alpha by (try lia; auto; lra). rewrite L. fold at_. change (drift c cdt v ug) with d.
  assert (H2 : (Z.to_nat Nz / 2)%nat = Z.to_nat (Nz / 2)) by (rewrite Z2Nat.inj_div by lia; reflexivity). rewrite H2.
  fold at_. set (l := map at_ (seq 0 (Z.to_nat (Nz / 2)))).
  assert (Hl : length l = Z.to_nat (Nz / 2)) by (unfold l; rewrite map_length; apply seq_length).
  assert (Hn : forall m, (m < Z.to_nat (Nz / 2))%nat -> nth m l 0 = at_ m).
  { intros m Hm. rewrite (nth_indep _ 0 (at_ 0%nat)) by lia. unfold l. rewrite map_nth, seq_nth by lia. reflexivity. }
  destruct (first_below_spec tiny l 0) as [(n & A & B & D & E)|[A B]]; fold l.
  - rewrite B, Z.add_0_l, Nat2Z.id. rewrite Hl in A. pose proof (Z.div_pos Nz 2). split; [lia|]. split; [rewrite <- Hn by lia; exact D|].
    intros m Hm. rewrite <- Hn by lia. apply E. exact Hm.
  - rewrite A. split; [reflexivity|]. intros m Hm. rewrite <- Hn by lia. apply B. lia.
Qed.
Print Assumptions C93_first.

(** What these numbers mean: if the response is below machine precision at all the distances from n to Nz - n, then the fields
    n cells away or farther do not change the new field in a cell, up to 1e-16 times what was changed. *)
Theorem C93_effect N kz kp T d n w f g j : (0 < N)%nat ->
  (forall i, (n <= i)%nat -> (i + n <= N)%nat -> total N kz kp T d i < tiny) ->
  (forall m, (m < N)%nat -> ~ apart N n m j -> f m = g m) ->
  let G := fun k => symbol w kp T d (kz k) in
  Cmod (Cminus (advance N G f j) (advance N G g j)) <= tiny * sum N (fun m => Cmod (Cminus (f m) (g m))).
Proof.
  intros HN Ht Hf G. apply local with (n := n); auto.
  - apply Rlt_le, tiny_small.
  - intros i H1 H2. apply Rlt_le. eapply Rle_lt_trans; [apply response_le_total|]. apply Ht; auto.
Qed.
Print Assumptions C93_effect.

(** The response is the same on both sides; in a moving frame, the sides are exchanged with the direction of the frame. *)
Theorem C93_sides N kz kp T d i : (0 < N)%nat -> (i <= N)%nat -> total N kz kp T (- d) (N - i) = total N kz kp T d i.
Proof. intros HN Hi. symmetry. apply total_mirror; auto. Qed.
Print Assumptions C93_sides.
Theorem C93_direction c Nz dz cdt n_order v ug : get_stencil_reach c Nz dz cdt n_order (Some (- v)) ug = get_stencil_reach c Nz dz cdt n_order (Some v) ug.
Proof. unfold get_stencil_reach, stencil_reach, theta_of. rewrite Rabs_Ropp. reflexivity. Qed.
Print Assumptions C93_direction.

(** The squares of the responses at all distances add up to 1: nothing is lost, and the response cannot be below machine
    precision everywhere on a grid of less than 10^32 cells. *)
Theorem C93_energy N kz kp T d : (0 < N)%nat -> kp <> 0 -> sum N (fun i => total N kz kp T d i ^ 2) = 1.
Proof. intros HN Hk. apply energy; auto. Qed.
Print Assumptions C93_energy.

(** The number of guard cells is the number above plus one (or 0 for one process with periodic boundaries): the argument of the
    decomposition (C13) is then this one. *)
Theorem C93_guard c b size Nz dz cdt n_order v ug n : get_stencil_reach c Nz dz cdt n_order v ug = Ok n ->
  forall n_guard, guard_cells c b size Nz dz cdt n_order v ug n_guard = init_nguard b size n_order n_guard n.
Proof. intros H [g|]; unfold guard_cells, init_nguard; [reflexivity|]. rewrite H. reflexivity. Qed.
Print Assumptions C93_guard.

(** REFUTED (1): beyond the number returned the response may be above machine precision again (4 cells, c dt < dz). *)
Theorem C93_beyond_refuted : exists Nz dz cdt n_order kz n i,
  (0 < cdt < dz /\ get_modified_k (map (kz_true Nz dz) (range Nz)) n_order dz = Ok kz /\
  (forall c v, c <> 0 -> get_stencil_reach c Nz dz cdt n_order v false = Ok n) /\ (n <= Z.of_nat i <= Nz - n)%Z /\
  1 / 32 <= total (Z.to_nat Nz) (fun k => nth k kz 0) (1 / 2) cdt 0 i).
Proof.
  assert (G4 : get_modified_k (map (kz_true 4 (48 / 7)) (range 4)) 2 (48 / 7) = Ok [0; 7 / 48; 0; - (7 / 48)]).
  { rewrite grid4 by lra. replace (1 / (48 / 7)) with (7 / 48) by field. reflexivity. }
  exists 4%Z, (48 / 7), (48 * PI / 25), 2%Z, [0; 7 / 48; 0; - (7 / 48)], 1%Z, 2%nat.
  assert (K : 25 / 48 * (48 * PI / 25) = PI) by field. assert (K2 : 1 / 2 * (48 * PI / 25) = PI - PI / 25) by field.
  assert (S0 : sin (25 / 48 * (48 * PI / 25)) = 0) by (rewrite K; apply sin_PI).
  pose proof PI_RGT_0 as P. pose proof PI_4 as P4. pose proof tiny_small as TS.
  split; [pose proof PI_ineq 2 as [_ U]; unfold tg_alt, PI_tg in U; simpl in U; lra|]. split; [exact G4|]. split; [|split; [lia|]].
  - intros c v Hc. pose proof (C93_first c 4 (48 / 7) (48 * PI / 25) 2 v false _ ltac:(lia) Hc ltac:(discriminate) G4) as F. cbv zeta in F.
    change (fun n => nth n [0; 7 / 48; 0; - (7 / 48)] 0) with kz4 in F. change (Z.to_nat 4) with 4%nat in F.
    assert (Z1 := total4_1 _ S0).
    assert (Z0 : tiny <= total 4 kz4 (1 / 2) (48 * PI / 25) 0 0).
    { eapply Rle_trans; [|apply (response_le_total 4 Ccos)]. rewrite cos4_0, K, K2, cos_PI.
      rewrite Rtrigo_facts.cos_pi_minus. assert (0 < cos (PI / 25)) by (apply cos_gt_0; lra). rewrite Rabs_left by lra. lra. }
    destruct (get_stencil_reach c 4 (48 / 7) (48 * PI / 25) 2 v false) as [n|e].
    + destruct F as ((A & B) & D & E). change (4 / 2)%Z with 2%Z in B. assert (n = 0 \/ n = 1)%Z as [->| ->] by lia; [|reflexivity].
      change (Z.to_nat 0) with 0%nat in D. lra.
    + destruct F as [_ F]. specialize (F 1%nat). rewrite Z1 in F. change (Z.to_nat (4 / 2)) with 2%nat in F. specialize (F ltac:(lia)). lra.
  - change (fun n => nth n [0; 7 / 48; 0; - (7 / 48)] 0) with kz4. change (Z.to_nat 4) with 4%nat.
    eapply Rle_trans; [|apply (response_le_total 4 Csinp)]. rewrite sinp4_2, K2, sin_PI_x by exact S0. pose proof sin25. rewrite Rabs_pos_eq by lra. lra.
Qed.
Print Assumptions C93_beyond_refuted.

(** REFUTED (2): on a grid of one or two cells the creation fails for every order of the solver, also with one process and periodic
    boundaries, where no guard cell is needed. *)
Theorem C93_small_refuted c b size Nz dz cdt n_order v ug : (Nz = 1 \/ Nz = 2)%Z -> c <> 0 -> dz <> 0 -> (ug = true -> v <> None) ->
  (0 < n_order)%Z -> Z.Even n_order -> guard_cells c b size Nz dz cdt n_order v ug None = Err IndexError.
Proof.
  intros HN Hc Hd Hv H1 H2. unfold guard_cells. replace (n_order =? -1)%Z with false by (symmetry; apply Z.eqb_neq; lia).
  assert (E : get_stencil_reach c Nz dz cdt n_order v ug = Err IndexError); [|rewrite E; reflexivity].
  destruct HN as [-> | ->].
  - pose proof (orders n_order (map (kz_true 1 dz) (range 1)) dz H1 H2) as K.
    pose proof (C93_first c 1 dz cdt n_order v ug _ ltac:(lia) Hc Hv K) as F. cbv zeta in F.
    destruct (get_stencil_reach c 1 dz cdt n_order v ug) as [n|e]; [|destruct F as [-> _]; reflexivity].
    destruct F as [[A B] _]. change (1 / 2)%Z with 0%Z in B. lia.
  - pose proof (grid2 n_order dz H1 H2 Hd) as K.
    pose proof (C93_first c 2 dz cdt n_order v ug _ ltac:(lia) Hc Hv K) as F. cbv zeta in F.
    destruct (get_stencil_reach c 2 dz cdt n_order v ug) as [n|e]; [|destruct F as [-> _]; reflexivity].
    destruct F as ((A & B) & D & _). change (2 / 2)%Z with 1%Z in B. assert (n = 0)%Z by lia. subst n.
    change (Z.to_nat 0) with 0%nat in D. change (Z.to_nat 2) with 2%nat in D. rewrite total2 in D by reflexivity. pose proof tiny_small. lra.
Qed.
Print Assumptions C93_small_refuted.

(** Hypotheses met: with 4 cells and c dt = 96 pi, the number is 1 and the response is 0 at all the distances from 1 to 3. *)
Example C93_met : get_modified_k (map (kz_true 4 (48 / 7)) (range 4)) 2 (48 / 7) = Ok [0; 7 / 48; 0; - (7 / 48)] /\
  (forall i, (1 <= i)%nat -> (i + 1 <= 4)%nat -> total 4 (fun k => nth k [0; 7 / 48; 0; - (7 / 48)] 0) (1 / 2) (96 * PI) 0 i < tiny) /\
  ~ apart 4 1 2 2 /\ apart 4 1 2 3.
Proof.
  assert (S0 : sin (25 / 48 * (96 * PI)) = 0) by (replace (25 / 48 * (96 * PI)) with (INR 50 * PI) by (simpl; field); apply sin_nPI).
  split; [rewrite grid4 by lra; replace (1 / (48 / 7)) with (7 / 48) by field; reflexivity|].
  split; [|split; unfold apart; [change (~ (1 <= 0 <= 3)%Z)|change (1 <= 1 <= 3)%Z]; lia].
  change (fun k => nth k [0; 7 / 48; 0; - (7 / 48)] 0) with kz4. intros i Hi Hi'. pose proof tiny_small as TS.
  assert (E : sum 4 (fun i => total 4 kz4 (1 / 2) (96 * PI) 0 i ^ 2) = 1) by (apply energy; [lia|lra]). cbn [sum] in E.
  assert (T0 : 1 <= total 4 kz4 (1 / 2) (96 * PI) 0 0).
  { eapply Rle_trans; [|apply (response_le_total 4 Ccos)]. rewrite cos4_0.
    replace (1 / 2 * (96 * PI)) with (0 + 2 * INR 24 * PI) by (simpl; field). replace (25 / 48 * (96 * PI)) with (0 + 2 * INR 25 * PI) by (simpl; field).
    rewrite !cos_period, cos_0. rewrite Rabs_pos_eq; lra. }
  assert (T2 : forall k, (1 <= k < 4)%nat -> total 4 kz4 (1 / 2) (96 * PI) 0 k ^ 2 <= 0).
  { intros k Hk. pose proof (pow2_ge_0 (total 4 kz4 (1 / 2) (96 * PI) 0 1)). pose proof (pow2_ge_0 (total 4 kz4 (1 / 2) (96 * PI) 0 2)).
    pose proof (pow2_ge_0 (total 4 kz4 (1 / 2) (96 * PI) 0 3)). assert (1 <= total 4 kz4 (1 / 2) (96 * PI) 0 0 ^ 2) by nra.
    assert (k = 1 \/ k = 2 \/ k = 3)%nat as [-> |[-> | ->]] by lia; lra. }
  specialize (T2 i ltac:(lia)). pose proof (total_ge0 4 kz4 (1 / 2) (96 * PI) 0 i). nra.
Qed.
