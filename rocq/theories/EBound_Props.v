(** C92: E, B and J at the boundaries, through the partial transforms. *)
From Coq Require Import Reals Lra Lia.
From Coquelicot Require Import Complex.
From Verif Require Import Base Decomp_Model Decomp_Proofs Deposit_Spec Hankel_Model Hankel_Spec Guard_Model Guard_Spec Guard_Proofs Mirror_Model Damp_Model
  EBound_Model EBound_Spec EBound_Proofs.
Import ListNotations.
Open Scope Z_scope.

(** Without PML. Reference: full inverse transform of the spectral E and B of all the ranks, guard-cell exchange, damping and
    mirrors in space. The step ends with the same E and B in space on every rank (or raises the same exception). *)
Theorem C92_as_in_space u t S I Nm r : consistent u -> u_pml u = false -> grids_ok u Nm I -> 0 <= r < u_size u -> 0 <= c_nzdamp (u_comm u r) ->
  let X := exchange u FB Replace (exchange u FE Replace (in_space u [FE; FB] S I)) r in
  match damp_and_mirrors u t r X, exchange_and_damp_EB u t S I r with
  | Ok l', Ok (_, l) => length l = Nm /\ agree (u_Nz u r) (u_Nr u) is_EB l l'
  | Err e', Err e => e = e' | _, _ => False end.
Proof.
  intros Hc Hp Hg Hr Hd X. destruct (EB_step u t S I Nm r Hc Hp Hg Hr Hd) as [(e & E1 & E2)|(w & l' & S' & l & _ & E1 & _ & E2 & A & L & _)];
    fold X in E1; rewrite E1, E2; auto.
Qed.
Print Assumptions C92_as_in_space.

(** ... and these E and B are the inverse transforms of the new spectral E and B, that the solver goes on with. *)
Theorem C92_same_fields u t S I Nm r S' l : consistent u -> u_pml u = false -> grids_ok u Nm I -> 0 <= r < u_size u -> 0 <= c_nzdamp (u_comm u r) ->
  exchange_and_damp_EB u t S I r = Ok (S', l) -> agree (u_Nz u r) (u_Nr u) is_EB l (in_space u [FE; FB] (fun _ => S') I r).
Proof.
  intros Hc Hp Hg Hr Hd H. destruct (EB_step u t S I Nm r Hc Hp Hg Hr Hd) as [(e & _ & E)|(w & l' & S0 & l0 & _ & _ & _ & E & _ & _ & A)]; rewrite H in E.
  - discriminate.
  - injection E as <- <-. exact A.
Qed.
Print Assumptions C92_same_fields.

(** What this does to the fields in space, with several ranks: guard cells take the value of the neighbour at the same place, then
    each row of each mode is multiplied by one factor between 0 and 1, common to all the components and all the radii. *)
Theorem C92_effect b c start u t S I Nm : built b c u -> consistent u -> u_pml u = false -> grids_ok u Nm I ->
  valid_comm c -> 2 <= c_size c -> 1 <= c_nguard c -> (b = Periodic -> c_nzdamp c = 0 /\ c_ninject c = 0) -> local_geometry c (u_Nz u) start ->
  (forall r, 0 <= r < c_size c -> exists d, divide_into_domain (with_rank b c r) = Ok d) ->
  exists X : Z -> Z -> fname -> Z -> Z -> C,
  (forall m f ir, 0 <= m < Z.of_nat Nm -> is_EB f = true ->
     replaced b (c_Nz c) (c_nguard c) (c_size c) (fun r => left_proc b r (c_size c)) (fun r => right_proc b r (c_size c)) (u_Nz u) start
       (fun r i => arr_of (in_space u [FE; FB] S I r) m f i ir) (fun r i => X r m f i ir)) /\
  forall r S' l, 0 <= r < c_size c -> exchange_and_damp_EB u t S I r = Ok (S', l) ->
  exists w, (forall m iz, 0 <= w m iz <= 1)%R /\ forall m f iz ir, 0 <= m < Z.of_nat Nm -> is_EB f = true -> 0 <= iz < u_Nz u r -> 0 <= ir < u_Nr u ->
  arr_of l m f iz ir = Cmult (X r m f iz ir) (RtoC (w m iz)).
Proof.
  intros HB Hc Hp Hg Hv H2 H1 Hper Hgeo Hdiv. assert (G := geom_from_constructor b c (u_Nz u) start Hv H2 H1 Hper Hgeo Hdiv).
  assert (Hdamp : 0 <= c_nzdamp c) by (unfold valid_comm in Hv; lia).
  assert (LS : forall r, 0 <= r < u_size u -> length (in_space u [FE; FB] S I r) = Nm).
  { intros r Hr. unfold in_space. cbn [fold_left]. rewrite !(meta_length _ _ (meta_s2i _ _ _ _ _)). apply Hg. exact Hr. }
  exists (fun r m f i ir => arr_of (exchange u FB Replace (exchange u FE Replace (in_space u [FE; FB] S I)) r) m f i ir). split.
  - intros m f ir Hm Hf. apply (replaced_both b c start u _ Nm m f ir HB G Hp LS Hm Hf).
  - intros r S' l Hr H. rewrite <- (bt_size _ _ _ HB) in Hr.
    assert (Hd : 0 <= c_nzdamp (u_comm u r)) by (rewrite (bt_comm _ _ _ HB); exact Hdamp).
    destruct (EB_step u t S I Nm r Hc Hp Hg Hr Hd) as [(e & _ & E)|(w & l' & S0 & l0 & U & _ & R & E & A & L & _)]; rewrite H in E; [discriminate|].
    injection E as <- <-. exists w. split; [exact U|]. intros m f iz ir Hm Hf Hz Hir. rewrite (proj2 A) by (rewrite ?L; auto).
    rewrite (proj2 R), Hf; [reflexivity|]. rewrite !(meta_length _ _ (meta_exchange _ _ _ _ _)), LS by exact Hr. exact Hm.
Qed.
Print Assumptions C92_effect.

(** The current: exchanged ('add') in the partial representation, it is the sum in space. *)
Theorem C92_current u S I Nm r : consistent u -> grids_ok u Nm I -> 0 <= r < u_size u ->
  agree (u_Nz u r) (u_Nr u) is_J (in_space u [FJ] (fun r => fst (exchange_J u S I r)) I r) (exchange u FJ Add (in_space u [FJ] S I) r).
Proof. exact (J_step u S I Nm r). Qed.
Print Assumptions C92_current.

(** With PML: E and B in space are the inverse transforms of the new spectral E and B for the modes whose matrices are inverted
    exactly (mode 0). *)
Theorem C92_pml_exact u t S I Nm r S' l m : consistent u -> u_pml u = true -> (forall r, 0 <= r < u_size u -> length (I r) = Nm) -> 0 <= r < u_size u ->
  exchange_and_damp_EB u t S I r = Ok (S', l) -> 0 <= m < Z.of_nat Nm ->
  let tr := u_trans u r m in undone (u_Nr u) (t_M0 tr) (t_invM0 tr) -> undone (u_Nr u) (t_Mp tr) (t_invMp tr) -> undone (u_Nr u) (t_Mm tr) (t_invMm tr) ->
  forall f iz ir, is_EB f = true -> 0 <= iz < u_Nz u r -> 0 <= ir < u_Nr u ->
  arr_of l m f iz ir = arr_of (in_space u [FE; FB] (fun _ => S') I r) m f iz ir.
Proof. exact (pml_step u t S I Nm r S' l m). Qed.
Print Assumptions C92_pml_exact.

(** ... but not for mode 1, whatever the inverses numpy returns: the particles feel E and B which are not those that the solver
    goes on with. Smallest grid: 2 radial cells, both in the PML; only Ez, the two radial values of whose first mode are not 0. *)
Theorem C92_pml_refuted jn zeros rmax inv pinv k : (0 < k)%R ->
  dht_invM jn zeros rmax 2 1 1 1 0 <> 0%R -> dht_invM jn zeros rmax 2 1 1 1 1 <> 0%R ->
  exists u S I S' l, u_pml u = true /\ consistent u /\ u_trans u 0 = make_transformer jn zeros rmax inv pinv 1 2 /\
    exchange_and_damp_EB u 0 S I 0 = Ok (S', l) /\ ~ agree 1 2 is_EB l (in_space u [FE; FB] (fun _ => S') I 0).
Proof.
  intros Hk Ha Hb. destruct (pml_counter jn zeros rmax inv pinv k Hk Ha Hb) as (S' & l & E & N).
  exists (pml_run jn zeros rmax inv pinv k), (fun _ => pml_S), (fun _ => pml_I), S', l.
  split; [reflexivity|]. split; [apply pml_consistent|]. split; [reflexivity|]. split; [exact E|exact N].
Qed.
Print Assumptions C92_pml_refuted.

(** Two periodic ranks, 4 guard cells, 16 rows each, 2 radial cells, two modes; any matrices. *)
Definition ex_comm : comm := {| c_rank := 0; c_size := 2; c_left := Some 1; c_right := Some 1; c_Nz := 16;
  c_zmin := 0; c_dz := 1; c_nguard := 4; c_nzdamp := 0; c_ninject := 0; c_period := 1 |}.
Definition ex_cells : list (Z * Z) := flat_map (fun i => [(i, 0); (i, 1)]) (range 16).
Definition ex_tr (M : Z -> Z -> R) : transformer := {| t_Nz := 16; t_Nr := 2; t_M0 := M; t_Mp := M; t_Mm := M; t_invM0 := M; t_invMp := M; t_invMm := M |}.
Definition ex_run (M : Z -> Z -> R) (ms : list mirror) : setup := {| u_pml := false; u_size := 2; u_left := fun r => left_proc Periodic r 2;
  u_right := fun r => right_proc Periodic r 2; u_nguard := 4; u_Nz := fun _ => 16; u_Nr := 2; u_comm := with_rank Periodic ex_comm;
  u_trans := fun _ _ => ex_tr M; u_cells := fun _ => ex_cells; u_npml := 0; u_cdt_dr := 0; u_mirrors := ms; u_c := 1 |}.
Example C92_met M ms (I : Z -> list (@igrid C)) : (forall r, 0 <= r < 2 -> length (I r) = 2%nat /\ Forall (fun g => ig_pml g = false) (I r)) ->
  built Periodic ex_comm (ex_run M ms) /\ consistent (ex_run M ms) /\ grids_ok (ex_run M ms) 2 I /\ valid_comm ex_comm /\
  local_geometry ex_comm (u_Nz (ex_run M ms)) (fun r => 8 * r - 4) /\
  (forall r, 0 <= r < 2 -> exists d, divide_into_domain (with_rank Periodic ex_comm r) = Ok d).
Proof.
  intros HI. split; [constructor; reflexivity|]. split.
  - constructor; cbn; try lia; auto.
    + intros r l Hr. assert (r = 0 \/ r = 1) as [->| ->] by lia; cbn; intros [= <-]; lia.
    + intros r l Hr. assert (r = 0 \/ r = 1) as [->| ->] by lia; cbn; intros [= <-]; lia.
    + intros r Hr. split.
      * vm_compute. repeat constructor; cbn; intuition congruence.
      * intros i j H. unfold ex_cells. apply in_flat_map. exists i. split; [apply (proj2 (in_range 16 i)); lia|]. cbn. assert (j = 0 \/ j = 1) as [->| ->] by lia; auto.
  - split; [exact HI|]. split; [unfold valid_comm; simpl; lia|]. split.
    + intros r Hr. cbn in Hr. assert (r = 0 \/ r = 1) as [->| ->] by lia; reflexivity.
    + intros r Hr. assert (r = 0 \/ r = 1) as [->| ->] by lia; eexists; reflexivity.
Qed.
(** The hypotheses of C92_pml_exact are met by the identity, those of C92_pml_refuted by Bessel-like values. *)
Example C92_pml_met : undone 2 delta_R delta_R /\ exists jn zeros, dht_invM jn zeros 1 2 1 1 1 0 <> 0%R /\ dht_invM jn zeros 1 2 1 1 1 1 <> 0%R.
Proof.
  split.
  - intros i k Hi Hk. change (range 2) with [0; 1]. cbn [rsum fold_right]. unfold delta_R.
    assert (i = 0 \/ i = 1) as [->| ->] by lia; assert (k = 0 \/ k = 1) as [->| ->] by lia; cbn; ring.
  - exists (fun _ _ => 1%R), (fun _ _ => 1%R). assert (P := PI_RGT_0). unfold dht_invM. cbn [Z.eqb Pos.eqb Z.add].
    split; apply Rgt_not_eq; apply Rdiv_lt_0_compat; nra.
Qed.
