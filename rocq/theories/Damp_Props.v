(** C51: damping at the open boundaries. *)
From Verif Require Import Base Decomp_Model Mirror_Model Damp_Model Damp_Spec Damp_Proofs.
From Coq Require Import Reals Lra Lia.
From Coquelicot Require Import Complex.
Open Scope R_scope.

(** Longitudinal ends, for a non-zero number of damping cells: every field is multiplied by a profile counted from the left
    end if the left end of this rank is open and by the same profile counted from the right end if that one is;
    other arrays are not changed. The profile is 0 in the guard and injection cells, then increases to 1. *)
Theorem C51_ends : forall c Nz g, (0 <= c_nguard c)%Z -> (0 < c_nzdamp c)%Z -> (0 <= c_ninject c)%Z ->
  (c_nguard c + c_nzdamp c + c_ninject c <= Nz)%Z ->
  exists g' phi, damp_EB_open_boundary c Nz g = Ok g' /\ damping_profile (c_nguard c + c_ninject c) (c_nzdamp c) phi /\
  forall f iz ir, (EB f (ig_pml g) ->
      ig_arr g' f iz ir = Cmult (ig_arr g f iz ir) (RtoC ((if c_left c then 1 else phi iz) * (if c_right c then 1 else phi (Nz - 1 - iz)%Z)))) /\
    (~ EB f (ig_pml g) -> ig_arr g' f iz ir = ig_arr g f iz ir).
Proof.
  intros c Nz g H1 H2 H3 H4. destruct (damp_rows c Nz g H1 ltac:(lia) H3 H4) as (g' & E & _ & _ & Q).
  exists g', (generate_damp_array (c_nguard c) (c_nzdamp c) (c_ninject c)). split; [exact E|]. split.
  - split; [intros i; apply F_range; lia|]. split; [intros i Hi; apply F_zero; lia|]. split; [intros i Hi; apply F_one; lia|].
    intros i j Hij. apply F_mono; lia.
  - intros f iz ir. rewrite Q. unfold row_factor. rewrite (proj2 (Z.eqb_neq (c_nzdamp c) 0)) by lia. unfold damped, EB.
    split; destruct f; destruct (ig_pml g); cbn; destruct (c_left c), (c_right c); intros N; try reflexivity; try contradiction; try discriminate; exfalso; apply N; trivial.
Qed.
Print Assumptions C51_ends.
(** It never increases the energy of any set of cells, whatever the boundaries, the widths and the fields. *)
Theorem C51_ends_energy : forall c Nz g ke kb w cells, (0 <= c_nguard c)%Z -> (0 <= c_nzdamp c)%Z -> (0 <= c_ninject c)%Z ->
  (c_nguard c + c_nzdamp c + c_ninject c <= Nz)%Z -> 0 <= ke -> 0 <= kb -> (forall iz ir, 0 <= w iz ir) ->
  exists g', damp_EB_open_boundary c Nz g = Ok g' /\ energy ke kb w g' cells <= energy ke kb w g cells.
Proof.
  intros c Nz g ke kb w cells H1 H2 H3 H4 He Hb Hw. destruct (damp_rows c Nz g H1 H2 H3 H4) as (g' & E & _ & _ & Q).
  exists g'. split; [exact E|]. induction cells as [|[iz ir] l IH]; [right; reflexivity|]. cbn [energy fold_right]. apply Rplus_le_compat; [|exact IH].
  apply Rmult_le_compat_l; [apply Hw|].
  assert (M : forall f, is_EB f = true -> Cmod (ig_arr g' f iz ir) ^ 2 <= Cmod (ig_arr g f iz ir) ^ 2).
  { intros f Hf. rewrite Q. unfold damped. rewrite Hf. cbn [orb]. apply pow_incr. split; [apply Cmod_ge_0|]. apply Cmod_scale, row_range; assumption. }
  unfold cell_energy. apply Rplus_le_compat; apply Rmult_le_compat_l; try assumption; repeat apply Rplus_le_compat; apply M; reflexivity.
Qed.
Print Assumptions C51_ends_energy.
(** With no damping cell but injection cells (n_damp z = 0 at open boundaries), nothing is damped: the guard and injection
    cells keep their fields. *)
Theorem C51_no_damp_cells_refuted : exists c, init 100 0 1 Open 0 1 32 None 31 0 None (1 / 200) None = Ok c /\
  c_left c = None /\ (c_nguard c + c_ninject c = 48)%Z /\ forall Nz g, damp_EB_open_boundary c Nz g = Ok g.
Proof.
  unfold init. change (init_nguard Open 1 32 None 31) with (@Ok Z 32%Z). cbn [bind].
  unfold init_period. cbv zeta.
  match goal with |- context [Raux.Ztrunc ?x] => replace x with 13 by field end. rewrite Raux.Ztrunc_IZR. cbn. eexists. split; [reflexivity|]. repeat split; reflexivity.
Qed.
Print Assumptions C51_no_damp_cells_refuted.

(** Radial PML: the factors are in (0, 1], 1 at the first PML cell and non-increasing outwards; in the PML columns Ez, Bz
    and the PML parts of Et, Bt are multiplied by them, the complements Et - Et_pml, Bt - Bt_pml and all the rest are
    unchanged. *)
Theorem C51_pml : forall n Nr k g, (0 < n)%Z -> 0 <= k ->
  let d := generate_pml_damp_array n k in
  (forall i, (0 <= i < n)%Z -> 0 < d i <= 1) /\ d 0%Z = 1 /\ (forall i j, (0 <= i <= j)%Z -> d j <= d i) /\
  let g' := damp_pml_EB n Nr k g in
  forall iz ir, let s := if (Nr - n <=? ir)%Z then d (ir - (Nr - n))%Z else 1 in
  ig_arr g' Ez iz ir = Cmult (ig_arr g Ez iz ir) (RtoC s) /\ ig_arr g' Bz iz ir = Cmult (ig_arr g Bz iz ir) (RtoC s) /\
  ig_arr g' Et_pml iz ir = Cmult (ig_arr g Et_pml iz ir) (RtoC s) /\ ig_arr g' Bt_pml iz ir = Cmult (ig_arr g Bt_pml iz ir) (RtoC s) /\
  Cminus (ig_arr g' Et iz ir) (ig_arr g' Et_pml iz ir) = Cminus (ig_arr g Et iz ir) (ig_arr g Et_pml iz ir) /\
  Cminus (ig_arr g' Bt iz ir) (ig_arr g' Bt_pml iz ir) = Cminus (ig_arr g Bt iz ir) (ig_arr g Bt_pml iz ir) /\
  forall f, match f with Er | Br | Er_pml | Br_pml | Other _ => ig_arr g' f iz ir = ig_arr g f iz ir | _ => True end.
Proof.
  intros n Nr k g N K d. split; [intros; apply pml_range; assumption|]. split.
  { unfold d, generate_pml_damp_array. replace (-4 * k * (IZR 0 * 1 / IZR n) ^ 2) with 0; [apply exp_0|]. field. apply (IZR_neq n 0). lia. }
  split; [intros; apply pml_mono; assumption|]. intros g' iz ir s. exact (pml_effect n Nr k g iz ir).
Qed.
Print Assumptions C51_pml.
(** So the PML can increase the energy: with Et_pml opposite to Et, |Et| grows, for every width and every positive ratio. *)
Theorem C51_pml_energy_refuted : forall n Nr k, (1 < n)%Z -> 0 < k -> exists g ir, (0 < ir - (Nr - n) < n)%Z /\
  energy 1 1 (fun _ _ => 1) g [(0%Z, ir)] < energy 1 1 (fun _ _ => 1) (damp_pml_EB n Nr k g) [(0%Z, ir)].
Proof.
  intros n Nr k N K.
  exists {| ig_pml := true; ig_dz := 1; ig_arr := fun f _ _ => match f with Et => RtoC 1 | Et_pml => RtoC (-1) | _ => RtoC 0 end |}, (Nr - n + 1)%Z.
  split; [lia|]. cbn [energy fold_right]. set (g := {| ig_pml := true; ig_dz := 1; ig_arr := _ |}).
  destruct (pml_effect n Nr k g 0%Z (Nr - n + 1)%Z) as (E1 & E2 & E3 & _ & E5 & E6 & E7). rewrite (proj2 (Z.leb_le _ _)) in * by lia.
  replace (Nr - n + 1 - (Nr - n))%Z with 1%Z in * by lia. set (d := generate_pml_damp_array n k 1) in *.
  assert (D : d < 1).
  { assert (P : 0 < / IZR n) by (apply Rinv_0_lt_compat, (IZR_lt 0); lia). assert (0 < (/ IZR n) ^ 2) by (apply pow_lt; assumption).
    assert (0 < k * (/ IZR n) ^ 2) by (apply Rmult_lt_0_compat; assumption). apply Rlt_le_trans with (exp 0); [|rewrite exp_0; right; reflexivity].
    unfold d, generate_pml_damp_array. apply exp_increasing. replace (IZR 1 * 1 / IZR n) with (/ IZR n) by (unfold Rdiv; ring). lra. }
  destruct (pml_effect n Nr k g 0%Z (Nr - n + 1)%Z) as (_ & _ & _ & E4 & _). rewrite (proj2 (Z.leb_le _ _)) in E4 by lia.
  replace (Nr - n + 1 - (Nr - n))%Z with 1%Z in E4 by lia. fold d in E4.
  set (h := damp_pml_EB n Nr k g) in *.
  assert (T : ig_arr h Et 0%Z (Nr - n + 1)%Z = RtoC (2 - d)).
  { rewrite E3 in E5. cbn [ig_arr g] in E5. apply (f_equal (fun x => Cplus x (Cmult (RtoC (-1)) (RtoC d)))) in E5. ring_simplify in E5. rewrite E5. apply injective_projections; cbn; ring. }
  assert (U : ig_arr h Bt 0%Z (Nr - n + 1)%Z = RtoC 0).
  { rewrite E4 in E6. cbn [ig_arr g] in E6. apply (f_equal (fun x => Cplus x (Cmult (RtoC 0) (RtoC d)))) in E6. ring_simplify in E6. rewrite E6. apply injective_projections; cbn; ring. }
  unfold cell_energy. rewrite T, U, E1, E2, (E7 Er), (E7 Br). cbn [ig_arr g].
  rewrite <- !RtoC_mult, !Cmod_R. replace (0 * d) with 0 by ring. rewrite Rabs_R0, Rabs_R1, (Rabs_pos_eq (2 - d)) by lra. nra.
Qed.
Print Assumptions C51_pml_energy_refuted.
(** The part that holds: E and B without Et, Bt, and the split parts of Et, Bt. *)
Theorem C51_pml_energy_partial : forall n Nr k g iz ir, (0 < n)%Z -> 0 <= k -> let g' := damp_pml_EB n Nr k g in
  Forall (fun f => Cmod (ig_arr g' f iz ir) <= Cmod (ig_arr g f iz ir)) [Er; Ez; Br; Bz; Er_pml; Et_pml; Br_pml; Bt_pml] /\
  Cmod (Cminus (ig_arr g' Et iz ir) (ig_arr g' Et_pml iz ir)) <= Cmod (Cminus (ig_arr g Et iz ir) (ig_arr g Et_pml iz ir)) /\
  Cmod (Cminus (ig_arr g' Bt iz ir) (ig_arr g' Bt_pml iz ir)) <= Cmod (Cminus (ig_arr g Bt iz ir) (ig_arr g Bt_pml iz ir)).
Proof.
  intros n Nr k g iz ir N K g'. destruct (C51_pml n Nr k g N K) as (R & _ & _ & P). destruct (P iz ir) as (P1 & P2 & P3 & P4 & P5 & P6 & P7). fold g' in P1, P2, P3, P4, P5, P6, P7.
  assert (S : forall i, 0 <= (if (Nr - n <=? ir)%Z then generate_pml_damp_array n k i else 1) <= 1).
  { intros i. destruct (Nr - n <=? ir)%Z; [|lra]. destruct (pml_range n k i K). lra. }
  rewrite P5, P6. split; [|split; right; reflexivity].
  repeat apply Forall_cons; try apply Forall_nil; rewrite ?P1, ?P2, ?P3, ?P4; try (apply Cmod_scale, S);
    match goal with |- Cmod (ig_arr g' ?f _ _) <= _ => rewrite (P7 f); right; reflexivity end.
Qed.
Print Assumptions C51_pml_energy_partial.

(** Odd and minimal widths: one damping cell, and three. *)
Example C51_met : exists c, init 100 0 1 Open 0 1 32 None 31 3 None (1 / 200) None = Ok c /\ (0 < c_nzdamp c)%Z /\ c_left c = None /\ c_right c = None /\
  generate_damp_array 32 3 16 49 = 3 / 4 /\ generate_damp_array 32 3 16 50 = 1 /\ generate_damp_array 32 1 16 48 = 0.
Proof.
  unfold init. change (init_nguard Open 1 32 None 31) with (@Ok Z 32%Z). cbn [bind].
  unfold init_period. cbv zeta.
  match goal with |- context [Raux.Ztrunc ?x] => replace x with 13 by field end. rewrite Raux.Ztrunc_IZR. eexists. split; [reflexivity|].
  split; [cbn; lia|]. split; [reflexivity|]. split; [reflexivity|]. split; [|split].
  - destruct (F_sin 32 3 16 49 ltac:(lia) ltac:(lia)) as [-> _]. replace (IZR (49 - (32 + 16)) * PI / 3) with (PI / 3) by (cbn; field).
    rewrite sin_PI3. unfold Rdiv. rewrite Rpow_mult_distr. rewrite <- Rsqr_pow2, Rsqr_sqrt by lra. field.
  - apply F_one; lia.
  - destruct (F_sin 32 1 16 48 ltac:(lia) ltac:(lia)) as [-> _]. replace (IZR (48 - (32 + 16)) * PI / 1) with 0 by (cbn; field). rewrite sin_0. ring.
Qed.
