(** C60: the gathered field. *)
From Coq Require Import Reals Lra Lia.
From Coquelicot Require Import Complex.
From Verif Require Import Base Shape_Model Shape_Spec Gather_Model Gather_Spec Gather_Proofs GatForm_Spec GatForm_Proofs.
Open Scope R_scope.

(** For both shapes, any number of modes, whatever the fields on the grid, any particle of the box: the vectors E and B that act
    on a particle are the spline interpolation of the Cartesian field vectors at the nodes of its plane. *)
Theorem C60_gather_formula q sh g dz dr rmax E B x y z old : q <> 0 -> regular g dz dr -> in_box g dz dr rmax x y z ->
  let r := sqrt (x * x + y * y) in
  let e := if Req_EM_T r 0 then RtoC 1 else (x / r, y / r) in
  gather q sh g rmax E B x y z old = (interpolated sh g dz dr E r z e, interpolated sh g dz dr B r z e).
Proof.
  intros Q G I r e. unfold gather. destruct (Req_EM_T q 0); [contradiction|].
  f_equal; apply gather_formula; try assumption; reflexivity.
Qed.
Print Assumptions C60_gather_formula.

(** On the axis and near it; a field that is not uniform, whose interpolated value is not 0. *)
Example C60_met : exists g dz dr rmax fld, regular g dz dr /\ in_box g dz dr rmax (1 / 10) (- 1 / 10) 4 /\ in_box g dz dr rmax (1 / 2) 0 1 /\
  interpolated Linear g dz dr [fld] (1 / 2) 1 (RtoC 1) = (7, 0, 3).
Proof.
  exists {| gg_invdz := 1 / 2; gg_zmin := 0; gg_Nz := 2; gg_invdr := 1; gg_rmin := 0; gg_Nr := 2 |}, 2, 1, 2.
  exists {| f_r := fun iz ir => RtoC (if ((iz =? 0) && (ir =? 0))%Z then 7 else 1);
            f_t := fun _ _ => RtoC 0; f_z := fun iz ir => RtoC (if ((iz =? 0) && (ir =? 0))%Z then 3 else 2) |}.
  split; [repeat split; cbn; try lra; try lia|].
  split; [split; [cbn; lra|]; split; [|cbn; lra]|].
  { rewrite <- (sqrt_pow2 2) by lra. apply sqrt_lt_1; lra. }
  split; [split; [cbn; lra|]; split; [|cbn; lra]|].
  { replace ((1 / 2) ^ 2 + 0 ^ 2) with ((1 / 2) ^ 2) by ring. rewrite sqrt_pow2; lra. }
  unfold interpolated. cbn [gg_zmin gg_Nr gg_Nz].
  replace ((1 - 0) / 2 - 1 / 2) with 0 by field. replace (1 / 2 / 1 - 1 / 2) with 0 by field.
  assert (Z0 : spline Linear (0 - 0) = 1).
  { unfold spline. replace (0 - 0) with 0 by ring. rewrite Rabs_R0, Rmax_right; lra. }
  assert (ZN : forall i, (i <> 0)%Z -> spline Linear (0 - IZR i) = 0).
  { intros i H. unfold spline. apply Rmax_left. replace (0 - IZR i) with (- IZR i) by ring. rewrite Rabs_Ropp, <- abs_IZR.
    assert (1 <= IZR (Z.abs i)) by (apply IZR_le; lia). lra. }
  change (map (fun j => j - 2)%Z (range (2 + 4))) with [-2; -1; 0; 1; 2; 3]%Z. unfold vsum. cbn [fold_right].
  rewrite !Z0, ?(ZN (-2)%Z), ?(ZN (-1)%Z), ?(ZN 1%Z), ?(ZN 2%Z), ?(ZN 3%Z) by lia.
  assert (S0 : forall v, scaled 0 v = (0, 0, 0)).
  { intros [[a b] d]. unfold scaled. f_equal; [f_equal|]; ring. }
  rewrite ?Rmult_0_l, ?Rmult_0_r, ?S0. rewrite Rmult_1_l.
  unfold node_field, scaled, vadd; cbn. f_equal; [f_equal|]; ring.
Qed.
