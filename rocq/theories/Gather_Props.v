(** C54: field gathering. *)
From Verif Require Import Base Shape_Model Gather_Model Gather_Spec Gather_Proofs.
From Coq Require Import Reals Lra Lia.
From Coquelicot Require Import Complex.
Open Scope R_scope.

(** For both shapes, every number of modes, every grid from the axis, every particle of the box (on the axis, in the half
    cell next to it, in the edge cells, at any azimuth), the modes of a uniform field give back exactly that field, for E and for B. With one mode only, the
    transverse field has to be 0 (it is not representable). *)
Theorem C54_uniform : forall q sh g dz dr rmax E B x y z (Ex Ey Ez Bx By Bz : R) old, q <> 0 ->
  regular g dz dr -> in_box g dz dr rmax x y z -> uniform_modes g Ex Ey Ez E -> uniform_modes g Bx By Bz B -> length E = length B ->
  (2 <= length E)%nat \/ (length E = 1%nat /\ Ex = 0 /\ Ey = 0 /\ Bx = 0 /\ By = 0) ->
  gather q sh g rmax E B x y z old = ((Ex, Ey, Ez), (Bx, By, Bz)).
Proof.
  intros q sh g dz dr rmax E B x y z Ex Ey Ez Bx By Bz old Q G I UE UB L N. unfold gather. destruct (Req_EM_T q 0); [contradiction|].
  f_equal; apply gather_uniform with dz dr; try assumption.
  - destruct N as [N|(N & A)]; [left; exact N|right; tauto].
  - rewrite <- L. destruct N as [N|(N & A)]; [left; exact N|right; tauto].
Qed.
Print Assumptions C54_uniform.
(** Outside: at or beyond rmax (radial PML) the gathered fields are 0 whatever the arrays; a neutral species keeps its own. *)
Theorem C54_outside : forall q sh g rmax E B x y z old, rmax <= sqrt (x ^ 2 + y ^ 2) ->
  gather q sh g rmax E B x y z old = if Req_EM_T q 0 then old else ((0, 0, 0), (0, 0, 0)).
Proof.
  intros q sh g rmax E B x y z old H. unfold gather. destruct (Req_EM_T q 0); [reflexivity|]. f_equal; apply gather_outside; assumption.
Qed.
Print Assumptions C54_outside.

(** On the axis, and in the half cell below the first node, with 2 and with 3 modes. *)
Example C54_met : exists g dz dr rmax E2 E3, regular g dz dr /\ in_box g dz dr rmax 0 0 0 /\ in_box g dz dr rmax (1 / 10) (- 1 / 10) 4 /\
  uniform_modes g 3 (- 2) 5 E2 /\ uniform_modes g 3 (- 2) 5 E3 /\ length E2 = 2%nat /\ length E3 = 3%nat.
Proof.
  set (k := fun (a b d : C) => {| f_r := fun _ _ => a; f_t := fun _ _ => b; f_z := fun _ _ => d |}).
  exists {| gg_invdz := 1 / 2; gg_zmin := 0; gg_Nz := 2; gg_invdr := 1; gg_rmin := 0; gg_Nr := 2 |}, 2, 1, 2.
  exists [k (RtoC 0) (RtoC 0) (RtoC 5); k (3 / 2, -2 / 2) (-2 / 2, - 3 / 2) (RtoC 0)].
  exists [k (RtoC 0) (RtoC 0) (RtoC 5); k (3 / 2, -2 / 2) (-2 / 2, - 3 / 2) (RtoC 0); k (RtoC 0) (RtoC 0) (RtoC 0)].
  split; [repeat split; cbn; try lra; try lia|]. split; [split; [cbn; lra|]; replace (0 ^ 2 + 0 ^ 2) with 0 by ring; rewrite sqrt_0; cbn; lra|].
  split; [split; [cbn; lra|]; split; [|cbn; lra]|].
  { rewrite <- (sqrt_pow2 2) by lra. apply sqrt_lt_1; lra. }
  split; [|split; [|split; reflexivity]]; intros m fld H.
  - destruct m as [|[|m]]; [| |destruct m; discriminate]; injection H as <-; repeat split; intros ? ? _ _; reflexivity.
  - destruct m as [|[|[|m]]]; [| | |destruct m; discriminate]; injection H as <-; repeat split; intros ? ? _ _; reflexivity.
Qed.
