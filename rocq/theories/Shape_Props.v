(** C21: shape factors. *)
From Verif Require Import Base Shape_Model Shape_Spec Shape_Proofs.
From Coq Require Import Reals Lra.
From Coquelicot Require Import Coquelicot.
Open Scope R_scope.

Theorem C21_partition_of_unity sh pos beta :
  zsum (npts sh) (Sz sh pos) = 1 /\ zsum (npts sh) (fun i => Sr sh pos i 1 beta) = 1.
Proof. exact (conj (sz_sum sh pos) (sr_sum sh pos beta)). Qed.
Print Assumptions C21_partition_of_unity.

Theorem C21_weights_in_unit sh pos i : (0 <= i < npts sh)%Z -> 0 <= Sz sh pos i <= 1.
Proof. exact (sz_bounds sh pos i). Qed.
Print Assumptions C21_weights_in_unit.

(** The weighted mean of the grid points is the position. *)
Theorem C21_mean_position sh pos : zsum (npts sh) (fun i => Sz sh pos i * IZR (first_pt sh pos + i)) = pos.
Proof. exact (sz_mean sh pos). Qed.
Print Assumptions C21_mean_position.

(** The weight of a grid point is the B-spline of the distance, hence continuous in the position,
    across cell boundaries too. *)
Theorem C21_spline sh pos k : weight_at sh pos k = spline sh (pos - IZR k).
Proof. exact (sz_spline sh pos k). Qed.
Print Assumptions C21_spline.
Theorem C21_continuous sh k pos : continuous (fun p => weight_at sh p k) pos.
Proof. exact (sz_continuous sh k pos). Qed.
Print Assumptions C21_continuous.

(** A particle on a grid point and between two. *)
Example C21_met : (0 <= 1 < npts Cubic)%Z /\ weight_at Linear (5 / 2) 2 = 1 / 2 /\ weight_at Cubic 3 3 = 2 / 3.
Proof.
  split; [cbn; lia|]. rewrite !sz_spline. cbn [spline]. split.
  - rabs. rmax. lra.
  - rabs. rmax. lra.
Qed.
