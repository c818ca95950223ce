(** Vocabulary of C49: where a particle is in the lab frame, and when it crosses the snapshot time. *)
From Verif Require Import Base Boost_Spec BPart_Model.
From Coq Require Import Reals.
Open Scope R_scope.

(** The boosted-frame event of a particle at time t, seen in the lab (which moves with -b in the boosted frame). *)
Definition at_time (t : R) (p : bptcl) : event := {| e_t := t; e_x := bx p; e_y := by_ p; e_z := bz p |}.
Definition in_lab (d : bdiag) (b : R) (e : event) : event := lorentz (d_c d) (d_g d) (- b) e.
(** The lab time of the particle at iteration n. *)
Definition lab_time (d : bdiag) (b : R) (p : Z -> bptcl) (n : Z) : R :=
  e_t (in_lab d b (at_time (IZR n * d_dt d) (p n))).
(** From one iteration to the next the particle moves with the velocity it has at the end, not faster than light along z. *)
Definition moves (d : bdiag) (p : Z -> bptcl) : Prop :=
  forall n, bx (p (n + 1)%Z) = bx (p n) + d_dt d * d_c d * big (p (n + 1)%Z) * bux (p (n + 1)%Z) /\
            by_ (p (n + 1)%Z) = by_ (p n) + d_dt d * d_c d * big (p (n + 1)%Z) * buy (p (n + 1)%Z) /\
            bz (p (n + 1)%Z) = bz (p n) + d_dt d * d_c d * big (p (n + 1)%Z) * buz (p (n + 1)%Z) /\
            Rabs (buz (p n) * big (p n)) <= 1.
(** At iteration n the point of the snapshot plane lies in the local grid and in the snapshot. *)
Definition in_view (d : bdiag) (b lo hi : R) (n : Z) : Prop :=
  exists z, let e := in_lab d b {| e_t := IZR n * d_dt d; e_x := 0; e_y := 0; e_z := z |} in
  e_t e = s_t d /\ lo <= z < hi /\ s_zmin d <= e_z e < s_zmax d.
(** The point of the way from e1 to e2 with weight w. *)
Definition on_the_way (w : R) (e1 e2 : event) : event :=
  {| e_t := (1 - w) * e_t e1 + w * e_t e2; e_x := (1 - w) * e_x e1 + w * e_x e2;
     e_y := (1 - w) * e_y e1 + w * e_y e2; e_z := (1 - w) * e_z e1 + w * e_z e2 |}.
(** The diagnostic describes this boost. *)
Definition diag_ok (d : bdiag) (b : R) : Prop := boost_ok (d_g d) b /\ 0 < b /\ 0 < d_c d /\ 0 < d_dt d.
(** What was recorded at iteration n by a process whose grid is [lo n, hi n]. *)
Definition records (d : bdiag) (lo hi : Z -> R) (p : Z -> bptcl) (n : Z) : list lptcl :=
  store_snapshot_slices d (lo n) (hi n) n [p n].
(** The momentum (in units of m c) of a particle with momentum (ux, uy, uz), seen in the lab. *)
Definition on_shell (p : bptcl) : Prop := big p = 1 / sqrt (1 + bux p ^ 2 + buy p ^ 2 + buz p ^ 2).
(** What one process records of a species at iteration n, one particle at a time. *)
Definition records_of_all (d : bdiag) (lo hi : Z -> R) (l : Z -> list bptcl) (n : Z) : list lptcl :=
  flat_map (fun p => store_snapshot_slices d (lo n) (hi n) n [p]) (l n).
