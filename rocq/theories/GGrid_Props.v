(** C94: gathering a grid gives the fields of the whole domain, at the right positions. *)
From Coq Require Import ZArith Reals List String Lia Lra.
From Verif Require Import Base Decomp_Model Decomp_Proofs GGrid_Model GGrid_Spec GGrid_Proofs.
Import ListNotations.
Open Scope Z_scope.

(** C94: whatever the number of ranks, of guard, damp and injection cells, and after any moves of the window, the
    call succeeds; the grid that is returned has the mode, the number of cells and the extent of the physical domain
    (which has moved with the window). *)
Theorem C94_extent {A : Type} (zero : A) c q m ns G root : setting zero c q m ns G ->
  exists g, gather_grid zero (moved_comm ns c) q root G = Ok g /\ g_m g = g_m (G root) /\
    forall f, nz (view g f) = c_Nz c /\ nr (view g f) = r_Nr q /\
      fills (view g f) (c_zmin c + IZR (zsum ns) * c_dz c)
                       (c_zmin c + IZR (zsum ns + c_Nz c) * c_dz c) (IZR (r_Nr q) * r_dr q).
Proof. exact (gathered_fills zero c q m ns G root). Qed.
Print Assumptions C94_extent.

(** C94: the grids of the ranks follow the window too: the bounds that they record and the positions of their cells are
    those of their (enlarged) part of the moved domain. *)
Theorem C94_own_grids {A : Type} (zero : A) c q m ns G k f : setting zero c q m ns G -> 0 <= k < c_size c -> 0 < g_Nz (G k) ->
  exists lo hi, get_zmin_zmax (moved_comm ns c) true true true (Some k) = Ok (lo, hi) /\
    g_zmin (G k) = lo /\ g_zmax (G k) = hi /\ fills (view (G k) f) lo hi (IZR (r_Nr q + r_nrdamp q) * r_dr q).
Proof. exact (own_main zero c q m ns G k f). Qed.
Print Assumptions C94_own_grids.

(** C94: each of the ten fields has, in the gathered grid, at a position (z, r), the value that the rank in charge of
    that position has there. *)
Theorem C94_values {A : Type} (zero : A) c q m ns G root g f z r a : setting zero c q m ns G ->
  gather_grid zero (moved_comm ns c) q root G = Ok g ->
  sampled (view g f) z r a ->
  exists k lo hi, 0 <= k < c_size c /\ get_zmin_zmax (moved_comm ns c) true false false (Some k) = Ok (lo, hi) /\
    (lo <= z < hi)%R /\ sampled (view (G k) f) z r a.
Proof. exact (gathered_from zero c q m ns G root g f z r a). Qed.
Print Assumptions C94_values.

(** C94: conversely nothing is lost: what a rank has at a position of its own part of the physical domain is in the
    gathered grid at the same position. *)
Theorem C94_nothing_lost {A : Type} (zero : A) c q m ns G root g f k lo hi z r a : setting zero c q m ns G ->
  gather_grid zero (moved_comm ns c) q root G = Ok g ->
  0 <= k < c_size c -> get_zmin_zmax (moved_comm ns c) true false false (Some k) = Ok (lo, hi) ->
  (lo <= z < hi)%R -> (0 < r_dr q)%R -> (r < IZR (r_Nr q) * r_dr q)%R -> sampled (view (G k) f) z r a ->
  sampled (view g f) z r a.
Proof. exact (gathered_all zero c q m ns G root g f k lo hi z r a). Qed.
Print Assumptions C94_nothing_lost.

(** C94 is false for particles: gathering a species never succeeds on the rank that should receive it (the
    attributes [n], [rmin], [rmax] of the species and [zmin], [zmax] of the communicator do not exist; either is
    enough). *)
Theorem C94_particles_refuted {V : Type} (zero : V) (self ptcl : @object V) init rest :
  has_only ptcl particles_attrs \/ has_only self comm_attrs ->
  gather_ptcl zero self ptcl init rest = Err AttributeError.
Proof. exact (ptcl_fails zero self ptcl init rest). Qed.
Print Assumptions C94_particles_refuted.

(** Non-vacuity: 3 ranks, 40 cells, 4 guard, 5 damp and 2 injection cells, 6 radial cells and 2 in the PML; the window
    has moved by 3 and then by 4 cells; the arrays contain different numbers. *)
Definition ex_c : comm :=
  {| c_rank := 0; c_size := 3; c_left := None; c_right := Some 1; c_Nz := 40;
     c_zmin := 0; c_dz := 1; c_nguard := 4; c_nzdamp := 5; c_ninject := 2; c_period := 1 |}.
Definition ex_q : radial := mkRadial 6 2 (1/2)%R.
Definition ex_G (k : Z) : igrid Z :=
  let g0 := match local_grid 0 ex_c ex_q 1 k with Ok g => g | Err _ => InterpolationGrid 0 1 1 0 0 0 0 end in
  set_arr (moved_grid [3; 4] g0) fEz (fun i j => 100 * k + i + 10 * j).
Example C94_met : setting 0 ex_c ex_q 1 [3; 4] ex_G.
Proof.
  unfold setting. split; [unfold valid_comm; cbn; lia|]. split; [cbn; lia|]. split; [cbn; lra|].
  split; [cbn; lia|]. split; [cbn; lia|]. cbn [ex_c c_size]. intros k Hk.
  assert (Hc : k = 0 \/ k = 1 \/ k = 2) by lia.
  unfold ex_G.
  destruct Hc as [->|[->| ->]]; eexists; (split; [reflexivity|]); repeat split.
Qed.
Example C94_particles_met : has_only (fun s => if (s =? "q")%string then Some 1 else if (s =? "m")%string then Some 2
                                        else if (s =? "dt")%string then Some 3 else None) particles_attrs.
Proof.
  intros n H. destruct (n =? "q")%string eqn:E1; [apply String.eqb_eq in E1; subst; cbn; tauto|].
  destruct (n =? "m")%string eqn:E2; [apply String.eqb_eq in E2; subst; cbn; tauto|].
  destruct (n =? "dt")%string eqn:E3; [apply String.eqb_eq in E3; subst; cbn; tauto|]. congruence.
Qed.
