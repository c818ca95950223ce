(** C57, C58: charge and current deposition on GPU. *)
From Coq Require Import Reals.
From Coquelicot Require Import Complex.
From Verif Require Import Base Shape_Model Sort_Model Sort_Spec Deposit_Model Deposit_Spec GDeposit_Model GDeposit_Spec GDeposit_Proofs.
Open Scope Z_scope.

(** Whatever the order of the atomic additions and of the particles inside each cell, a deposition on GPU
    gives, in each cell of each mode, exactly what the CPU code gives for the same particles with any
    number of threads; the quantities that are not deposited are unchanged; and the particles are
    the same afterwards, up to their order. *)
Theorem C57_same_particles v100 c g vol Nm ft l l' A A' :
  (forall m, (m < Nm)%nat -> Deposit_Spec.grid_ok (mode_grid g vol m)) -> (1 <= Nm)%nat ->
  Forall (gsp_ok g) l -> Forall (flag_ok g) l -> gpu_deposit c v100 g vol Nm ft l l' A A' ->
  Forall2 reordered (map cpu_of (filter (fun s => negb (gs_tracer s)) l)) (map cpu_of l').
Proof. exact (gpu_state v100 c g vol Nm ft l l' A A'). Qed.
Print Assumptions C57_same_particles.
Theorem C57_gpu_equals_cpu v100 c g vol Nm ft l l' A A' nthreads :
  (forall m, (m < Nm)%nat -> Deposit_Spec.grid_ok (mode_grid g vol m)) -> beta_ok g ->
  Forall (gsp_ok g) l -> Forall (flag_ok g) l -> 1 <= nthreads <= 2 ^ 32 ->
  gpu_deposit c v100 g vol Nm ft l l' A A' ->
  forall k m iz ir, (m < Nm)%nat -> 0 <= iz < g_Nz g -> 0 <= ir < g_Nr g ->
  A' k m iz ir = (if deposited ft k then deposit c (mode_grid g vol m) k m nthreads (map cpu_of l) None iz ir
                  else A k m iz ir).
Proof. exact (gpu_cpu_all v100 c g vol Nm ft l l' A A' nthreads). Qed.
Print Assumptions C57_gpu_equals_cpu.

(** One particle on a grid of 8 x 4 cells, two modes: there is an execution, and it deposits. *)
Example C57_met : exists l l' A',
  (forall m, (m < 2)%nat -> Deposit_Spec.grid_ok (mode_grid (wg 0) (fun _ _ => 1%R) m)) /\ beta_ok (wg 0) /\
  Forall (gsp_ok (wg 0)) l /\ Forall (flag_ok (wg 0)) l /\
  gpu_deposit 1 false (wg 0) (fun _ _ => 1%R) 2 FRho l l' (fun _ _ => zero2) A' /\ A' Rho 0%nat 2 0 <> RtoC 0.
Proof. exact gpu_met. Qed.

(** C58 in full asks for the same after any number of time steps in which the particles do not move.
    Proved part: as long as the grid does not move either, all the depositions of the run agree
    with the CPU (the first one may sort, the next ones reuse the sort). Missing: a moving window or
    a Galilean grid, for which it is false (below). *)
Theorem C58_frozen_same_grid_partial v100 c g vol Nm ft1 ft2 l l1 l2 A1 A2 A3 nthreads :
  (forall m, (m < Nm)%nat -> Deposit_Spec.grid_ok (mode_grid g vol m)) -> beta_ok g -> (1 <= Nm)%nat ->
  Forall (gsp_ok g) l -> Forall (flag_ok g) l -> Forall (fun s => gs_tracer s = false) l -> 1 <= nthreads <= 2 ^ 32 ->
  gpu_deposit c v100 g vol Nm ft1 l l1 A1 A2 -> gpu_deposit c v100 g vol Nm ft2 l1 l2 A2 A3 ->
  Forall (fun s => gs_q s = 0%R \/ gs_sorted s = true) l1 /\
  forall k m iz ir, deposited ft2 k = true -> (m < Nm)%nat -> 0 <= iz < g_Nz g -> 0 <= ir < g_Nr g ->
  A3 k m iz ir = deposit c (mode_grid g vol m) k m nthreads (map cpu_of l) None iz ir.
Proof. exact (frozen_same_grid v100 c g vol Nm ft1 ft2 l l1 l2 A1 A2 A3 nthreads). Qed.
Print Assumptions C58_frozen_same_grid_partial.

(** A deposition on the initial grid, a move of the window by one cell, a second deposition without
    any motion of the particles: the second one differs from what the CPU gives. *)
Theorem C58_frozen_window_refuted (c : R) : exists g vol l l1 l2 A1 A2 A3,
  Deposit_Spec.grid_ok (mode_grid g vol 0) /\ beta_ok g /\ Forall (gsp_ok g) l /\ Forall (flag_ok g) l /\
  gpu_deposit c false g vol 2 FRho l l1 A1 A2 /\
  Forall (gsp_ok (grid_moved 1 g)) (map (species_window_moved 1) l1) /\
  gpu_deposit c false (grid_moved 1 g) vol 2 FRho (map (species_window_moved 1) l1) l2 A2 A3 /\
  exists iz ir, 0 <= iz < g_Nz g /\ 0 <= ir < g_Nr g /\
    A3 Rho 0%nat iz ir <> deposit c (mode_grid (grid_moved 1 g) vol 0) Rho 0 1 (map cpu_of (map (species_window_moved 1) l1)) None iz ir.
Proof. exact (frozen_window c). Qed.
Print Assumptions C58_frozen_window_refuted.
