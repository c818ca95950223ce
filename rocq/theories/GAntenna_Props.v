(** C80: laser antenna on GPU. *)
From Coq Require Import Reals.
From Coquelicot Require Import Complex.
From Verif Require Import Base Decomp_Model Shape_Model Sort_Model Sort_Spec Deposit_Model Deposit_Spec GDeposit_Model GDeposit_Spec GDeposit_Proofs
  Boost_Model Antenna_Model GAntenna_Model GAntenna_Spec GAntenna_Proofs.
Open Scope Z_scope.

(** The same antenna created on GPU and on CPU, then any history of pushes, velocity updates, rank updates and grid
    shifts: the same exception, or the same antenna, the copies on the host and on the device included. *)
Theorem C80_history cl E r_e e eps0 pd z0 va dr Nr Nm npr ep bo cm h :
  match antenna_init cl r_e e eps0 pd z0 va dr Nr Nm npr ep bo, gantenna_init cl r_e e eps0 pd z0 va dr Nr Nm npr ep bo with
  | Ok a, Ok ga => same_outcome (do_ops cl E h {| s_ant := a; s_comm := cm |}) (do_gops cl E h {| gs_ant := ga; gs_comm := cm |})
  | Err x, Err y => x = y
  | _, _ => False
  end.
Proof.
  unfold gantenna_init. destruct (antenna_init cl r_e e eps0 pd z0 va dr Nr Nm npr ep bo) as [a|x]; [|reflexivity].
  exact (history cl E h a cm).
Qed.
Print Assumptions C80_history.

(** Whatever the order of the atomic additions, the charge and current deposited on GPU by any species and any number of
    antennas are, in each cell of each mode, those that the CPU code deposits with any number of threads. *)
Theorem C80_deposit v100 c g vol Nm ft l l' ants gants A A' nthreads :
  c <> 0%R -> (forall m, (m < Nm)%nat -> Deposit_Spec.grid_ok (mode_grid g vol m)) -> beta_ok g ->
  Forall (gsp_ok g) l -> Forall (flag_ok g) l -> Forall (antenna_ok g) ants -> Forall2 same_antenna ants gants ->
  1 <= nthreads <= 2 ^ 32 ->
  gpu_deposit_with_antennas c v100 g vol Nm ft l l' gants A A' ->
  forall k m iz ir, (m < Nm)%nat -> 0 <= iz < g_Nz g -> 0 <= ir < g_Nr g ->
  A' k m iz ir = (if deposited ft k then deposit_with_antennas c (mode_grid g vol m) k m nthreads (map cpu_of l) ants iz ir
                  else A k m iz ir).
Proof. exact (gpu_cpu_antennas v100 c g vol Nm ft l l' ants gants A A' nthreads). Qed.
Print Assumptions C80_deposit.

(** An antenna of one particle in a grid of 8 x 4 cells: there is an execution, and it deposits a radial current. *)
Example C80_met : exists A',
  (forall m, (m < 2)%nat -> Deposit_Spec.grid_ok (mode_grid (wg 0) (fun _ _ => 1%R) m)) /\ beta_ok (wg 0) /\
  antenna_ok (wg 0) ex_ant /\ same_antenna ex_ant (to_device ex_ant) /\
  gpu_deposit_with_antennas 1 false (wg 0) (fun _ _ => 1%R) 2 FJ [] [] [to_device ex_ant] (fun _ _ => zero2) A' /\
  A' Jr 0%nat 2 0 <> RtoC 0.
Proof. exact antenna_met. Qed.
