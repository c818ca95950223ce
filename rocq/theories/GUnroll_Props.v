(** C100: the deposition kernels as written, register by register. *)
From Coq Require Import Reals.
From Coquelicot Require Import Complex.
From Verif Require Import Base Shape_Model Sort_Model Deposit_Model Deposit_Spec GDeposit_Model GDeposit_Spec GUnroll_Model GUnroll_Spec GDeposit_Proofs GUnroll_Proofs.
Open Scope Z_scope.

(** A thread of the kernel used for Nm modes (with argument m0 in the kernels for one mode) adds to the
    array of each deposited component and mode, in some order, one value per point of the shape (two for
    the modes above 0), as GDeposit_Model says with indices. *)
Theorem C100_gpu_thread c g Nm ft sh k m m0 q ion junk s i : deposited ft k = true -> (m < Nm)%nat ->
  (Nm <> 2%nat -> m0 = m) ->
  Permutation (to_array k m (written_thread c g (gpu_kernel Nm ft sh) Nm m0 q ion junk s i))
              (deposit_thread c g Nm sh k m q ion s i).
Proof. exact (gpu_thread c g Nm ft sh k m m0 q ion junk s i). Qed.
Print Assumptions C100_gpu_thread.
(** It adds nothing to the other arrays. *)
Theorem C100_gpu_thread_others c g Nm ft sh k m m0 q ion junk s i :
  deposited ft k = false \/ (Nm = 2%nat /\ (2 <= m)%nat) \/ (Nm <> 2%nat /\ m <> m0) ->
  to_array k m (written_thread c g (gpu_kernel Nm ft sh) Nm m0 q ion junk s i) = [].
Proof. exact (gpu_thread_others c g Nm ft sh k m m0 q ion junk s i). Qed.
Print Assumptions C100_gpu_thread_others.
(** On CPU: the points in the order of Deposit_Model; nothing to the other arrays. *)
Theorem C100_cpu_particle c g sh ft Nm q ion p k m :
  to_array k m (written_particle c g sh ft Nm q ion p) =
  if deposited ft k && (m <? Nm)%nat then contributions c g sh k m q ion p else [].
Proof. exact (cpu_particle c g sh ft Nm q ion p k m). Qed.
Print Assumptions C100_cpu_particle.

(** The two written-out versions give the same fields, in each cell, for every component and mode,
    whatever the order of the atomic additions, the number of CPU threads and the initial content of
    the registers. *)
Theorem C100_agree v100 c g vol Nm ft l l' A A' nthreads :
  (forall m, (m < Nm)%nat -> Deposit_Spec.grid_ok (mode_grid g vol m)) -> beta_ok g ->
  Forall (gsp_ok g) l -> Forall (flag_ok g) l -> 1 <= nthreads <= 2 ^ 32 ->
  written_gpu_deposit c v100 g vol Nm ft l l' A A' ->
  forall k m iz ir, (m < Nm)%nat -> 0 <= iz < g_Nz g -> 0 <= ir < g_Nr g ->
  A' k m iz ir = (if deposited ft k then written_deposit c g vol ft Nm nthreads (map cpu_of l) k m iz ir else A k m iz ir).
Proof. exact (deposits_agree v100 c g vol Nm ft l l' A A' nthreads). Qed.
Print Assumptions C100_agree.
(** Total charge and axial current on the grid: CPU, then GPU. *)
Theorem C100_cpu_charge c g vol Nm nthreads l : Deposit_Spec.grid_ok (mode_grid g vol 0) -> (1 <= Nm)%nat ->
  threads_ok nthreads (depositing l None) -> all_in_grid g (depositing l None) ->
  over_cells g (fun iz ir => Cmult (written_deposit c g vol FRho Nm nthreads l Rho 0 iz ir) (RtoC (vol 0%nat ir))) =
  RtoC (rsum charge (depositing l None)).
Proof. exact (written_total_charge c g vol Nm nthreads l). Qed.
Print Assumptions C100_cpu_charge.
Theorem C100_cpu_current c g vol Nm nthreads l : Deposit_Spec.grid_ok (mode_grid g vol 0) -> (1 <= Nm)%nat ->
  threads_ok nthreads (depositing l None) -> all_in_grid g (depositing l None) ->
  over_cells g (fun iz ir => Cmult (written_deposit c g vol FJ Nm nthreads l Jz 0 iz ir) (RtoC (vol 0%nat ir))) =
  RtoC (rsum (axial_current c) (depositing l None)).
Proof. exact (written_total_current c g vol Nm nthreads l). Qed.
Print Assumptions C100_cpu_current.
Theorem C100_gpu_totals v100 c g vol Nm ft l l' A A' :
  (forall m, (m < Nm)%nat -> Deposit_Spec.grid_ok (mode_grid g vol m)) -> beta_ok g -> (1 <= Nm)%nat ->
  Forall (gsp_ok g) l -> Forall (flag_ok g) l -> written_gpu_deposit c v100 g vol Nm ft l l' A A' ->
  over_cells g (fun iz ir => Cmult (A' (match ft with FRho => Rho | FJ => Jz end) 0%nat iz ir) (RtoC (vol 0%nat ir))) =
  RtoC (rsum (match ft with FRho => charge | FJ => axial_current c end) (depositing (map cpu_of l) None)).
Proof. exact (gpu_totals v100 c g vol Nm ft l l' A A'). Qed.
Print Assumptions C100_gpu_totals.

(** One particle with the cubic shape, any number of modes: there is an execution, and it deposits
    the charge of the particle. *)
Example C100_met Nm : (1 <= Nm)%nat -> exists l l' A',
  (forall m, (m < Nm)%nat -> Deposit_Spec.grid_ok (mode_grid (wg 0) (fun _ _ => 1%R) m)) /\ beta_ok (wg 0) /\
  Forall (gsp_ok (wg 0)) l /\ Forall (flag_ok (wg 0)) l /\
  written_gpu_deposit 1 false (wg 0) (fun _ _ => 1%R) Nm FRho l l' (fun _ _ => zero2) A' /\
  over_cells (wg 0) (A' Rho 0%nat) = RtoC 1.
Proof. exact (unroll_met Nm). Qed.
