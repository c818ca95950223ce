(** C96: the order of the particles on GPU is up to date at each deposition of the PIC loop. *)
From Coq Require Import Reals.
From Coquelicot Require Import Complex.
From Verif Require Import Base Sort_Model Sort_Spec Deposit_Model Deposit_Spec GDeposit_Model GDeposit_Spec GOrder_Model GOrder_Spec GOrder_Proofs.
Open Scope Z_scope.

(** C96 in full asks that, in any sequence of calls of step() in which the particles move, every deposition (by the loop or
    by a charge density diagnostic) gives what the CPU code gives from the same particles.

    Proved parts. Without a moving window (periodic or not, Galilean or not, with or without cross-deposition,
    ionization, Compton scattering and diagnostics): all the depositions, from any state whose order is up to date, in
    particular with species that have just been created. *)
Theorem C96_no_window_partial k it Ns st tr st' : l_move_positions k = true -> l_window k = false -> grids_ok k (st_g st) ->
  Forall (order_ok (st_g st)) (st_sp st) -> execs k (calls_ops k it Ns) st tr st' -> Forall fits tr -> Forall (as_on_cpu k) tr.
Proof. exact (loop_no_window k it Ns st tr st'). Qed.
Print Assumptions C96_no_window_partial.
Theorem C96_created g l : Forall created l -> Forall (order_ok g) l.
Proof. exact (cleared_ordered g l). Qed.
Print Assumptions C96_created.
(** With guard cells and with or without a moving window: all the depositions of the loop, from any state at all (also if the user changed the
    particles between two calls). *)
Theorem C96_loop_partial k it Ns st tr st' : l_move_positions k = true -> l_wrap k = false -> grids_ok k (st_g st) ->
  execs k (calls_ops k it Ns) st tr st' -> Forall fits tr -> Forall (fun e => e_diag e = false -> as_on_cpu k e) tr.
Proof. exact (loop_guarded k it Ns st tr st'). Qed.
Print Assumptions C96_loop_partial.
(** And those of the diagnostics too if the particles are exchanged at each iteration. *)
Theorem C96_period_one_partial k it Ns st tr st' : l_move_positions k = true -> l_wrap k = false -> l_period k = 1 -> grids_ok k (st_g st) ->
  execs k (calls_ops k it Ns) st tr st' -> Forall fits tr -> Forall (as_on_cpu k) tr.
Proof. exact (loop_period_one k it Ns st tr st'). Qed.
Print Assumptions C96_period_one_partial.

(** One particle, any sequence of calls, with and without a window: there are runs, and they deposit on the grid. *)
Example C96_met w v Ns : exists tr st', execs (kk w v 1) (calls_ops (kk w v 1) 0 Ns) st0 tr st' /\ Forall fits tr /\
  grids_ok (kk w v 1) (st_g st0) /\ Forall created (st_sp st0).
Proof.
  destruct (runs_exist w v Ns) as (tr & st' & E & F). exists tr, st'. split; [exact E|]. split; [exact F|].
  split; [apply st0_grids|]. constructor; [reflexivity|constructor].
Qed.

(** False parts. With a moving window, a charge density diagnostic at an iteration without exchange of the particles: the
    species says that it is sorted, on the grid as it was before the window moved; the density is not that of the CPU. *)
Theorem C96_density_diagnostic_refuted : exists k st tr st', l_move_positions k = true /\ l_wrap k = false /\ grids_ok k (st_g st) /\
  Forall created (st_sp st) /\ execs k (calls_ops k 0 [2]) st tr st' /\ Forall fits tr /\
  exists e, In e tr /\ e_diag e = true /\ ~ as_on_cpu k e.
Proof. exact density_wrong. Qed.
Print Assumptions C96_density_diagnostic_refuted.
(** With a moving window and n_guard = 0, the particles are wrapped instead of exchanged and the depositions of the loop itself are wrong. *)
Theorem C96_window_no_guard_refuted : exists k st tr st', l_move_positions k = true /\ l_wrap k = true /\ grids_ok k (st_g st) /\
  Forall created (st_sp st) /\ execs k (calls_ops k 0 [1; 1]) st tr st' /\ Forall fits tr /\
  exists e, In e tr /\ e_diag e = false /\ ~ as_on_cpu k e.
Proof. exact open_wrong. Qed.
Print Assumptions C96_window_no_guard_refuted.
