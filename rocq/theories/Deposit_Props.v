(** C22: deposition conserves charge. C23: threads and particle order. C52: silent species. *)
From Verif Require Import Base Shape_Model Deposit_Model Deposit_Spec Deposit_Proofs.
From Coq Require Import Reals Lra.
From Coquelicot Require Import Complex.
Open Scope Z_scope.

(** Sum over the cells of density (mode 0) times volume. *)
Theorem C22_total_charge c g nthreads ptcl sl : grid_ok g ->
  threads_ok nthreads (depositing ptcl sl) -> all_in_grid g (depositing ptcl sl) ->
  over_cells g (fun iz ir => Cmult (deposit c g Rho 0 nthreads ptcl sl iz ir) (RtoC (g_vol g ir))) =
  RtoC (rsum charge (depositing ptcl sl)).
Proof. exact (total_charge c g nthreads ptcl sl). Qed.
Print Assumptions C22_total_charge.

Theorem C22_total_axial_current c g nthreads ptcl sl : grid_ok g ->
  threads_ok nthreads (depositing ptcl sl) -> all_in_grid g (depositing ptcl sl) ->
  over_cells g (fun iz ir => Cmult (deposit c g Jz 0 nthreads ptcl sl iz ir) (RtoC (g_vol g ir))) =
  RtoC (rsum (axial_current c) (depositing ptcl sl)).
Proof. exact (total_current c g nthreads ptcl sl). Qed.
Print Assumptions C22_total_axial_current.

(** All the cells, all the components, all the modes. *)
Theorem C23_threads_and_order c g k m n n' ptcl ptcl' iz ir : grid_ok g -> Forall2 reordered ptcl ptcl' ->
  threads_ok n ptcl -> threads_ok n' ptcl' -> all_in_grid g ptcl -> 0 <= iz < g_Nz g -> 0 <= ir < g_Nr g ->
  deposit c g k m n ptcl None iz ir = deposit c g k m n' ptcl' None iz ir.
Proof. exact (order_independent c g k m n n' ptcl ptcl' iz ir). Qed.
Print Assumptions C23_threads_and_order.

(** Two lists of species with the same active species, whatever tracers and neutral species they
    contain and wherever, deposit the same sources. *)
Theorem C52_silent_species c g k m n l l' : filter active l = filter active l' ->
  deposit c g k m n l None = deposit c g k m n l' None.
Proof. exact (silent_lists c g k m n l l'). Qed.
Print Assumptions C52_silent_species.
(** In particular inserting one. *)
Theorem C52_insert c g k m n l1 l2 s : sp_tracer s = true \/ sp_q s = 0%R ->
  deposit c g k m n (l1 ++ s :: l2) None = deposit c g k m n (l1 ++ l2) None.
Proof. exact (silent_species c g k m n l1 l2 s). Qed.
Print Assumptions C52_insert.

(** A 4x3 grid, two particles: one near the axis, one beyond rmax; 3 threads. *)
Definition ex_grid : grid :=
  {| g_dz := 1; g_zmin := 0; g_Nz := 4; g_dr := 1; g_Nr := 3; g_vol := fun ir => 1 + IZR ir; g_beta := fun _ _ _ => 1 |}%R.
Definition ex_ptcl (x z : R) : ptcl :=
  {| p_x := x; p_y := 0; p_z := z; p_ux := 0; p_uy := 0; p_uz := 1; p_ig := 1; p_w := 5; p_wl := 0 |}%R.
Definition ex_species l : species :=
  {| sp_q := -1; sp_tracer := false; sp_ionizable := false; sp_shape := Cubic; sp_ptcl := l |}%R.
Definition ex_silent : species :=
  {| sp_q := 0; sp_tracer := false; sp_ionizable := false; sp_shape := Linear; sp_ptcl := [ex_ptcl 1 1] |}%R.
Example C22_C23_C52_met :
  let l := [ex_species [ex_ptcl (1 / 10) 2; ex_ptcl 7 0]] in
  let l' := [ex_species [ex_ptcl 7 0; ex_ptcl (1 / 10) 2]] in
  grid_ok ex_grid /\ threads_ok 3 l /\ threads_ok 1 l' /\ all_in_grid ex_grid l /\ Forall2 reordered l l' /\
  depositing l None = l /\ rsum charge l = (-10)%R /\ filter active (ex_silent :: l) = filter active l.
Proof.
  cbv zeta. split.
  { unfold grid_ok, ex_grid; cbn. repeat split; try lra; try lia. intros ir Hir.
    assert (0 <= IZR ir)%R by (apply (IZR_le 0); lia). lra. }
  split; [split; [lia|repeat constructor; cbn; lia]|]. split; [split; [lia|repeat constructor; cbn; lia]|].
  split; [repeat constructor; unfold in_grid; cbn; lra|].
  split; [repeat constructor|]. split; [reflexivity|]. split; [unfold rsum, charge; cbn; lra|].
  cbn [filter]. unfold active at 1. cbn. destruct (Req_EM_T 0 0); [reflexivity|lra].
Qed.
