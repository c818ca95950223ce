(** C59: the value of each deposited density in each cell. *)
From Coq Require Import Reals Lra Lia.
From Flocq Require Import Core.Core.
From Coquelicot Require Import Complex.
From Verif Require Import Base Shape_Model Shape_Spec Deposit_Model Deposit_Spec GDeposit_Model GDeposit_Spec GDeposit_Proofs
  DepForm_Spec DepForm_Proofs.
Open Scope Z_scope.

(** Every cell of every component and mode, for both shapes and any number of threads. *)
Theorem C59_deposit_formula c g k m nthreads ptcl sl iz ir : grid_ok g ->
  threads_ok nthreads (depositing ptcl sl) -> all_in_grid g (depositing ptcl sl) ->
  Forall (fun s => Forall (in_radius g) (sp_ptcl s)) (depositing ptcl sl) -> 0 <= iz < g_Nz g -> 0 <= ir < g_Nr g ->
  deposit c g k m nthreads ptcl sl iz ir =
  lsum (fun s => lsum (textbook c g k m iz ir s) (sp_ptcl s)) (depositing ptcl sl).
Proof. exact (deposit_formula c g k m nthreads ptcl sl iz ir). Qed.
Print Assumptions C59_deposit_formula.

(** The same on GPU. *)
Theorem C59_gpu_formula v100 c g vol Nm ft l l' A A' :
  (forall m, (m < Nm)%nat -> Deposit_Spec.grid_ok (mode_grid g vol m)) -> beta_ok g ->
  Forall (gsp_ok g) l -> Forall (flag_ok g) l -> gpu_deposit c v100 g vol Nm ft l l' A A' ->
  forall k m iz ir, deposited ft k = true -> (m < Nm)%nat -> 0 <= iz < g_Nz g -> 0 <= ir < g_Nr g ->
  let on := depositing (map cpu_of l) None in
  threads_ok 1 on -> all_in_grid (mode_grid g vol m) on ->
  Forall (fun s => Forall (in_radius (mode_grid g vol m)) (sp_ptcl s)) on ->
  A' k m iz ir = lsum (fun s => lsum (textbook c (mode_grid g vol m) k m iz ir s) (sp_ptcl s)) on.
Proof.
  intros G B S F D k m iz ir K M Iz Ir on T I R.
  rewrite (gpu_cpu_all v100 c g vol Nm ft l l' A A' 1 G B S F ltac:(lia) D k m iz ir M Iz Ir), K.
  apply deposit_formula; try assumption. exact (G m M).
Qed.
Print Assumptions C59_gpu_formula.

(** One particle close to the axis and one on the outer edge; and, for a particle in the middle of a cell, the
    textbook value is charge over volume in that cell. *)
Definition ex_grid : grid :=
  {| g_dz := 1; g_zmin := 0; g_Nz := 4; g_dr := 1; g_Nr := 3; g_vol := fun ir => 1 + IZR ir; g_beta := fun _ _ _ => 1 |}%R.
Definition ex_ptcl (x z : R) : ptcl :=
  {| p_x := x; p_y := 0; p_z := z; p_ux := 0; p_uy := 0; p_uz := 1; p_ig := 1; p_w := 5; p_wl := 0 |}%R.
Definition ex_species sh l : species :=
  {| sp_q := -1; sp_tracer := false; sp_ionizable := false; sp_shape := sh; sp_ptcl := l |}%R.
Example C59_met :
  let l := [ex_species Cubic [ex_ptcl (1 / 10) 2; ex_ptcl 3 0]] in
  grid_ok ex_grid /\ threads_ok 3 l /\ all_in_grid ex_grid l /\ depositing l None = l /\
  Forall (fun s => Forall (in_radius ex_grid) (sp_ptcl s)) l /\
  textbook 1 ex_grid Rho 1 1 0 (ex_species Linear []) (ex_ptcl (1 / 2) (3 / 2)) = RtoC (-5).
Proof.
  assert (P : forall x z, (0 <= x)%R -> polar_r (ex_ptcl x z) = x).
  { intros x z X. unfold polar_r; cbn. replace (x * x + 0 * 0)%R with (x * x)%R by ring. apply sqrt_square, X. }
  cbv zeta. split.
  { unfold grid_ok, ex_grid; cbn. repeat split; try lra; try lia. intros ir Hir.
    assert (0 <= IZR ir)%R by (apply (IZR_le 0); lia). lra. }
  split; [split; [lia|repeat constructor; cbn; lia]|].
  split; [repeat constructor; unfold in_grid; cbn; lra|].
  split; [reflexivity|]. split.
  { repeat constructor; unfold in_radius; rewrite P; cbn; lra. }
  unfold textbook, polar_e. rewrite P by lra. destruct (Req_EM_T (1 / 2) 0); [lra|].
  cbn [g_dr g_dz g_zmin g_Nz g_Nr g_vol ex_grid sp_shape ex_species p_x p_y p_z ex_ptcl sp_q weight sp_ionizable p_w quantity cpow].
  replace (1 / 2 / 1 - 1 / 2)%R with 0%R by field. replace ((3 / 2 - 0) / 1 - 1 / 2)%R with 1%R by field.
  unfold axial_weight, outer_weight, radial_weight, spline, ruyten_at. rewrite (Zceil_IZR 0). cbn [Z.eqb Z.sub Z.add Z.opp Z.mul Pos.eqb Pos.pred_double Z.pos_sub Pos.add Pos.succ g_beta g_Nr Z.min Z.compare].
  assert (M : forall d, (1 <= Rabs d -> Rmax 0 (1 - Rabs d) = 0)%R) by (intros d H; apply Rmax_left; lra).
  replace (Rmax 0 (1 - Rabs (1 - -3)))%R with 0%R by (symmetry; apply M; rewrite Rabs_right; lra).
  replace (Rmax 0 (1 - Rabs (1 - 1)))%R with 1%R by (replace (1 - 1)%R with 0%R by ring; rewrite Rabs_R0, Rmax_right; lra).
  replace (Rmax 0 (1 - Rabs (1 - 5)))%R with 0%R by (symmetry; apply M; rewrite Rabs_left; lra).
  replace (Rmax 0 (1 - Rabs (0 - 0)))%R with 1%R by (replace (0 - 0)%R with 0%R by ring; rewrite Rabs_R0, Rmax_right; lra).
  replace (Rmax 0 (1 - Rabs (0 - -1)))%R with 0%R by (symmetry; apply M; rewrite Rabs_right; lra).
  unfold Cmult, Cplus, Copp, RtoC; cbn [fst snd]. f_equal; field.
Qed.
