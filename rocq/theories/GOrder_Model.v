(** The order of the particles on GPU through the PIC loop: main.py:418-562 (step) and 672-715
    (cross_deposit), with the operations that move particles, move the grid, or set the flag [sorted]
    of a species. One rank sees its grid and its species; what the other ranks send is any data.
    The operations on the fields alone (filter, correct_currents, push, damping, boundary exchanges of the fields)
    and the laser antennas (which are not sorted, laser/antenna) do not appear. *)
From Coq Require Import Reals.
From Coquelicot Require Import Complex.
From Verif Require Import Base Wrap_Model Shape_Model Sort_Model Sort_Spec Deposit_Model GDeposit_Model.
Open Scope Z_scope.

(** The same species with other arrays and another value of the flag. *)
Definition with_arr (sp : gsp) (sorted : bool) (a : gspecies) : gsp :=
  {| gs_q := gs_q sp; gs_tracer := gs_tracer sp; gs_ionizable := gs_ionizable sp; gs_shape := gs_shape sp;
     gs_sorted := sorted; gs_arr := a |}.
Definition with_xyz (s : gspecies) (x y z : Z -> R) : gspecies :=
  {| s_N := s_N s; s_x := x; s_y := y; s_z := z; s_fl := s_fl s; s_int := s_int s;
     s_cell := s_cell s; s_sidx := s_sidx s; s_prefix := s_prefix s; s_shift := s_shift s;
     s_buf := s_buf s; s_ibuf := s_ibuf s |}.
(** Element [i] of an array of length [n] updated by its own thread. *)
Definition each (n : Z) (f : Z -> R -> R) (a : Z -> R) (i : Z) : R :=
  if (0 <=? i) && (i <? n) then f i (a i) else a i.

(** particles.py:639-671 Particles.push_x, GPU branch, and push/cuda_methods.py:16-52 push_x_gpu
    (attributes 0, 1, 2, 4 are ux, uy, uz, inv_gamma). *)
Definition push_x (c dt x_push y_push z_push : R) (sp : gsp) : gsp :=
  let s := gs_arr sp in
  let cdt := (c * dt)%R in
  with_arr sp false (with_xyz s
    (each (s_N s) (fun i x => x + cdt * x_push * attr 4 s i * attr 0 s i)%R (s_x s))
    (each (s_N s) (fun i y => y + cdt * y_push * attr 4 s i * attr 1 s i)%R (s_y s))
    (each (s_N s) (fun i z => z + cdt * z_push * attr 4 s i * attr 2 s i)%R (s_z s))).

(** boundary_communicator.py:740-744 with n_guard = 0: particle_buffer_handling.py:513-534 and the kernel
    637-658, every position brought back between interp[0].zmin and zmax. The flag is not touched.
    [zmax] = zmin + Nz*dz. *)
Definition wrapped (g : grid) (sp sp' : gsp) : Prop :=
  let s := gs_arr sp in
  exists z', sp' = with_arr sp (gs_sorted sp) (with_xyz s (s_x s) (s_y s) z') /\
    forall i, if (0 <=? i) && (i <? s_N s)
      then exists fuel, wrap1 R Rge_b Rlt_b Rminus Rplus fuel (g_zmin g) (g_zmin g + IZR (g_Nz g) * g_dz g)%R (s_z s i) = Some (z' i)
      else z' i = s_z s i.
(** boundary_communicator.py:745-748 with n_guard > 0: the particles that stay, those received and those injected;
    particle_buffer_handling.py:376-377 clears the flag. Simplified: the resulting arrays are any arrays
    (C19, C91 say which). *)
Definition exchanged (sp sp' : gsp) : Prop := exists a, sp' = with_arr sp false a.
(** particles.py:673-790 gather, 555-633 push_p, external fields: the attributes other than x, y, z get any value. *)
Definition attributes_changed (sp sp' : gsp) : Prop :=
  exists fl ints, length fl = length (s_fl (gs_arr sp)) /\
    let s := gs_arr sp in
    sp' = with_arr sp (gs_sorted sp)
      {| s_N := s_N s; s_x := s_x s; s_y := s_y s; s_z := s_z s; s_fl := fl; s_int := ints;
         s_cell := s_cell s; s_sidx := s_sidx s; s_prefix := s_prefix s; s_shift := s_shift s;
         s_buf := s_buf s; s_ibuf := s_ibuf s |}.
(** boosted_particle_diag.py:670-675: a diagnostic leaves a species as it is or sorts it if it is not sorted. Simplified: sorted
    here only if the particles are near the box (elsewhere the kernels write outside of prefix_sum). *)
Definition diagnosed (g : grid) (sp sp' : gsp) : Prop :=
  sp' = sp \/ gs_sorted sp = false /\ sizes_ok (sgrid_of g) (gs_arr sp) /\ near_box (sgrid_of g) (gs_arr sp) /\
    exists a, sort_particles (sgrid_of g) (gs_arr sp) a /\ sp' = with_arr sp true a.
(** particles.py:498-512 handle_elementary_processes: a species keeps its positions and its flag (it may lose levels or recoil:
    ionizer.py:255-269, compton.py:212-220), or receives particles and has its flag cleared (ionizer.py:283-303,
    compton.py:203-227); a species that both receives and keeps is of the second kind. Simplified: which particles are received. *)
Definition processed (sp sp' : gsp) : Prop := attributes_changed sp sp' \/ exists a, sp' = with_arr sp false a.

(** The steps of the loop. *)
Inductive op :=
| OExchange | ODeposit (ft : fieldtype) | OAttributes | ODiags
| OPushX (fraction x_push y_push z_push : R) | OGalilean (fraction : R) | OProcesses | OWindow.

(** The parameters of the loop: n_guard = 0; arguments of step (main.py:351-357) and of the constructor; time step and v_comoving. *)
Record loop_cfg := {
  l_c : R; l_dt : R; l_vcom : R; l_v100 : bool; l_Nm : nat; l_vol : nat -> Z -> R;
  l_wrap : bool; l_window : bool; l_galilean : bool; l_cross : bool; l_period : Z;
  l_move_positions : bool; l_correct_currents : bool }.

(** main.py:672-715 cross_deposit. *)
Definition cross_deposit (k : loop_cfg) : list op :=
  let galilean f := if l_galilean k then [OGalilean f] else [] in
  let push f x y z := if l_move_positions k then [OPushX f x y z] else [] in
  push (/2)%R 1%R 1%R (-1)%R ++ galilean (-/2)%R ++ [ODeposit FRho] ++
  push 1%R (-1)%R (-1)%R 1%R ++ galilean 1%R ++ [ODeposit FRho] ++
  push (/2)%R 1%R 1%R (-1)%R ++ galilean (-/2)%R.

(** main.py:430-548: one pass of the loop, at the global iteration [it] and the local one [i_step]. *)
Definition iteration (k : loop_cfg) (it i_step : Z) : list op :=
  let galilean := if l_galilean k then [OGalilean (/2)%R] else [] in
  let push := if l_move_positions k then [OPushX (/2)%R 1%R 1%R 1%R] else [] in
  (if (it mod l_period k =? 0) || (i_step =? 0) then [OExchange; ODeposit FRho] else []) ++
  (if i_step =? 0 then [ODeposit FJ] else []) ++
  [OAttributes; ODiags; OAttributes] ++ push ++ galilean ++ [OProcesses; ODeposit FJ] ++
  (if l_correct_currents k && l_cross k then cross_deposit k else []) ++
  push ++ galilean ++ [ODeposit FRho] ++
  (if l_window k then [OWindow] else []).

(** main.py:421: step(N) called at the iteration [it]. *)
Definition step_ops (k : loop_cfg) (it N : Z) : list op :=
  flat_map (fun i => iteration k (it + i) i) (range N).
(** Successive calls of step. *)
Fixpoint calls_ops (k : loop_cfg) (it : Z) (Ns : list Z) : list op :=
  match Ns with [] => [] | N :: Ns => step_ops k it N ++ calls_ops k (it + N) Ns end.

(** Grid, species, and arrays of rho and J. *)
Record pic := { st_g : grid; st_sp : list gsp; st_A : comp -> nat -> Z -> Z -> C }.
(** A deposition: made by a diagnostic or by the loop, on which grid, what, from which species; the arrays before and after. *)
Record event := { e_diag : bool; e_g : grid; e_ft : fieldtype; e_sp : list gsp; e_A : comp -> nat -> Z -> Z -> C;
                  e_A' : comp -> nat -> Z -> Z -> C }.
(** main.py:619-621. *)
Definition depositing_gpu (l : list gsp) : list gsp := filter (fun s => negb (gs_tracer s)) l.
(** A species given in species_list deposits even if it is a tracer (main.py:622-624). *)
Definition untracer (sp : gsp) : gsp :=
  {| gs_q := gs_q sp; gs_tracer := false; gs_ionizable := gs_ionizable sp; gs_shape := gs_shape sp;
     gs_sorted := gs_sorted sp; gs_arr := gs_arr sp |}.

(** main.py:619-645: the tracers are skipped, the others are replaced by the species after their deposition. *)
Fixpoint merged (l l1 : list gsp) : list gsp :=
  match l with
  | [] => []
  | s :: l => if gs_tracer s then s :: merged l l1 else
              match l1 with s1 :: l1 => s1 :: merged l l1 | [] => s :: merged l [] end
  end.
(** main.py:782-789 shift_galilean_boundaries on the grid. *)
Definition grid_shifted (d : R) (g : grid) : grid :=
  {| g_dz := g_dz g; g_zmin := g_zmin g + d; g_Nz := g_Nz g; g_dr := g_dr g; g_Nr := g_Nr g;
     g_vol := g_vol g; g_beta := g_beta g |}.

(** main.py:485-490: the diagnostics of one iteration, in any number and order: those that may sort (above), and
    particle_density_diag.py:96-107, the charge density of one species. *)
Inductive diags (k : loop_cfg) : pic -> list event -> pic -> Prop :=
| dg_nil st : diags k st [] st
| dg_species st l st' tr : Forall2 (diagnosed (st_g st)) (st_sp st) l ->
    diags k {| st_g := st_g st; st_sp := l; st_A := st_A st |} tr st' -> diags k st tr st'
| dg_density st l1 sp l2 sp' A' st' tr : st_sp st = l1 ++ sp :: l2 ->
    gpu_deposit (l_c k) (l_v100 k) (st_g st) (l_vol k) (l_Nm k) FRho [untracer sp] [untracer sp'] (st_A st) A' ->
    gs_tracer sp' = gs_tracer sp ->
    diags k {| st_g := st_g st; st_sp := l1 ++ sp' :: l2; st_A := A' |} tr st' ->
    diags k st ({| e_diag := true; e_g := st_g st; e_ft := FRho; e_sp := [untracer sp]; e_A := st_A st; e_A' := A' |} :: tr) st'.

(** One step of the loop, and the depositions it makes. *)
Definition exec (k : loop_cfg) (o : op) (st : pic) (tr : list event) (st' : pic) : Prop :=
  match o with
  | OExchange => tr = [] /\ st_g st' = st_g st /\ st_A st' = st_A st /\
      Forall2 (if l_wrap k then wrapped (st_g st) else exchanged) (st_sp st) (st_sp st')
  | ODeposit ft => exists l1,
      gpu_deposit (l_c k) (l_v100 k) (st_g st) (l_vol k) (l_Nm k) ft (st_sp st) l1 (st_A st) (st_A st') /\
      st_g st' = st_g st /\ st_sp st' = merged (st_sp st) l1 /\
      tr = [{| e_diag := false; e_g := st_g st; e_ft := ft; e_sp := depositing_gpu (st_sp st); e_A := st_A st; e_A' := st_A st' |}]
  | OAttributes => tr = [] /\ st_g st' = st_g st /\ st_A st' = st_A st /\ Forall2 attributes_changed (st_sp st) (st_sp st')
  | ODiags => diags k st tr st'
  | OPushX f x y z => tr = [] /\ st_g st' = st_g st /\ st_A st' = st_A st /\
      st_sp st' = map (push_x (l_c k) (f * l_dt k) x y z) (st_sp st)
  | OGalilean f => tr = [] /\ st_g st' = grid_shifted (l_vcom k * (f * l_dt k)) (st_g st) /\ st_A st' = st_A st /\
      st_sp st' = st_sp st
  | OProcesses => tr = [] /\ st_g st' = st_g st /\ st_A st' = st_A st /\ Forall2 processed (st_sp st) (st_sp st')
  | OWindow => exists n_move, tr = [] /\ st_g st' = grid_moved n_move (st_g st) /\ st_A st' = st_A st /\
      st_sp st' = map (species_window_moved n_move) (st_sp st)
  end.
Inductive execs (k : loop_cfg) : list op -> pic -> list event -> pic -> Prop :=
| ex_nil st : execs k [] st [] st
| ex_cons o ops st tr st1 tr' st' : exec k o st tr st1 -> execs k ops st1 tr' st' -> execs k (o :: ops) st (tr ++ tr') st'.
