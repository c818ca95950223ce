(** BoundaryCommunicator.gather_grid and gather_ptcl, the InterpolationGrid objects they handle, and the moves of
    the window that keep those objects up to date. Exact arithmetic. *)
From Coq Require Import ZArith Reals List String.
From Verif Require Import Base Decomp_Model.
Import ListNotations.
Open Scope Z_scope.

(** fields/interpolation_grid.py:140-149: the arrays of a grid, by name *)
Inductive fname := fEr | fEt | fEz | fBr | fBt | fBz | fJr | fJt | fJz | frho.

Section Gather.
Context {A : Type} (zero : A).   (* array elements: complex numbers *)

(** fields/interpolation_grid.py:66-81, 140-149: the attributes used here. Simplified: the volumes, the Ruyten
    coefficients, the PML arrays and the copies on the GPU are left out. *)
Record igrid := mkGrid {
  g_Nz : Z; g_Nr : Z; g_m : Z; g_dr : R; g_dz : R; g_rmin : R; g_rmax : R; g_zmin : R; g_zmax : R;
  g_arr : fname -> @array2 A }.

(** fields/interpolation_grid.py:30-149 __init__ *)
Definition InterpolationGrid (Nz Nr m : Z) (zmin zmax rmax : R) : igrid :=
  {| g_Nz := Nz; g_Nr := Nr; g_m := m;
     g_dr := (rmax / IZR Nr)%R; g_dz := ((zmax - zmin) / IZR Nz)%R;
     g_rmin := 0%R; g_rmax := rmax; g_zmin := zmin; g_zmax := zmax;
     g_arr := fun _ _ _ => zero |}.

(** fields/interpolation_grid.py:169-172 the property z *)
Definition grid_z (g : igrid) (i : Z) : R := (g_zmin g + (1/2 + IZR i) * g_dz g)%R.
(** fields/interpolation_grid.py:174-177 the property r *)
Definition grid_r (g : igrid) (j : Z) : R := (g_rmin g + (1/2 + IZR j) * g_dr g)%R.
(** setattr(gathered_grid, field, gathered_array), boundary_communicator.py:1007 *)
Definition set_arr (g : igrid) (f : fname) (a : @array2 A) : igrid :=
  {| g_Nz := g_Nz g; g_Nr := g_Nr g; g_m := g_m g; g_dr := g_dr g; g_dz := g_dz g; g_rmin := g_rmin g;
     g_rmax := g_rmax g; g_zmin := g_zmin g; g_zmax := g_zmax g;
     g_arr := fun f' => match f, f' with
                        | fEr, fEr | fEt, fEt | fEz, fEz | fBr, fBr | fBt, fBt | fBz, fBz
                        | fJr, fJr | fJt, fJt | fJz, fJz | frho, frho => a
                        | _, _ => g_arr g f' end |}.

(** boundary_communicator.py:156-161, 260-275: the radial attributes _Nr, nr_damp and dr of the communicator *)
Record radial := mkRadial { r_Nr : Z; r_nrdamp : Z; r_dr : R }.
(** boundary_communicator.py:371-383 get_Nr *)
Definition get_Nr (q : radial) (with_damp : bool) : Z := if with_damp then r_Nr q + r_nrdamp q else r_Nr q.
(** boundary_communicator.py:385-397 get_rmax *)
Definition get_rmax (q : radial) (with_damp : bool) : R :=
  if with_damp then (IZR (r_Nr q + r_nrdamp q) * r_dr q)%R else (IZR (r_Nr q) * r_dr q)%R.

(** the communicator as rank [k] sees it (only [rank] differs between the ranks here), boundary_communicator.py:207 *)
Definition at_rank (c : comm) (k : Z) : comm :=
  {| c_rank := k; c_size := c_size c; c_left := c_left c; c_right := c_right c;
     c_Nz := c_Nz c; c_zmin := c_zmin c; c_dz := c_dz c;
     c_nguard := c_nguard c; c_nzdamp := c_nzdamp c; c_ninject := c_ninject c; c_period := c_period c |}.

(** main.py:290-300 and fields.py:165-172: the grid of mode [m] that rank [k] allocates *)
Definition local_grid (c : comm) (q : radial) (m k : Z) : res igrid :=
  bind (divide_into_domain (at_rank c k)) (fun '(zmin, zmax, Nz) =>
    Ok (InterpolationGrid Nz (get_Nr q true) m zmin zmax (get_rmax q true))).

(** boundaries/moving_window.py:102-108: the window moves by [n] cells; the communicator *)
Definition move_comm (n : Z) (c : comm) : comm :=
  if n =? 0 then c else shift_global_domain_positions c (IZR n * c_dz c)%R.
(** boundaries/moving_window.py:102-108: the window moves by [n] cells; a grid *)
Definition move_grid (n : Z) (g : igrid) : igrid :=
  if n =? 0 then g else
  {| g_Nz := g_Nz g; g_Nr := g_Nr g; g_m := g_m g; g_dr := g_dr g; g_dz := g_dz g; g_rmin := g_rmin g;
     g_rmax := g_rmax g; g_zmin := (g_zmin g + IZR n * g_dz g)%R; g_zmax := (g_zmax g + IZR n * g_dz g)%R;
     g_arr := g_arr g |}.

(** boundary_communicator.py:998-1000: the order of the loop *)
Definition gathered_fields : list fname := [fEr; fEt; fEz; fBr; fBt; fBz; fJr; fJt; fJz; frho].

(** boundary_communicator.py:964-1009 gather_grid, on the rank [root]; [grids k] is the argument of rank [k] (the
    other ranks return None). Simplified: the grid objects are on the CPU. *)
Definition gather_grid (c : comm) (q : radial) (root : Z) (grids : Z -> igrid) : res igrid :=
  bind (get_Nz_and_iz c false false false None) (fun '(Nz_global, _) =>
  bind (get_zmin_zmax c false false false None) (fun '(zmin_global, zmax_global) =>
  let Nr := get_Nr q false in
  let rmax := get_rmax q false in
  let gathered := InterpolationGrid Nz_global Nr (g_m (grids root)) zmin_global zmax_global rmax in
  fold_left (fun acc f =>
      bind acc (fun g =>
      bind (gather_grid_array zero c (get_Nr q false) false (fun k => g_arr (grids k) f)) (fun a =>
      Ok (set_arr g f a))))
    gathered_fields (Ok gathered))).
End Gather.
Arguments igrid : clear implicits.

(** The names of the attributes of a Particles object: particles.py:65-250 (__init__) and the methods, 252-1094. Names
    that start with two underscores (which every Python object has) are left out. *)
Definition particles_attrs : list string :=
  ["Ntot"; "q"; "m"; "dt"; "is_tracer"; "x"; "y"; "z"; "ux"; "uy"; "uz"; "inv_gamma"; "w"; "Ex"; "Ey"; "Ez";
   "Bx"; "By"; "Bz"; "use_cuda"; "data_is_on_gpu"; "gather_tpb"; "deposit_tpb"; "particle_shape";
   "keep_fields_sorted"; "n_integer_quantities"; "n_float_quantities"; "continuous_injection"; "injector";
   "tracker"; "ionizer"; "compton_scatterer"; "grid_shape"; "cell_idx"; "sorted_idx"; "prefix_sum";
   "prefix_sum_shift"; "sorting_buffer"; "int_sorting_buffer"; "sorted";
   "send_particles_to_gpu"; "receive_particles_from_gpu"; "generate_continuously_injected_particles"; "track";
   "activate_compton"; "make_ionizable"; "handle_elementary_processes"; "rearrange_particle_arrays"; "push_p";
   "push_x"; "gather"; "deposit"; "sort_particles"]%string.
(** The names of the attributes of a BoundaryCommunicator: boundary_communicator.py:51-334 (__init__) and the
    methods 338-1217, without the names that start with two underscores. *)
Definition comm_attrs : list string :=
  ["Nm"; "_Nr"; "_Nz_global_domain"; "_zmin_global_domain"; "boundaries"; "d_left_damp"; "d_right_damp"; "dr";
   "dz"; "exchange_period"; "left_damp"; "left_proc"; "moving_win"; "mpi_buffers"; "mpi_comm"; "n_guard";
   "n_inject"; "nr_damp"; "nz_damp"; "pml_damper"; "rank"; "right_damp"; "right_proc"; "size";
   "use_all_mpi_ranks"; "use_pml";
   "divide_into_domain"; "get_Nr"; "get_rmax"; "get_Nz_and_iz"; "get_zmin_zmax";
   "shift_global_domain_positions"; "move_grids"; "exchange_fields"; "exchange_domains"; "exchange_particles";
   "damp_EB_open_boundary"; "damp_pml_EB"; "generate_damp_array"; "gather_grid"; "gather_grid_array";
   "scatter_grid_array"; "gather_ptcl"; "gather_ptcl_array"; "exchange_particles_aperiodic_subdomain"]%string.

Section GatherPtcl.
Context {V : Type}.   (* the values of attributes *)
(** An object: the values of its attributes, by name. *)
Definition object := string -> option V.
(** o.name in Python *)
Definition getattr (o : object) (name : string) : res V :=
  match o name with Some v => Ok v | None => Err AttributeError end.
Definition has_only (o : object) (names : list string) : Prop := forall n, o n <> None -> In n names.
(** boundary_communicator.py:1150-1154: the arguments of the new Particles object, evaluated from left to right, on
    the root of gather_ptcl (1132-1173); [init] stands for Particles.__init__, [rest] for the lines 1158-1173. *)
Definition gather_ptcl (zero : V) (self ptcl : object) (init : list V -> res object) (rest : object -> res object)
  : res object :=
  bind (getattr ptcl "q") (fun q =>
  bind (getattr ptcl "m") (fun m =>
  bind (getattr ptcl "n") (fun n =>
  bind (getattr self "zmin") (fun zmin =>
  bind (getattr self "zmax") (fun zmax =>
  bind (getattr ptcl "rmin") (fun rmin =>
  bind (getattr ptcl "rmax") (fun rmax =>
  bind (getattr ptcl "dt") (fun dt =>
  bind (init [q; m; n; zero; zmin; zmax; zero; rmin; rmax; dt]) rest)))))))).
End GatherPtcl.
