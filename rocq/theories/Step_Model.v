(** Model of the PIC loop: main.py [Simulation.step], [deposit], [cross_deposit],
    [shift_galilean_boundaries], [set_moving_window]; moving_window.py [move_grids];
    fields.py [push]/[correct_currents] consistency checks; generic_diag.py [write].
    One MPI rank is followed; all ranks run the same control flow because it only depends on
    shared data (options, iteration, broadcast [n_move]). *)
From Verif Require Import Base.
From Coq Require Import Reals.
From Flocq Require Import Core.Core.
Open Scope Z_scope.

(** A macroparticle: position and velocity [c*u*inv_gamma] (particles/particles.py:65-250).
    Simplified: weight and other attributes play no role in the loop control. *)
Record ptc := { px : R; py : R; pz : R; vx : R; vy : R; vz : R }.

(** particles/particles.py:65-250, the attributes used by the loop. *)
Record species := { sp_tracer : bool; sp_ptc : list ptc }.

(** lpa_utils/laser/antenna_injection.py:55-191: the antenna particles; all have the same
    baseline_z.  [an_here] is [deposit_on_this_rank]. *)
Record ant := { an_here : bool; an_ptc : list ptc }.

(** openpmd_diag/generic_diag.py:26-94: period (already a positive integer),
    iteration_min (inclusive), iteration_max (exclusive; [None] is [np.inf]). *)
Record diag := { d_period : Z; d_min : Z; d_max : option Z }.

(** openpmd_diag/generic_diag.py:124-140: the test made by [write]. *)
Definition writes (d : diag) (it : Z) : bool :=
  (it mod d_period d =? 0) && (d_min d <=? it)
    && match d_max d with None => true | Some b => it <? b end.

(** The designations accepted by [Simulation.deposit] (main.py:597-600). *)
Inductive fieldtype := J | rho_prev | rho_next | rho_next_xy | rho_next_z.
Definition fieldtype_eqb (a b : fieldtype) : bool :=
  match a, b with
  | J, J | rho_prev, rho_prev | rho_next, rho_next
  | rho_next_xy, rho_next_xy | rho_next_z, rho_next_z => true
  | _, _ => false
  end.

(** What a source array in spectral space contains.
    [s_flag] is the entry of [fld.exchanged_source] ([None]: no such key, reading it raises
    KeyError).  [s_exch] is a ghost counter: how many guard-cell additions were applied to the
    array since it was deposited. *)
Record src := { s_flag : option bool; s_exch : nat }.

(** Observable actions of the loop, in order. [snap] is what a grid kernel sees. *)
Record snap := { sn_it : Z; sn_species : list species; sn_ants : list ant; sn_gmin : R }.
Inductive event :=
| EvExchange (it : Z)
| EvDeposit (f : fieldtype) (s : snap)
| EvGather (s : snap)
| EvDiag (i : nat) (it : Z)
| EvCheckpoint (i : nat) (it : Z)
| EvCorrect (it : Z) (nJ nprev nnext nxy nz : nat)
| EvPush (it : Z) (use_true_rho : bool) (nJ nprev nnext : nat)
| EvMove (it : Z) (n_move : Z).

(** boundaries/moving_window.py:18-57: speed, continuous position, time of last move. *)
Record window := { w_v : R; w_zmin : R; w_last : R }.

(** The mutable part of a [Simulation]: main.py:100-345.
    [st_zmin] is [comm._zmin_global_domain]; [st_gmin] is [fld.interp[m].zmin]
    (the local grid with guard cells). *)
Record state := {
  st_it : Z; st_time : R; st_zmin : R; st_gmin : R;
  st_species : list species; st_ants : list ant;
  st_src : fieldtype -> src; st_win : option window;
  st_trace : list event }.

(** Options of [step] (main.py:346-375); [show_progress] has no effect on the state. *)
Record opts := { o_cc : bool; o_divE : bool; o_true_rho : bool; o_movex : bool; o_movep : bool }.

(** Fixed parameters. [k_cross]: [fld.current_correction == 'cross-deposition'];
    [k_gal]: [use_galilean]; [k_vcom]: [v_comoving]. *)
Record conf := {
  k_size : Z; k_period : Z; k_cross : bool; k_gal : bool; k_vcom : R; k_dt : R; k_dz : R;
  k_diags : list diag; k_checks : list diag }.

Section Step.
Variable k : conf.
(** Parts of the loop that are not modelled here, as arbitrary functions:
    [exch]: exchange_particles of one species (boundary_communicator.py:710-748), given the
    global zmin; [here]: antenna.update_current_rank (antenna_injection.py:194-221);
    [kick]: velocity after push_p (particles.py:557-636); [laser]: transverse antenna
    velocity of update_v (antenna_injection.py:249-311); [elem]:
    handle_elementary_processes of one species (particles.py:498-508). *)
Variable exch : Z -> R -> species -> species.
Variable here : R -> ant -> bool.
Variable kick : Z -> ptc -> R * R * R.
Variable laser : R -> ptc -> R * R.
Variable elem : Z -> species -> species.

Definition emit (e : event) (s : state) : state :=
  {| st_it := st_it s; st_time := st_time s; st_zmin := st_zmin s; st_gmin := st_gmin s;
     st_species := st_species s; st_ants := st_ants s; st_src := st_src s; st_win := st_win s;
     st_trace := st_trace s ++ [e] |}.
Definition set_species (l : list species) (s : state) : state :=
  {| st_it := st_it s; st_time := st_time s; st_zmin := st_zmin s; st_gmin := st_gmin s;
     st_species := l; st_ants := st_ants s; st_src := st_src s; st_win := st_win s;
     st_trace := st_trace s |}.
Definition set_ants (l : list ant) (s : state) : state :=
  {| st_it := st_it s; st_time := st_time s; st_zmin := st_zmin s; st_gmin := st_gmin s;
     st_species := st_species s; st_ants := l; st_src := st_src s; st_win := st_win s;
     st_trace := st_trace s |}.
Definition set_src (f : fieldtype) (x : src) (s : state) : state :=
  {| st_it := st_it s; st_time := st_time s; st_zmin := st_zmin s; st_gmin := st_gmin s;
     st_species := st_species s; st_ants := st_ants s;
     st_src := fun g => if fieldtype_eqb g f then x else st_src s g; st_win := st_win s;
     st_trace := st_trace s |}.
Definition set_grid (zmin gmin : R) (s : state) : state :=
  {| st_it := st_it s; st_time := st_time s; st_zmin := zmin; st_gmin := gmin;
     st_species := st_species s; st_ants := st_ants s; st_src := st_src s; st_win := st_win s;
     st_trace := st_trace s |}.
Definition set_win (w : option window) (s : state) : state :=
  {| st_it := st_it s; st_time := st_time s; st_zmin := st_zmin s; st_gmin := st_gmin s;
     st_species := st_species s; st_ants := st_ants s; st_src := st_src s; st_win := w;
     st_trace := st_trace s |}.
Definition snapshot (s : state) : snap :=
  {| sn_it := st_it s; sn_species := st_species s; sn_ants := st_ants s; sn_gmin := st_gmin s |}.

(** particles/push/numba_methods.py:16-32 push_x_numba: x += (c*dt*x_push)*inv_gamma*ux. *)
Definition push_ptc (dt fx fy fz : R) (p : ptc) : ptc :=
  {| px := px p + dt * fx * vx p; py := py p + dt * fy * vy p; pz := pz p + dt * fz * vz p;
     vx := vx p; vy := vy p; vz := vz p |}%R.
(** particles/particles.py:639-671 push_x, for all species. *)
Definition push_x_species (dt fx fy fz : R) (s : state) : state :=
  set_species (map (fun sp => {| sp_tracer := sp_tracer sp;
                                 sp_ptc := map (push_ptc dt fx fy fz) (sp_ptc sp) |})
                   (st_species s)) s.
(** antenna_injection.py:223-247 push_x, for all antennas.
    Simplified: the sum baseline + excursion is stored as the position. *)
Definition push_x_ants (dt fx fy fz : R) (s : state) : state :=
  set_ants (map (fun a => {| an_here := an_here a;
                             an_ptc := map (push_ptc dt fx fy fz) (an_ptc a) |})
                (st_ants s)) s.
(** particles/particles.py:557-636 push_p: only the velocity changes. *)
Definition push_p (s : state) : state :=
  set_species (map (fun sp => {| sp_tracer := sp_tracer sp;
      sp_ptc := map (fun p => let '(a, b, d) := kick (st_it s) p in
                 {| px := px p; py := py p; pz := pz p; vx := a; vy := b; vz := d |}) (sp_ptc sp) |})
                   (st_species s)) s.
(** antenna_injection.py:249-311 update_v: only vx, vy change. *)
Definition update_v (t : R) (s : state) : state :=
  set_ants (map (fun a => {| an_here := an_here a;
      an_ptc := map (fun p => let '(a, b) := laser t p in
                 {| px := px p; py := py p; pz := pz p; vx := a; vy := b; vz := vz p |}) (an_ptc a) |})
                (st_ants s)) s.

(** main.py:772-789 shift_galilean_boundaries and boundary_communicator.py:515-525. *)
Definition shift_galilean (dt : R) (s : state) : state :=
  let d := (k_vcom k * dt)%R in
  set_grid (st_zmin s + d)%R (st_gmin s + d)%R s.
Definition maybe_galilean (dt : R) (s : state) : state :=
  if k_gal k then shift_galilean dt s else s.

(** main.py:588-670 deposit, with [update_spectral=True], [species_list=None]:
    non-tracer species and the antennas of this rank deposit; the guard cells are added when
    [exchange and size > 1]; the flag is set to [exchange] whatever the size. *)
Definition deposit (f : fieldtype) (exchange : bool) (s : state) : state :=
  let sn := {| sn_it := st_it s;
               sn_species := filter (fun sp => negb (sp_tracer sp)) (st_species s);
               sn_ants := filter an_here (st_ants s);
               sn_gmin := st_gmin s |} in
  set_src f {| s_flag := Some exchange;
               s_exch := if exchange && (1 <? k_size k) then 1%nat else 0%nat |}
    (emit (EvDeposit f sn) s).

(** main.py:672-716 cross_deposit. *)
Definition cross_deposit (move_positions : bool) (s : state) : state :=
  let dt := k_dt k in
  let go (d fx fz : R) (s : state) :=
    let s := if move_positions then push_x_species d fx fx fz s else s in
    push_x_ants d fx fx fz s in
  let s := go (0.5 * dt)%R 1%R (-1)%R s in
  let s := maybe_galilean (-0.5 * dt)%R s in
  let s := deposit rho_next_xy false s in
  let s := go dt (-1)%R 1%R s in
  let s := maybe_galilean dt s in
  let s := deposit rho_next_z false s in
  let s := go (0.5 * dt)%R 1%R (-1)%R s in
  maybe_galilean (-0.5 * dt)%R s.

(** fields.py: an [assert exchanged_source[f] == b]; KeyError if the key is absent. *)
Definition check (f : fieldtype) (b : bool) (s : state) : res unit :=
  match s_flag (st_src s f) with
  | None => Err KeyError
  | Some b' => if Bool.eqb b b' then Ok tt else Err AssertionError
  end.

(** fields.py:278-302 correct_currents (the correction itself is modelled in Psatd_Model). *)
Definition correct_currents (check_exchanges : bool) (s : state) : res state :=
  bind (if check_exchanges then
          bind (check rho_prev false s) (fun _ =>
          bind (check rho_next false s) (fun _ =>
          bind (check J false s) (fun _ =>
          if k_cross k then
            bind (check rho_next_xy false s) (fun _ => check rho_next_z false s)
          else Ok tt)))
        else Ok tt) (fun _ =>
  Ok (emit (EvCorrect (st_it s) (s_exch (st_src s J)) (s_exch (st_src s rho_prev))
              (s_exch (st_src s rho_next)) (s_exch (st_src s rho_next_xy))
              (s_exch (st_src s rho_next_z))) s)).

(** fields.py:247-276 push and spectral_grid.py:407-421 push_rho: rho_prev takes the data of
    rho_next; the dictionary [exchanged_source] is not updated. *)
Definition push_fields (use_true_rho check_exchanges : bool) (s : state) : res state :=
  bind (if check_exchanges then
          bind (check J true s) (fun _ =>
          if use_true_rho then
            bind (check rho_prev true s) (fun _ => check rho_next true s)
          else Ok tt)
        else Ok tt) (fun _ =>
  let s := emit (EvPush (st_it s) use_true_rho (s_exch (st_src s J)) (s_exch (st_src s rho_prev))
                   (s_exch (st_src s rho_next))) s in
  Ok (set_src rho_prev {| s_flag := s_flag (st_src s rho_prev);
                          s_exch := s_exch (st_src s rho_next) |}
     (set_src rho_next {| s_flag := s_flag (st_src s rho_next); s_exch := 0%nat |} s))).

(** spectral_grid.py:299-314 and 117-120: [correct_divE] reads [inv_k2], which only exists
    when [current_correction == 'curl-free']. *)
Definition correct_divE (s : state) : res state :=
  if k_cross k then Err AttributeError else Ok s.

(** moving_window.py:60-131 move_grids. Simplified: the spectral shift is in Window_Model and
    the injection positions in Inject_Model. *)
Definition move_grids (time : R) (s : state) : state :=
  match st_win s with
  | None => s
  | Some w =>
      let zw := (w_zmin w + w_v w * (time - w_last w))%R in
      let n_move := Ztrunc ((zw - st_zmin s) / k_dz k)%R in
      let d := (IZR n_move * k_dz k)%R in
      let s := if n_move =? 0 then s else set_grid (st_zmin s + d)%R (st_gmin s + d)%R s in
      emit (EvMove (st_it s) n_move)
        (set_win (Some {| w_v := w_v w; w_zmin := zw; w_last := time |}) s)
  end.

(** [for i, d in enumerate(l): d.write(it)] *)
Fixpoint write_all (mk : nat -> Z -> event) (i : nat) (l : list diag) (it : Z) (s : state) : state :=
  match l with
  | [] => s
  | d :: l => write_all mk (S i) l it (if writes d it then emit (mk i it) s else s)
  end.

(** main.py:435-449: particle exchange and deposition of rho_prev. *)
Definition do_exchange (o : opts) (s : state) : state :=
  let s := set_species (map (exch (st_it s) (st_zmin s)) (st_species s)) s in
  let s := set_ants (map (fun a => {| an_here := here (st_zmin s) a; an_ptc := an_ptc a |})
                         (st_ants s)) s in
  deposit rho_prev (o_true_rho o) (emit (EvExchange (st_it s)) s).

(** main.py:466-510: gather, diagnostics, first half push, elementary processes. *)
Definition first_half (o : opts) (s : state) : state :=
  let dt := k_dt k in
  let s := emit (EvGather (snapshot s)) s in
  let s := write_all EvDiag 0 (k_diags k) (st_it s) s in
  let s := if o_movep o then push_p s else s in
  let s := if o_movex o then push_x_species (0.5 * dt)%R 1%R 1%R 1%R s else s in
  let s := push_x_ants (0.5 * dt)%R 1%R 1%R 1%R (update_v (st_time s + 0.5 * dt)%R s) in
  let s := maybe_galilean (0.5 * dt)%R s in
  set_species (map (elem (st_it s)) (st_species s)) s.

(** main.py:509-528: J, cross-deposition, second half push, rho_next. *)
Definition second_half (o : opts) (s : state) : state :=
  let dt := k_dt k in
  let s := deposit J (negb (o_cc o)) s in
  let s := if o_cc o && k_cross k then cross_deposit (o_movex o) s else s in
  let s := if o_movex o then push_x_species (0.5 * dt)%R 1%R 1%R 1%R s else s in
  let s := push_x_ants (0.5 * dt)%R 1%R 1%R 1%R s in
  let s := maybe_galilean (0.5 * dt)%R s in
  deposit rho_next (o_true_rho o) s.

(** main.py:530-544: current correction, guard exchange of the corrected current, push. *)
Definition field_update (o : opts) (s : state) : res state :=
  let multi := 1 <? k_size k in
  bind (if o_cc o then
          bind (correct_currents multi s) (fun s =>
          Ok (set_src J {| s_flag := Some true;
                           s_exch := if multi then S (s_exch (st_src s J)) else s_exch (st_src s J) |} s))
        else Ok s) (fun s =>
  bind (push_fields (o_true_rho o) multi s) (fun s =>
  if o_divE o then correct_divE s else Ok s)).

(** main.py:545-566: moving window, boundaries of E and B (not modelled here), clock,
    checkpoints. *)
Definition end_of_step (s : state) : state :=
  let s := move_grids (st_time s) s in
  let s := {| st_it := st_it s + 1; st_time := (st_time s + k_dt k)%R; st_zmin := st_zmin s;
              st_gmin := st_gmin s; st_species := st_species s; st_ants := st_ants s;
              st_src := st_src s; st_win := st_win s; st_trace := st_trace s |} in
  write_all EvCheckpoint 0 (k_checks k) (st_it s) s.

(** main.py:424-566: one iteration of the loop. [exchange_period >= 1] (Python's [%] raises
    for 0). *)
Definition iteration (o : opts) (first : bool) (s : state) : res state :=
  let s := if (st_it s mod k_period k =? 0) || first then do_exchange o s else s in
  let s := if first then deposit J true s else s in
  let s := second_half o (first_half o s) in
  bind (field_update o s) (fun s => Ok (end_of_step s)).

Fixpoint loop (o : opts) (first : bool) (n : nat) (s : state) : res state :=
  match n with
  | O => Ok s
  | S n => bind (iteration o first s) (loop o false n)
  end.

(** main.py:346-585 step. Simplified: the initialization of the injection positions, the
    transfers to the GPU, the initial transform of E and B and the final transform of rho
    and J to real space do not touch the modelled state. *)
Definition step (o : opts) (N : Z) (s : state) : res state :=
  if (1 <? k_size k) && o_divE o then Err ValueError
  else if (1 <? k_size k) && o_true_rho o && o_cc o then Err ValueError
  else loop o true (Z.to_nat N) s.

(** Successive calls. *)
Fixpoint steps (calls : list (opts * Z)) (s : state) : res state :=
  match calls with
  | [] => Ok s
  | (o, N) :: l => bind (step o N s) (steps l)
  end.
End Step.

(** fields.py:201-203: initial flags (the dictionary is created with the key 'rho_new'
    instead of 'rho_next'). *)
Definition initial_src (f : fieldtype) : src :=
  {| s_flag := match f with rho_next => None | _ => Some false end; s_exch := 0%nat |}.

(** main.py:1004-1032 set_moving_window and moving_window.py:18-57. *)
Definition set_moving_window (k : conf) (v : R) (s : state) : state :=
  set_win (Some {| w_v := v; w_zmin := st_zmin s; w_last := (st_time s - k_dt k)%R |}) s.
