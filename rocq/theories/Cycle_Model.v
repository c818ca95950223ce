(** The whole of main.py [Simulation.step] as a transformer of the arrays it works on, with the numerical kernels left abstract
    (they are modelled in the other files), and what the diagnostics read and overwrite: openpmd_diag/field_diag.py,
    boosted_field_diag.py, particle_density_diag.py, particle_diag.py, boosted_particle_diag.py.
    Simplified: an array stands for all the azimuthal modes and all the MPI ranks together; the CPU code path (on GPU the
    deposition may reorder the particles). *)
From Verif Require Import Base Step_Model.
From Coq Require Import Reals String.
Open Scope Z_scope.

(** One value per entry of [fld.exchanged_source] / per source array in spectral space (fields.py:199-203; spectral_grid.py). *)
Record five (X : Type) := { aJ : X; aprev : X; anext : X; axy : X; az : X }.
Arguments aJ {X}. Arguments aprev {X}. Arguments anext {X}. Arguments axy {X}. Arguments az {X}.
(** Reading and writing the entry named by a field type (main.py:597-600). *)
Definition get5 {X} (f : fieldtype) (a : five X) : X :=
  match f with J => aJ a | rho_prev => aprev a | rho_next => anext a | rho_next_xy => axy a | rho_next_z => az a end.
Definition set5 {X} (f : fieldtype) (v : X) (a : five X) : five X :=
  match f with
  | J => {| aJ := v; aprev := aprev a; anext := anext a; axy := axy a; az := az a |}
  | rho_prev => {| aJ := aJ a; aprev := v; anext := anext a; axy := axy a; az := az a |}
  | rho_next => {| aJ := aJ a; aprev := aprev a; anext := v; axy := axy a; az := az a |}
  | rho_next_xy => {| aJ := aJ a; aprev := aprev a; anext := anext a; axy := v; az := az a |}
  | rho_next_z => {| aJ := aJ a; aprev := aprev a; anext := anext a; axy := axy a; az := v |}
  end.

Section Cycle.
(** [P]: a species ([Particles] object); [Q]: a laser antenna; [A]: an array (or the arrays of a vector); [W]: positions of the
    grids, moving window, communicator and random generator. *)
Context {P Q A W : Type}.

(** The functions called by [step]. The boolean of the source kernels selects the current (true) or the charge (false). *)
Record kernels := {
  (** comm.size > 1; filter_currents; use_galilean; current_correction == 'cross-deposition'; comm.moving_win is not None;
      comm.exchange_period; dt (main.py:200-330) *)
  k_multi : bool; k_filter : bool; k_galilean : bool; k_cross : bool; k_window : bool; k_period : Z; k_dt : R;
  (** species.is_tracer *)
  k_tracer : P -> bool;
  (** main.py:393-397 initialize_injection_positions of the injectors *)
  k_init : W -> list P -> list P;
  (** comm.exchange_fields(E and B, 'replace'), comm.damp_EB_open_boundary, fld.interp2spect of E and B (main.py:410-417) *)
  k_exch : W -> A * A -> A * A; k_damp : W -> A * A -> A * A; k_T : A * A -> A * A;
  (** the loop over exchange_particles, update_current_rank (main.py:441-444) *)
  k_exch_p : W -> R -> list P -> W * list P; k_rank : W -> Q -> Q;
  (** fields.erase; Particles.deposit; LaserAntenna.deposit; sum_reduce_deposition_array and divide_by_volume; exchange_fields(_, 'add');
      interp2spect; filter_spect; spect2interp *)
  k_zero : bool -> A; k_dep : bool -> W -> P -> A -> A; k_adep : bool -> W -> Q -> A -> A; k_reduce : bool -> A -> A;
  k_add : bool -> W -> A -> A; k_fwd : bool -> A -> A; k_filt : bool -> A -> A; k_bwd : bool -> A -> A;
  (** Particles.gather; the loop over apply_expression; push_p; push_x with its three factors; antenna.update_v and push_x *)
  k_gather : W -> A * A -> P -> P; k_ext : R -> list P -> list P; k_push_p : R -> P -> P;
  k_push_x : R -> R -> R -> R -> P -> P; k_ant_v : R -> Q -> Q; k_ant_x : R -> R -> R -> R -> Q -> Q;
  (** shift_galilean_boundaries; the loop over handle_elementary_processes *)
  k_shift : R -> W -> W; k_elem : W -> R -> list P -> W * list P;
  (** correct_currents (J, rho_prev, rho_next, rho_next_xy, rho_next_z); spect2partial_interp and partial_interp2spect of J *)
  k_correct : A -> A -> A -> A -> A -> A; k_pbwd : A -> A; k_pfwd : A -> A;
  (** push_eb_with; the erasure of rho_next; correct_divE *)
  k_push : bool -> A * A -> A -> A -> A -> A * A; k_zero_s : A; k_divE : A * A -> A -> A * A;
  (** move_grids: the new positions, the injectors, and the shift of E and B, of rho_prev and of J in spectral space *)
  k_move : W -> R -> list P -> W * list P * (A * A -> A * A) * (A -> A) * (A -> A);
  (** exchange_and_damp_EB: the new spectral fields and the new fields on the interpolation grid *)
  k_bound : W -> R -> A * A -> (A * A) * (A * A) }.

(** The attributes of the [Simulation] read or written by [step]; [iEB], [iJ], [irho]: interpolation grid; [sEB], [src]: spectral
    grid; [flg]: [fld.exchanged_source] (main.py:332-374, fields.py:140-203). *)
Record st := { ptc : list P; ants : list Q; env : W; time : R; it : Z; iEB : A * A; iJ : A; irho : A;
               sEB : A * A; src : five A; flg : five bool }.
Definition set_ptc v s := {| ptc := v; ants := ants s; env := env s; time := time s; it := it s; iEB := iEB s; iJ := iJ s;
  irho := irho s; sEB := sEB s; src := src s; flg := flg s |}.
Definition set_ants v s := {| ptc := ptc s; ants := v; env := env s; time := time s; it := it s; iEB := iEB s; iJ := iJ s;
  irho := irho s; sEB := sEB s; src := src s; flg := flg s |}.
Definition set_env v s := {| ptc := ptc s; ants := ants s; env := v; time := time s; it := it s; iEB := iEB s; iJ := iJ s;
  irho := irho s; sEB := sEB s; src := src s; flg := flg s |}.
Definition set_EB i v s := {| ptc := ptc s; ants := ants s; env := env s; time := time s; it := it s; iEB := i; iJ := iJ s;
  irho := irho s; sEB := v; src := src s; flg := flg s |}.
Definition set_i (cur : bool) v s := {| ptc := ptc s; ants := ants s; env := env s; time := time s; it := it s; iEB := iEB s;
  iJ := if cur then v else iJ s; irho := if cur then irho s else v; sEB := sEB s; src := src s; flg := flg s |}.
Definition set_src v s := {| ptc := ptc s; ants := ants s; env := env s; time := time s; it := it s; iEB := iEB s; iJ := iJ s;
  irho := irho s; sEB := sEB s; src := v; flg := flg s |}.
Definition set_flg v s := {| ptc := ptc s; ants := ants s; env := env s; time := time s; it := it s; iEB := iEB s; iJ := iJ s;
  irho := irho s; sEB := sEB s; src := src s; flg := v |}.
Definition set_clock t n s := {| ptc := ptc s; ants := ants s; env := env s; time := t; it := n; iEB := iEB s; iJ := iJ s;
  irho := irho s; sEB := sEB s; src := src s; flg := flg s |}.

(** The arguments of [step] (main.py:333-336). *)
Record opts := { o_cc : bool; o_divE : bool; o_true_rho : bool; o_move_x : bool; o_move_p : bool }.

Context (k : kernels).

(** main.py:588-670 deposit, with update_spectral=True; [who = None]: species_list=None. *)
Definition is_J (f : fieldtype) : bool := match f with J => true | _ => false end.
Definition deposit (f : fieldtype) (exchange : bool) (who : option (list P)) (s : st) : st :=
  let cur := is_J f in
  let '(sps, ans) := match who with
                     | None => (filter (fun p => negb (k_tracer k p)) (ptc s), ants s)
                     | Some l => (l, []) end in
  let a := fold_left (fun a p => k_dep k cur (env s) p a) sps (k_zero k cur) in
  let a := fold_left (fun a q => k_adep k cur (env s) q a) ans a in
  let a := k_reduce k cur a in
  let a := if exchange && k_multi k then k_add k cur (env s) a else a in
  let v := k_fwd k cur a in
  let v := if k_filter k then k_filt k cur v else v in
  set_flg (set5 f exchange (flg s)) (set_src (set5 f v (src s)) (set_i cur a s)).

(** The lines spect2interp + exchange 'add' unless the flag is set (main.py:572-577; field_diag.py:82-95). *)
Definition fetch (f : fieldtype) (s : st) : st :=
  let a := k_bwd k (is_J f) (get5 f (src s)) in
  set_i (is_J f) (if negb (get5 f (flg s)) && k_multi k then k_add k (is_J f) (env s) a else a) s.

(** * Diagnostics *)
Inductive ft := FE | FB | FJ | Frho.
Inductive kind := KField (fts : list ft) | KBoosted (fts : list ft) | KDensity (sps : list (string * nat)) | KPtcl (sps : list nat).
Record diagn := { dg_sched : diag; dg_kind : kind }.
(** What a diagnostic takes from the simulation. *)
Inductive out := OField (f : ft) (a : A) | ODensity (name : string) (a : A) | OPtcl (n : nat) (p : P).
Definition record := (Z * W * list out)%type.
Definition has (f : ft) (l : list ft) : bool :=
  existsb (fun g => match f, g with FE, FE | FB, FB | FJ, FJ | Frho, Frho => true | _, _ => false end) l.
(** field_diag.py:121-139, the arrays written (boosted_field_diag.py:163-200: the arrays from which the slices are taken). *)
Definition grab (s : st) (f : ft) : out :=
  OField f (match f with FE => fst (iEB s) | FB => snd (iEB s) | FJ => iJ s | Frho => irho s end).
(** particle_density_diag.py:96-119, one species of the loop; [nth_error]: the species is one of the simulation. *)
Definition density_of (acc : st * list out) (x : string * nat) : st * list out :=
  match nth_error (ptc (fst acc)) (snd x) with
  | None => acc
  | Some p =>
      let s := deposit rho_next false (Some [p]) (fst acc) in
      let a := k_bwd k false (get5 rho_next (src s)) in
      let a := if k_multi k then k_add k false (env s) a else a in
      let s := set_i false a s in
      (s, snd acc ++ [ODensity (fst x) (irho s)])
  end.
(** field_diag.py:72-144; boosted_field_diag.py:140-161; particle_density_diag.py:71-129; particle_diag.py and
    boosted_particle_diag.py, which only read the particles (the random numbers of a diagnostic with subsampling are not modelled here; see Seed_Model.v). *)
Definition write_hdf5 (d : diagn) (s : st) : st * list out :=
  match dg_kind d with
  | KField fts =>
      let s := if has Frho fts then fetch rho_prev s else s in
      let s := if has FJ fts then fetch J s else s in
      (s, map (grab s) fts)
  | KBoosted fts =>
      let s := if has Frho fts || has FJ fts then fetch rho_prev (fetch J s) else s in
      (s, map (grab s) fts)
  | KDensity sps => fold_left density_of sps (s, [])
  | KPtcl sps => (s, flat_map (fun n => match nth_error (ptc s) n with None => [] | Some p => [OPtcl n p] end) sps)
  end.
(** generic_diag.py:124-140 write; boosted_field_diag.py:119-137: slices are stored at every iteration. *)
Definition due (d : diagn) (i : Z) : bool := match dg_kind d with KBoosted _ => true | _ => writes (dg_sched d) i end.
Definition write (d : diagn) (s : st) : st * list record :=
  if due d (it s) then let '(s', l) := write_hdf5 d s in (s', [(it s, env s, l)]) else (s, []).
(** main.py:470-476, the loop over the diagnostics; one list of records per diagnostic. *)
Fixpoint run_diags (ds : list diagn) (s : st) : st * list (list record) :=
  match ds with
  | [] => (s, [])
  | d :: ds => let '(s1, r) := write d s in let '(s2, rs) := run_diags ds s1 in (s2, r :: rs)
  end.

(** * The PIC loop *)
Context (o : opts).
(** main.py:441-452, particle exchange and charge density at time n *)
Definition exchange_particles (s : st) : st :=
  let '(w, ps) := k_exch_p k (env s) (time s) (ptc s) in
  let s := set_env w (set_ptc ps s) in
  let s := set_ants (map (k_rank k w) (ants s)) s in
  deposit rho_prev (o_true_rho o) None s.
(** main.py:432-468, from the beginning of the iteration to the diagnostics *)
Definition before_diags (first : bool) (s : st) : st :=
  let s := if (it s mod k_period k =? 0) || first then exchange_particles s else s in
  let s := if first then deposit J true None s else s in
  let s := set_ptc (map (k_gather k (env s) (iEB s)) (ptc s)) s in
  set_ptc (k_ext k (time s) (ptc s)) s.
(** push_x of the species (if requested) and of the antennas, and Galilean shift of the grids (main.py:481-491, 514-523, 684-717) *)
Definition move_all (dt fx fy fz gal : R) (s : st) : st :=
  let s := if o_move_x o then set_ptc (map (k_push_x k dt fx fy fz) (ptc s)) s else s in
  let s := set_ants (map (k_ant_x k dt fx fy fz) (ants s)) s in
  if k_galilean k then set_env (k_shift k gal (env s)) s else s.
(** main.py:671-717 cross_deposit *)
Definition cross_deposit (s : st) : st :=
  let dt := k_dt k in
  let s := move_all (0.5 * dt) 1 1 (-1) (-0.5 * dt) s in
  let s := deposit rho_next_xy false None s in
  let s := move_all dt (-1) (-1) 1 dt s in
  let s := deposit rho_next_z false None s in
  move_all (0.5 * dt) 1 1 (-1) (-0.5 * dt) s.
(** main.py:529-539 with fields.py:289-303 *)
Definition correct_currents (s : st) : res st :=
  let g := flg s in
  if k_multi k && (aprev g || anext g || aJ g || (k_cross k && (axy g || az g))) then Err AssertionError else
  let c := src s in
  let j := k_correct k (aJ c) (aprev c) (anext c) (axy c) (az c) in
  let s := set_src (set5 J j c) s in
  let s := if k_multi k then
             let a := k_add k true (env s) (k_pbwd k j) in
             set_src (set5 J (k_pfwd k a) (src s)) (set_i true a s)
           else s in
  Ok (set_flg (set5 J true (flg s)) s).
(** main.py:541-543 with fields.py:265-276 *)
Definition push_fields (s : st) : res st :=
  let g := flg s in
  if k_multi k && (negb (aJ g) || (o_true_rho o && negb (aprev g && anext g))) then Err AssertionError else
  let c := src s in
  let eb := k_push k (o_true_rho o) (sEB s) (aJ c) (aprev c) (anext c) in
  Ok (set_EB (iEB s) eb (set_src (set5 rho_next (k_zero_s k) (set5 rho_prev (anext c) c)) s)).
(** main.py:478-562, from the diagnostics to the end of the iteration (the checkpoints only read) *)
Definition after_diags (s : st) : res st :=
  let dt := k_dt k in
  let s := if o_move_p o then set_ptc (map (k_push_p k (time s + 0.5 * dt)) (ptc s)) s else s in
  let s := set_ants (map (k_ant_v k (time s + 0.5 * dt)) (ants s)) s in
  let s := move_all (0.5 * dt) 1 1 1 (0.5 * dt) s in
  let '(w, ps) := k_elem k (env s) (time s + 0.5 * dt) (ptc s) in
  let s := set_env w (set_ptc ps s) in
  let s := deposit J (negb (o_cc o)) None s in
  let s := if o_cc o && k_cross k then cross_deposit s else s in
  let s := move_all (0.5 * dt) 1 1 1 (0.5 * dt) s in
  let s := deposit rho_next (o_true_rho o) None s in
  bind (if o_cc o then correct_currents s else Ok s) (fun s =>
  bind (push_fields s) (fun s =>
  let s := if o_divE o then set_EB (iEB s) (k_divE k (sEB s) (aprev (src s))) s else s in
  let s := if k_window k then
             let '(w, ps, sh_EB, sh_rho, sh_J) := k_move k (env s) (time s) (ptc s) in
             set_EB (iEB s) (sh_EB (sEB s)) (set_src (set5 J (sh_J (aJ (src s))) (set5 rho_prev (sh_rho (aprev (src s))) (src s)))
               (set_env w (set_ptc ps s)))
           else s in
  let '(sp, ip) := k_bound k (env s) (time s) (sEB s) in
  let s := set_EB ip sp s in
  Ok (set_clock (time s + dt)%R (it s + 1) s))).
(** main.py:423-566 the loop over [i_step]; the records of every diagnostic are accumulated in [logs]. *)
Fixpoint iterate (ds : list diagn) (n : nat) (first : bool) (s : st) (logs : list (list record)) : res (st * list (list record)) :=
  match n with
  | O => Ok (s, logs)
  | S n =>
      let '(s1, rs) := run_diags ds (before_diags first s) in
      bind (after_diags s1) (fun s2 =>
      iterate ds n false s2 (map (fun '(a, b) => a ++ b) (combine logs rs)))
  end.
(** main.py:380-417, what precedes the loop *)
Definition begin_step (s : st) : st :=
  let s := if k_window k then set_ptc (k_init k (env s) (ptc s)) s else s in
  let eb := k_damp k (env s) (k_exch k (env s) (iEB s)) in
  set_EB eb (k_T k eb) s.
(** main.py:333-586 step *)
Definition step (ds : list diagn) (n : nat) (s : st) : res (st * list (list record)) :=
  if k_multi k && o_divE o then Err ValueError else
  if k_multi k && o_true_rho o && o_cc o then Err ValueError else
  bind (iterate ds n true (begin_step s) (map (fun _ => []) ds)) (fun '(s, logs) =>
  Ok (fetch rho_prev (fetch J s), logs)).
End Cycle.
Arguments kernels : clear implicits.
Arguments st : clear implicits.
Arguments out : clear implicits.
Arguments record : clear implicits.
