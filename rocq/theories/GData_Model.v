(** Where the data of a simulation lives: copies of the particles and fields between the memory of the CPU and of the GPU.
    utils/cuda.py:101-183, particles/particles.py:252-333, fields/{fields, interpolation_grid, spectral_grid}.py,
    openpmd_diag/{particle_diag, field_diag, particle_density_diag}.py, main.py:step. The content of an array is an abstract value. *)
From Verif Require Import Base.
From Coq Require Import String ZArith List.
Import ListNotations.
Open Scope string_scope.
Open Scope list_scope.

Section Data.
Context {A : Type}.

(** An array: a cupy array (in the memory of the GPU) or a numpy array, and its content. *)
Record arr := { gpu : bool; val : A }.
(** cupy.asarray: copies a numpy array to the GPU, returns a cupy array as it is *)
Definition asarray (a : arr) : arr := {| gpu := true; val := val a |}.
(** .get(): a method of cupy arrays that returns a numpy copy; numpy arrays have no such method *)
Definition get (a : arr) : res arr := if gpu a then Ok {| gpu := false; val := val a |} else Err AttributeError.

(** The array attributes of a Python object. *)
Definition obj := string -> arr.
Definition set (o : obj) (n : string) (a : arr) : obj := fun k => if String.eqb k n then a else o k.
(** [self.n = cupy.asarray(self.n)] for each n, in order *)
Definition send_attrs (ns : list string) (o : obj) : obj := fold_left (fun o n => set o n (asarray (o n))) ns o.
(** [self.n = self.n.get()] for each n, in order *)
Fixpoint receive_attrs (ns : list string) (o : obj) : res obj :=
  match ns with
  | [] => Ok o
  | n :: ns => bind (get (o n)) (fun a => receive_attrs ns (set o n a))
  end.

(** ** Particles *)
(** The attributes of Particles used here; the arrays of its tracker and of its ionizer are prefixed with the name of the object.
    Simplification: the tracker and the ionizer are not shared between species; the ionizer has the use_cuda of its species
    (ionizer.py:109). *)
Record species := { sp_cuda : bool; sp_n_int : Z; sp_tracker : bool; sp_ionizer : bool; sp_on_gpu : bool; sp_arr : obj }.
(** tracking.py:54-64 *)
Definition tracker_send : list string := ["tracker.id"].
Definition tracker_receive : list string := ["tracker.id"].
(** ionizer.py:321-333 and 335-347, with use_cuda *)
Definition ionizer_send : list string :=
  ["ionizer.ionization_level"; "ionizer.w_times_level"; "ionizer.adk_power"; "ionizer.adk_prefactor"; "ionizer.adk_exp_prefactor"].
Definition ionizer_receive : list string :=
  ["ionizer.ionization_level"; "ionizer.w_times_level"; "ionizer.adk_power"; "ionizer.adk_prefactor"; "ionizer.adk_exp_prefactor"].
(** particles.py:260-288 *)
Definition particles_send (s : species) : list string :=
  ["x"; "y"; "z"; "ux"; "uy"; "uz"; "inv_gamma"; "w"] ++ ["Ex"; "Ey"; "Ez"; "Bx"; "By"; "Bz"] ++ ["sorting_buffer"] ++
  (if (0 <? sp_n_int s)%Z then ["int_sorting_buffer"] else []) ++
  (if sp_tracker s then tracker_send else []) ++ (if sp_ionizer s then ionizer_send else []).
(** particles.py:301-330 *)
Definition particles_receive (s : species) : list string :=
  ["x"; "y"; "z"; "ux"; "uy"; "uz"; "inv_gamma"; "w"] ++ ["Ex"; "Ey"; "Ez"; "Bx"; "By"; "Bz"] ++ ["sorting_buffer"] ++
  (if (0 <? sp_n_int s)%Z then ["int_sorting_buffer"] else []) ++
  (if sp_tracker s then tracker_receive else []) ++ (if sp_ionizer s then ionizer_receive else []).
Definition with_arr (s : species) (on : bool) (o : obj) : species :=
  {| sp_cuda := sp_cuda s; sp_n_int := sp_n_int s; sp_tracker := sp_tracker s; sp_ionizer := sp_ionizer s; sp_on_gpu := on; sp_arr := o |}.
(** particles.py:252-291 send_particles_to_gpu *)
Definition send_particles_to_gpu (s : species) : species :=
  if sp_cuda s then with_arr s true (send_attrs (particles_send s) (sp_arr s)) else s.
(** particles.py:293-333 receive_particles_from_gpu *)
Definition receive_particles_from_gpu (s : species) : res species :=
  if sp_cuda s then bind (receive_attrs (particles_receive s) (sp_arr s)) (fun o => Ok (with_arr s false o)) else Ok s.

(** ** Fields *)
Record fields := { f_cuda : bool; f_Nm : Z; f_pml : bool; f_cross : bool; f_on_gpu : bool; f_interp : Z -> obj; f_spect : Z -> obj }.
(** interpolation_grid.py:178-199 *)
Definition interp_send (pml : bool) : list string :=
  ["Er"; "Et"; "Ez"; "Br"; "Bt"; "Bz"; "Jr"; "Jt"; "Jz"; "rho"] ++ (if pml then ["Er_pml"; "Et_pml"; "Br_pml"; "Bt_pml"] else []).
(** interpolation_grid.py:201-222 *)
Definition interp_receive (pml : bool) : list string :=
  ["Er"; "Et"; "Ez"; "Br"; "Bt"; "Bz"; "Jr"; "Jt"; "Jz"; "rho"] ++ (if pml then ["Er_pml"; "Et_pml"; "Br_pml"; "Bt_pml"] else []).
(** spectral_grid.py:140-166; [cross]: the attributes of the cross-deposition exist *)
Definition spect_send (pml cross : bool) : list string :=
  ["Ep"; "Em"; "Ez"; "Bp"; "Bm"; "Bz"; "Jp"; "Jm"; "Jz"; "rho_prev"; "rho_next"] ++
  (if pml then ["Ep_pml"; "Em_pml"; "Bp_pml"; "Bm_pml"] else []) ++ (if cross then ["rho_next_z"; "rho_next_xy"] else []).
(** spectral_grid.py:169-195 *)
Definition spect_receive (pml cross : bool) : list string :=
  ["Ep"; "Em"; "Ez"; "Bp"; "Bm"; "Bz"; "Jp"; "Jm"; "Jz"] ++ (if pml then ["Ep_pml"; "Em_pml"; "Bp_pml"; "Bm_pml"] else []) ++
  ["rho_prev"; "rho_next"] ++ (if cross then ["rho_next_z"; "rho_next_xy"] else []).
Definition set_mode (g : Z -> obj) (m : Z) (o : obj) : Z -> obj := fun k => if Z.eqb k m then o else g k.
Definition with_grids (f : fields) (on : bool) (i s : Z -> obj) : fields :=
  {| f_cuda := f_cuda f; f_Nm := f_Nm f; f_pml := f_pml f; f_cross := f_cross f; f_on_gpu := on; f_interp := i; f_spect := s |}.
(** fields.py:221-232 send_fields_to_gpu *)
Definition send_fields_to_gpu (f : fields) : fields :=
  if f_cuda f then
    let '(i, s) := fold_left (fun is m =>
        (set_mode (fst is) m (send_attrs (interp_send (f_pml f)) (fst is m)),
         set_mode (snd is) m (send_attrs (spect_send (f_pml f) (f_cross f)) (snd is m)))) (range (f_Nm f)) (f_interp f, f_spect f) in
    with_grids f true i s
  else f.
(** fields.py:234-245 receive_fields_from_gpu *)
Fixpoint receive_modes (pml cross : bool) (ms : list Z) (i s : Z -> obj) : res ((Z -> obj) * (Z -> obj)) :=
  match ms with
  | [] => Ok (i, s)
  | m :: ms => bind (receive_attrs (interp_receive pml) (i m)) (fun oi =>
               bind (receive_attrs (spect_receive pml cross) (s m)) (fun os =>
               receive_modes pml cross ms (set_mode i m oi) (set_mode s m os)))
  end.
Definition receive_fields_from_gpu (f : fields) : res fields :=
  if f_cuda f then bind (receive_modes (f_pml f) (f_cross f) (range (f_Nm f)) (f_interp f) (f_spect f)) (fun is => Ok (with_grids f false (fst is) (snd is)))
  else Ok f.

(** ** Simulation *)
(** Simulation.ptcl is a list of distinct Particles objects: the position in the list identifies the object. *)
Record sim := { s_cuda : bool; s_ptcl : list species; s_fld : fields }.
Definition with_data (s : sim) (p : list species) (f : fields) : sim := {| s_cuda := s_cuda s; s_ptcl := p; s_fld := f |}.
Fixpoint mapM {X Y} (f : X -> res Y) (l : list X) : res (list Y) :=
  match l with [] => Ok [] | x :: l => bind (f x) (fun y => bind (mapM f l) (fun ys => Ok (y :: ys))) end.
(** utils/cuda.py:101-118 send_data_to_gpu *)
Definition send_data_to_gpu (s : sim) : sim :=
  with_data s (map (fun sp => if sp_cuda sp then send_particles_to_gpu sp else sp) (s_ptcl s)) (send_fields_to_gpu (s_fld s)).
(** utils/cuda.py:120-137 receive_data_from_gpu *)
Definition receive_data_from_gpu (s : sim) : res sim :=
  bind (mapM (fun sp => if sp_cuda sp then receive_particles_from_gpu sp else Ok sp) (s_ptcl s)) (fun p =>
  bind (receive_fields_from_gpu (s_fld s)) (fun f => Ok (with_data s p f))).
(** main.py:346-587 step: [body] is everything between lines 404 and 578 *)
Definition step (body : sim -> res sim) (s : sim) : res sim :=
  let s := if s_cuda s then send_data_to_gpu s else s in
  bind (body s) (fun s => if s_cuda s then receive_data_from_gpu s else Ok s).

(** utils/cuda.py:145-160 GpuMemoryManager.__init__ *)
Record manager := { fields_were_on_gpu : bool; species_were_on_gpu : list bool }.
Definition manager_init (s : sim) : manager :=
  {| fields_were_on_gpu := f_on_gpu (s_fld s); species_were_on_gpu := map sp_on_gpu (s_ptcl s) |}.
(** for i, species in enumerate(self.sim.ptcl): if not self.species_were_on_gpu[i]: act(species) *)
Fixpoint for_species (act : species -> res species) (were : list bool) (p : list species) : res (list species) :=
  match p, were with
  | [], _ => Ok []
  | _ :: _, [] => Err IndexError
  | sp :: p, w :: were => bind (if negb w then act sp else Ok sp) (fun sp' => bind (for_species act were p) (fun p' => Ok (sp' :: p')))
  end.
(** utils/cuda.py:162-171 __enter__ *)
Definition manager_enter (k : manager) (s : sim) : res sim :=
  if s_cuda s then
    let f := if negb (fields_were_on_gpu k) then send_fields_to_gpu (s_fld s) else s_fld s in
    bind (for_species (fun sp => Ok (send_particles_to_gpu sp)) (species_were_on_gpu k) (s_ptcl s)) (fun p => Ok (with_data s p f))
  else Ok s.
(** utils/cuda.py:173-182 __exit__ *)
Definition manager_exit (k : manager) (s : sim) : res sim :=
  if s_cuda s then
    bind (if negb (fields_were_on_gpu k) then receive_fields_from_gpu (s_fld s) else Ok (s_fld s)) (fun f =>
    bind (for_species receive_particles_from_gpu (species_were_on_gpu k) (s_ptcl s)) (fun p => Ok (with_data s p f)))
  else Ok s.
(** [with GpuMemoryManager(sim): body]: the body leaves a state, and possibly an exception, which goes on once __exit__ has run
    (__exit__ returns None); an exception raised by __exit__ replaces it. *)
Definition with_manager (body : sim -> sim * option exc) (s : sim) : res (sim * option exc) :=
  let k := manager_init s in
  bind (manager_enter k s) (fun s1 => let '(s2, e) := body s1 in bind (manager_exit k s2) (fun s3 => Ok (s3, e))).

(** ** Diagnostics *)
Fixpoint update_nth (p : list species) (i : nat) (sp : species) : list species :=
  match p, i with [], _ => [] | _ :: p, O => sp :: p | x :: p, S i => x :: update_nth p i sp end.
(** particle_diag.py:220-224 and 280-284. [ixs]: for each name in the sorted list of names of the diagnostic, the position of its
    species in Simulation.ptcl. *)
Fixpoint diag_receive (ixs : list nat) (p : list species) : res (list species) :=
  match ixs with
  | [] => Ok p
  | i :: ixs => match nth_error p i with
      | None => Err KeyError
      | Some sp => bind (if sp_cuda sp then receive_particles_from_gpu sp else Ok sp) (fun sp' => diag_receive ixs (update_nth p i sp'))
      end
  end.
Fixpoint diag_send (ixs : list nat) (p : list species) : list species :=
  match ixs with
  | [] => p
  | i :: ixs => match nth_error p i with
      | None => p
      | Some sp => diag_send ixs (update_nth p i (if sp_cuda sp then send_particles_to_gpu sp else sp))
      end
  end.
(** particle_diag.py:211-284 ParticleDiagnostic.write_hdf5: the data that is there when the datasets are written (lines 226-278, which
    do not modify the particles), and the state afterwards *)
Definition particle_diag_write (ixs : list nat) (s : sim) : res (list (option species) * sim) :=
  bind (diag_receive ixs (s_ptcl s)) (fun p => Ok (map (fun i => nth_error p i) ixs, with_data s (diag_send ixs p) (s_fld s))).
(** field_diag.py:72-158 FieldDiagnostic.write_hdf5, same convention; [prepare]: lines 81-95, on the GPU *)
Definition field_diag_write (prepare : fields -> fields) (s : sim) : res (fields * sim) :=
  let f := prepare (s_fld s) in
  bind (if f_cuda f then receive_fields_from_gpu f else Ok f) (fun f =>
  Ok (f, with_data s (s_ptcl s) (if f_cuda f then send_fields_to_gpu f else f))).
(** particle_density_diag.py:74-139 ParticleChargeDensityDiagnostic.write_hdf5; [deposits]: for each species, lines 104-114 *)
Fixpoint density_diag_write (deposits : list (fields -> fields)) (s : sim) : res (list fields * sim) :=
  match deposits with
  | [] => Ok ([], s)
  | d :: deposits => bind (field_diag_write d s) (fun ws => bind (density_diag_write deposits (snd ws)) (fun wss => Ok (fst ws :: fst wss, snd wss)))
  end.
End Data.
Arguments arr : clear implicits. Arguments obj : clear implicits. Arguments species : clear implicits. Arguments fields : clear implicits.
Arguments sim : clear implicits.
