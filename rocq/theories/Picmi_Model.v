(** picmi/simulation.py: what the PICMI interface makes of the objects of the picmistandard package. Exact arithmetic. The PICMI
    objects are records with the attributes that are read; attributes that are checked by the picmistandard package itself are not
    checked again here. *)
From Verif Require Import Base Fourier_Lib Boost_Model Smooth_Model Laser_Model Bunch_Model.
From Verif Require ExtField_Model Mirror_Model.
From Coq Require Import Reals String.
From Coquelicot Require Import Complex.
Import ListNotations.
Open Scope R_scope.
Open Scope list_scope.

(** ** Lasers *)
(** PICMI_GaussianLaser. The polarization and propagation directions are vectors; of the two positions only the last element is
    read. [pl_zeta], [pl_beta]: spatial chirp and angular dispersion; [pl_phi0]: phase of the carrier. *)
Record picmi_laser := { pl_a0 : R; pl_wavelength : R; pl_waist : R; pl_duration : R; pl_centroid : R; pl_focal : R;
  pl_propagation : R * R * R; pl_polarization : R * R; pl_phi0 : option R; pl_zeta : option R; pl_beta : option R; pl_phi2 : option R }.
(** (attribute is None) or (attribute == 0), simulation.py:155-156 *)
Definition none_or_zero (a : option R) : bool := match a with None => true | Some v => if Req_EM_T v 0 then true else false end.
(** simulation.py:152-165 of add_laser, for the type PICMI_GaussianLaser: the profile that is given to the antenna. [c], [m_e], [e]:
    scipy.constants. np.arctan2(y, x) is the angle of x + i y. The arguments of GaussianLaser that are not passed have
    their defaults (laser_profiles.py:185-188: lambda0 = 0.8e-6, cep_phase = 0, propagation_direction = 1). *)
Definition picmi_laser_profile (c m_e e : R) (l : picmi_laser) : res laser :=
  let '(d0, d1, _) := pl_propagation l in
  if Req_EM_T d0 0 then if Req_EM_T d1 0 then
    if none_or_zero (pl_zeta l) then if none_or_zero (pl_beta l) then
      let phi2_chirp := match pl_phi2 l with None => 0 | Some p => p end in
      let polarization_angle := angle (RtoC (fst (pl_polarization l)) + Ci * RtoC (snd (pl_polarization l)))%C in
      gaussian_laser c m_e e (pl_a0 l) (pl_waist l) (pl_duration l) (pl_centroid l) (Some (pl_focal l)) polarization_angle
        0.8e-6 0 phi2_chirp 1
    else Err AssertionError else Err AssertionError else Err AssertionError else Err AssertionError.

(** ** Time step *)
(** simulation.py:74-87: the time step that is passed to the FBPIC simulation. [lz], [lr]: the lengths upper_bound - lower_bound. *)
Definition picmi_dt (c : R) (cfl time_step_size gamma_boost : option R) (lz lr : R) (nz nr : Z) : res R :=
  match cfl with
  | Some k =>
    let dz := lz / IZR nz in let dr := lr / IZR nr in
    let dr := match gamma_boost with Some g => let beta := sqrt (1 - 1 / g ^ 2) in dr / ((1 + beta) * g) | None => dr end in
    Ok (k * Rmin dz dr / c)
  | None => match time_step_size with Some dt => Ok dt | None => Err ValueError end
  end.
(** main.py:275-282: the box and the time step of the FBPIC simulation; [None] in the second case stands for an unpacking of the
    wrong length, which does not happen. *)
Definition sim_frame (gamma_boost : option R) (zmin zmax dt : R) : option (R * R * R) :=
  match gamma_boost with
  | Some g => match copropag_length (boost_converter g) [zmin; zmax; dt] 1 with [a; b; d] => Some (a, b, d) | _ => None end
  | None => Some (zmin, zmax, dt)
  end.

(** ** Smoother *)
(** simulation.py:90-103. PICMI_BinomialSmoother: n_pass and compensation are None or vectors (r, z). *)
Definition picmi_smoother (s : option (option (Z * Z) * option (bool * bool))) : res smoother :=
  match s with
  | None => binomial_smoother (One 1%Z) (One false)
  | Some (n_pass, compensation) =>
    let n_passes := match n_pass with None => One 1%Z | Some (r, z) => Dict z r end in
    let compensator := match compensation with None => false | Some (r, z) => r && z end in
    binomial_smoother n_passes (One compensator)
  end.

(** ** Species *)
(** PICMI_Species: [ps_table]: the entries of the particle type in particle_charge and particle_mass
    (particle_charge_and_mass.py:12-34), when a particle type is given; charge and mass may be unset. *)
Record pspecies := { ps_table : option (R * R); ps_charge_state : option Z; ps_charge : option R; ps_mass : option R }.
(** simulation.py:214-221: the attributes charge and mass are overwritten. (None -= ... is a TypeError.) *)
Definition set_charge_mass (e m_e : R) (s : pspecies) : res pspecies :=
  let s := match ps_table s with
           | Some (q, m) => {| ps_table := ps_table s; ps_charge_state := ps_charge_state s; ps_charge := Some q; ps_mass := Some m |}
           | None => s end in
  match ps_charge_state s with
  | None => Ok s
  | Some k => match ps_mass s with
              | Some m => Ok {| ps_table := ps_table s; ps_charge_state := Some k; ps_charge := Some (IZR k * e); ps_mass := Some (m - IZR k * m_e) |}
              | None => Err TypeError end
  end.

(** An FBPIC species made by the interface: charge, mass, and the arguments of its last make_ionizable (the particle type of
    the PICMI species s, level_start, target). *)
Record fspecies := { fs_q : option R; fs_m : option R; fs_ion : option (option Z * nat) }.
(** The state: PICMI species (by number), their attribute fbpic_species, and the list self.interactions: (ionized_species, product_species). *)
Record pstate := { p_spec : nat -> pspecies; p_fbpic : nat -> option fspecies; p_inter : list (nat * nat) }.
Definition updn {A} (f : nat -> A) (i : nat) (v : A) : nat -> A := fun j => if Nat.eqb j i then v else f j.
(** simulation.py:212-230, one turn of the loop over the species. [_create_new_fbpic_species]: here only charge and mass. *)
Definition add_one (e m_e : R) (st : pstate) (i : nat) : res pstate :=
  bind (set_charge_mass e m_e (p_spec st i)) (fun s =>
  Ok {| p_spec := updn (p_spec st) i s; p_fbpic := updn (p_fbpic st) i (Some {| fs_q := ps_charge s; fs_m := ps_mass s; fs_ion := None |});
        p_inter := p_inter st |}).
(** simulation.py:233-246, one turn of the loop over the interactions (all of type FieldIonization, model ADK). The first error is the
    RuntimeError of line 239, the second the AttributeError of line 243. particles.py:484-489 make_ionizable sets the charge to e.
    The checks of Ionizer.__init__ (known element; the target are electrons) are not modelled; level_start None is a TypeError
    (ionizer.py:98). *)
Definition apply_interaction (e : R) (st : pstate) (it : nat * nat) : res pstate :=
  let '(src, tgt) := it in
  match p_fbpic st tgt with
  | None => Err RuntimeError
  | Some _ => match p_fbpic st src with
    | None => Err AttributeError
    | Some f => match ps_charge_state (p_spec st src) with
      | None => Err TypeError
      | Some k => Ok {| p_spec := p_spec st; p_inter := p_inter st;
                        p_fbpic := updn (p_fbpic st) src (Some {| fs_q := Some e; fs_m := fs_m f; fs_ion := Some (Some k, tgt) |}) |} end end end.
Fixpoint foldM {A S} (f : S -> A -> res S) (l : list A) (s : S) : res S :=
  match l with [] => Ok s | a :: l => bind (f s a) (foldM f l) end.
(** The calls of the user: add_species (one species, or the list of a MultiSpecies), simulation.py:176-246; add_interaction (the
    method of the parent class: an append). *)
Inductive call := AddSpecies (l : list nat) | AddInteraction (src tgt : nat).
Definition do_call (e m_e : R) (st : pstate) (c : call) : res pstate :=
  match c with
  | AddSpecies l => bind (foldM (add_one e m_e) l st) (fun st => foldM (apply_interaction e) (p_inter st) st)
  | AddInteraction a b => Ok {| p_spec := p_spec st; p_fbpic := p_fbpic st; p_inter := p_inter st ++ [(a, b)] |}
  end.
Definition do_calls (e m_e : R) (st : pstate) (l : list call) : res pstate := foldM (do_call e m_e) l st.

(** ** Gaussian bunch *)
(** PICMI_GaussianBunchDistribution: the elements that are read ([_r]: of index 0, [_z]: of index -1). rms_velocity and
    centroid_velocity are gamma V. *)
Record picmi_bunch := { pb_size_r : R; pb_size_z : R; pb_rms_v_r : R; pb_rms_v_z : R; pb_position_z : R; pb_velocity_z : R;
  pb_divergence_r : R; pb_particles : R }.
(** simulation.py:310-339: the bunch in the lab frame, before add_particle_bunch_from_arrays; [density_scale]: an attribute of the
    species; n_macroparticles: of the layout. x**0.5 of a negative number is a complex number (or nan): here sqrt gives 0. *)
Definition picmi_gaussian_beam (c : R) (d : picmi_bunch) (density_scale : option R) (n_macroparticles : Z) (draws : Z -> list draw) : res (list beam) :=
  let gamma0_beta0 := pb_velocity_z d / c in
  let gamma0 := sqrt (1 + gamma0_beta0 ^ 2) in
  let sig_r := pb_size_r d in let sig_z := pb_size_z d in
  let sig_gamma := pb_rms_v_z d / c in
  let sig_vr := pb_rms_v_r d / gamma0 in
  let tf := if Req_EM_T sig_vr 0 then 0 else - (sig_r ^ 2) / sig_vr ^ 2 * pb_divergence_r d in
  let zf := pb_position_z d + pb_velocity_z d / gamma0 * tf in
  let sig_r0 := sqrt (sig_r ^ 2 - (sig_vr * tf) ^ 2) in
  let n_emit := gamma0 * sig_r0 * sig_vr / c in
  let n := match density_scale with Some s => pb_particles d * s | None => pb_particles d end in
  gaussian_beam c sig_r0 sig_z n_emit gamma0 sig_gamma n n_macroparticles tf zf false draws.

(** ** Applied fields *)
(** A call with keyword arguments only, of a function whose parameters are [params] (name, has a default): TypeError for an
    unexpected argument or for a missing one. *)
Definition call_ok (params : list (string * bool)) (kw : list string) : bool :=
  forallb (fun k => existsb (fun p => String.eqb k (fst p)) params) kw &&
  forallb (fun p => snd p || existsb (String.eqb (fst p)) kw) params.
(** mirrors.py:14 *)
Definition mirror_params : list (string * bool) := [("z_start", false); ("z_end", false); ("gamma_boost", true); ("m", true)]%string.
Inductive applied_field :=
| PMirror (z_front : option R) (number_of_cells : Z)
| PConstant (values : ExtField_Model.fieldtype -> option R)
| PAnalytic (expressions : ExtField_Model.fieldtype -> option (R -> R -> R -> R -> R))
| POther.
Definition six : list ExtField_Model.fieldtype := [ExtField_Model.Ex; ExtField_Model.Ey; ExtField_Model.Ez; ExtField_Model.Bx; ExtField_Model.By; ExtField_Model.Bz].
(** The lists self.fbpic_sim.external_fields and self.fbpic_sim.mirrors *)
Record fields_state := { external_fields : list ExtField_Model.external_field; mirrors : list Mirror_Model.mirror }.
(** ExternalField( field_func, field_name, 1., 0. ): no species, no gamma_boost. [None] stands for a field_func that is None: the
    compiler of external_fields.py:131 refuses it (TypeError). *)
Definition external_field (c : R) (f : option ExtField_Model.func) (ft : ExtField_Model.fieldtype) : res ExtField_Model.external_field :=
  match f with Some f => ExtField_Model.external_field_init c f ft 1 0 None None | None => Err TypeError end.
(** simulation.py:475-521 add_applied_field. [boost]: self.fbpic_sim.boost (None has no attribute gamma0). In the mirror, the
    arguments z_lab, n_cells, gamma_boost are evaluated, then the call is made. For analytic fields, the function is made by
    exec in the dictionary globals(), so the local variable fieldfunc is still None (lines 506, 514, 517). *)
Definition add_applied_field (c : R) (boost : option converter) (st : fields_state) (a : applied_field) : res fields_state :=
  match a with
  | PMirror None _ => Err AssertionError
  | PMirror (Some _) _ =>
      match boost with None => Err AttributeError | Some _ =>
        if call_ok mirror_params ["z_lab"; "n_cells"; "gamma_boost"]%string then Ok st else Err TypeError end
  | PConstant v => foldM (fun st ft => match v ft with None => Ok st | Some value =>
      bind (external_field c (Some (fun F _ _ _ _ amplitude _ => F + amplitude * value)) ft) (fun x =>
      Ok {| external_fields := external_fields st ++ [x]; mirrors := mirrors st |}) end) six st
  | PAnalytic ex => foldM (fun st ft => match ex ft with None => Ok st | Some _ =>
      let fieldfunc := None in
      bind (external_field c fieldfunc ft) (fun x =>
      Ok {| external_fields := external_fields st ++ [x]; mirrors := mirrors st |}) end) six st
  | POther => Err ValueError
  end.

(** ** Field diagnostics *)
(** The strings of data_list *)
(** simulation.py:369-385: the field types of one string; other strings (e.g. rho_electrons) are ignored. *)
Definition fieldtype_of (d : string) : option string :=
  if existsb (String.eqb d) ["Ex"; "Ey"; "Ez"; "E"]%string then Some "E"%string
  else if existsb (String.eqb d) ["Bx"; "By"; "Bz"; "B"]%string then Some "B"%string
  else if existsb (String.eqb d) ["Jx"; "Jy"; "Jz"; "J"]%string then Some "J"%string
  else if String.eqb d "rho" then Some "rho"%string else None.
(** sorted(list(set)): the four possible elements in the order of the strings (capital letters first). *)
Definition sorted_set (l : list string) : list string :=
  filter (fun f => existsb (String.eqb f) l) ["B"; "E"; "J"; "rho"]%string.
Definition convert_data_list (data_list : option (list string)) : list string :=
  match data_list with
  | None => ["rho"; "E"; "B"; "J"]%string
  | Some l => sorted_set (flat_map (fun d => match fieldtype_of d with Some f => [f] | None => [] end) l)
  end.
(** field_diag.py:135-149 (written at each output) and 275-305 (when the file is created): the records in the file. Not iterable
    (None) : TypeError. The strings that end with _pml are not considered. *)
Definition written (fieldtypes : option (list string)) : res (list string) :=
  match fieldtypes with
  | None => Err TypeError
  | Some l => foldM (fun acc f => if String.eqb f "rho" then Ok (acc ++ [f]) else
      if existsb (String.eqb f) ["E"; "B"; "J"]%string then Ok (acc ++ [(f ++ "/r"); (f ++ "/t"); (f ++ "/z")]%string)%list
      else Err ValueError) l []
  end.
(** simulation.py:387-396 and 421-433: FieldDiagnostic and LabFrameFieldDiagnostic *)
Definition picmi_field_diag (lab_frame : bool) (data_list : option (list string)) : res (list string) :=
  let data_list' := convert_data_list data_list in
  if lab_frame then written data_list else written (Some data_list').
