(** C87: on a GPU, the data is on the GPU during a step and back on the CPU afterwards, and copies never lose or change it. *)
From Verif Require Import Base GData_Model GData_Spec GData_Proofs.
From Coq Require Import String ZArith List Lia.
Import ListNotations.
Open Scope list_scope.

(** [sim.step] with use_cuda: wherever the arrays were, all of them are on the GPU while the iterations run, with their contents;
    when the step returns, all of them are numpy arrays, with the contents that the iterations have produced. *)
Theorem C87_step : forall {A} (iterations : sim A -> res (sim A)) s, uses_cuda true s ->
  exists s1, sim_at true s1 /\ same_data s s1 /\
  (forall s2, iterations s1 = Ok s2 -> uses_cuda true s2 -> sim_at true s2 -> exists s3, step iterations s = Ok s3 /\ sim_at false s3 /\ same_data s2 s3) /\
  (forall e, iterations s1 = Err e -> step iterations s = Err e).
Proof. intros A. exact step_places. Qed.
Print Assumptions C87_step.

(** A particle diagnostic written during a step sees numpy arrays with the contents of the GPU, and leaves the simulation as it was. *)
Theorem C87_particle_diag : forall {A} ixs (s : sim A), uses_cuda true s -> sim_at true s -> NoDup ixs ->
  Forall (fun i => (i < List.length (s_ptcl s))%nat) ixs ->
  exists seen s', particle_diag_write ixs s = Ok (seen, s') /\
  Forall2 (fun i o => exists sp sp', nth_error (s_ptcl s) i = Some sp /\ o = Some sp' /\ species_at false sp' /\ same_species sp sp') ixs seen /\
  sim_at true s' /\ same_data s s'.
Proof. intros A. exact particle_diag_places. Qed.
Print Assumptions C87_particle_diag.

(** The same for field diagnostics; [prepare] brings the sources from spectral space, on the GPU. *)
Theorem C87_field_diag : forall {A} prepare (s : sim A), uses_cuda true s -> sim_at true s ->
  f_cuda (prepare (s_fld s)) = true -> fields_at true (prepare (s_fld s)) ->
  exists seen s', field_diag_write prepare s = Ok (seen, s') /\ fields_at false seen /\ same_fields (prepare (s_fld s)) seen /\
  uses_cuda true s' /\ sim_at true s' /\ s_ptcl s' = s_ptcl s /\ same_fields (prepare (s_fld s)) (s_fld s').
Proof. intros A. exact field_diag_places. Qed.
Print Assumptions C87_field_diag.
(** ... and for the charge density of each species. *)
Theorem C87_density_diag : forall {A} deposits (s : sim A), uses_cuda true s -> sim_at true s ->
  Forall (fun d => forall f, f_cuda f = true -> fields_at true f -> f_cuda (d f) = true /\ fields_at true (d f)) deposits ->
  exists seen s', density_diag_write deposits s = Ok (seen, s') /\ written_in_turn (s_fld s) deposits seen /\
  uses_cuda true s' /\ sim_at true s' /\ s_ptcl s' = s_ptcl s.
Proof. intros A. exact density_diag_places. Qed.
Print Assumptions C87_density_diag.

(** [with GpuMemoryManager(sim): body]: the body runs with everything on the GPU; afterwards, also if it raised an exception, the
    species and the fields are back where each of them was, with the contents that the body has left. *)
Theorem C87_manager : forall {A} (body : sim A -> sim A * option exc) s, uses_cuda true s -> knows s ->
  exists s1, sim_at true s1 /\ same_data s s1 /\
  forall s2 e, body s1 = (s2, e) -> uses_cuda true s2 -> sim_at true s2 -> List.length (s_ptcl s2) = List.length (s_ptcl s) ->
  exists s3, with_manager body s = Ok (s3, e) /\ same_data s2 s3 /\
    Forall2 (fun sp0 sp' => species_at (sp_on_gpu sp0) sp') (s_ptcl s) (s_ptcl s3) /\ fields_at (f_on_gpu (s_fld s)) (s_fld s3).
Proof. intros A. exact manager_places. Qed.
Print Assumptions C87_manager.

(** On the CPU, none of this does anything. *)
Theorem C87_cpu : forall {A} (s : sim A), uses_cuda false s ->
  (forall iterations, (forall s', iterations s = Ok s' -> s_cuda s' = false) -> step iterations s = iterations s) /\
  (forall body, s_cuda (fst (body s)) = false -> with_manager body s = Ok (body s)) /\
  (forall ixs, Forall (fun i => (i < List.length (s_ptcl s))%nat) ixs -> particle_diag_write ixs s = Ok (map (fun i => nth_error (s_ptcl s) i) ixs, s)) /\
  field_diag_write (fun f => f) s = Ok (s_fld s, s).
Proof. intros A. exact cpu_noop. Qed.
Print Assumptions C87_cpu.

(** The claim is false in these cases, all of which are harmless on the CPU (C87_cpu).
    The same species under two names in one particle diagnostic: *)
Theorem C87_two_names_refuted : forall {A} ixs (s : sim A), uses_cuda true s -> sim_at true s ->
  Forall (fun i => (i < List.length (s_ptcl s))%nat) ixs -> ~ NoDup ixs -> particle_diag_write ixs s = Err AttributeError.
Proof. intros A. exact two_names. Qed.
Print Assumptions C87_two_names_refuted.
(** a diagnostic that the user writes between two steps: *)
Theorem C87_between_steps_refuted : forall {A} ixs (s : sim A), uses_cuda true s -> sim_at false s ->
  (ixs <> [] -> Forall (fun i => (i < List.length (s_ptcl s))%nat) ixs -> particle_diag_write ixs s = Err AttributeError) /\
  ((0 < f_Nm (s_fld s))%Z -> field_diag_write (fun f => f) s = Err AttributeError).
Proof. intros A. exact outside_step. Qed.
Print Assumptions C87_between_steps_refuted.
(** a step inside [with GpuMemoryManager(sim)]: *)
Theorem C87_step_in_manager_refuted : forall {A} (iterations : sim A -> res (sim A)) s, uses_cuda true s -> sim_at false s ->
  (forall s1, sim_at true s1 -> same_data s s1 -> exists s2, iterations s1 = Ok s2 /\ uses_cuda true s2 /\ sim_at true s2 /\ (0 < f_Nm (s_fld s2))%Z) ->
  with_manager (fun s => match step iterations s with Ok s' => (s', None) | Err e => (s, Some e) end) s = Err AttributeError.
Proof. intros A. exact step_in_manager. Qed.
Print Assumptions C87_step_in_manager_refuted.
(** a species that is added inside [with GpuMemoryManager(sim)]: *)
Theorem C87_new_species_refuted : forall {A} (new : species A) s, uses_cuda true s -> knows s ->
  with_manager (fun s => (with_data s (s_ptcl s ++ [new]) (s_fld s), None)) s = Err IndexError.
Proof. intros A. exact add_in_manager. Qed.
Print Assumptions C87_new_species_refuted.

(** A concrete simulation, with contents in Z: two species (one tracked and ionizable) and two modes with PML, on the CPU or on the
    GPU; iterations that do nothing. *)
Definition C87_sim (b : bool) : sim Z :=
  {| s_cuda := true;
     s_ptcl := [{| sp_cuda := true; sp_n_int := 0; sp_tracker := false; sp_ionizer := false; sp_on_gpu := b; sp_arr := fun _ => {| gpu := b; val := 3%Z |} |};
                {| sp_cuda := true; sp_n_int := 2; sp_tracker := true; sp_ionizer := true; sp_on_gpu := b; sp_arr := fun _ => {| gpu := b; val := 4%Z |} |}];
     s_fld := {| f_cuda := true; f_Nm := 2; f_pml := true; f_cross := true; f_on_gpu := b; f_interp := fun m _ => {| gpu := b; val := m |};
                 f_spect := fun m _ => {| gpu := b; val := (m + 5)%Z |} |} |}.
Example C87_met : uses_cuda true (C87_sim true) /\ uses_cuda true (C87_sim false) /\ sim_at true (C87_sim true) /\ sim_at false (C87_sim false) /\
  knows (C87_sim false) /\ NoDup [1; 0]%nat /\ ~ NoDup [1; 1]%nat /\ Forall (fun i => (i < List.length (s_ptcl (C87_sim true)))%nat) [1; 0]%nat.
Proof.
  unfold uses_cuda, sim_at, knows, fields_at, species_at. cbn.
  repeat match goal with |- _ /\ _ => split | |- Forall _ _ => constructor end; auto.
  - repeat constructor; cbn; intuition discriminate.
  - intros H. inversion H; subst. apply H2. left. reflexivity.
Qed.
