(** Vocabulary of C87. *)
From Verif Require Import Base GData_Model.
From Coq Require Import String ZArith List.
Import ListNotations.
Open Scope string_scope.
Open Scope list_scope.

(** The arrays that a species has. *)
Definition species_array {A} (s : species A) (n : string) : Prop :=
  In n ["x"; "y"; "z"; "ux"; "uy"; "uz"; "inv_gamma"; "w"; "Ex"; "Ey"; "Ez"; "Bx"; "By"; "Bz"; "sorting_buffer"] \/
  ((0 < sp_n_int s)%Z /\ n = "int_sorting_buffer") \/ (sp_tracker s = true /\ n = "tracker.id") \/
  (sp_ionizer s = true /\ In n ["ionizer.ionization_level"; "ionizer.w_times_level"; "ionizer.adk_power"; "ionizer.adk_prefactor";
                                "ionizer.adk_exp_prefactor"]).
(** The arrays of the grids of the fields. *)
Definition interp_array {A} (f : fields A) (n : string) : Prop :=
  In n ["Er"; "Et"; "Ez"; "Br"; "Bt"; "Bz"; "Jr"; "Jt"; "Jz"; "rho"] \/ (f_pml f = true /\ In n ["Er_pml"; "Et_pml"; "Br_pml"; "Bt_pml"]).
Definition spect_array {A} (f : fields A) (n : string) : Prop :=
  In n ["Ep"; "Em"; "Ez"; "Bp"; "Bm"; "Bz"; "Jp"; "Jm"; "Jz"; "rho_prev"; "rho_next"] \/
  (f_pml f = true /\ In n ["Ep_pml"; "Em_pml"; "Bp_pml"; "Bm_pml"]) \/ (f_cross f = true /\ In n ["rho_next_z"; "rho_next_xy"]).

(** All the arrays are in the memory of the GPU (b = true) or of the CPU (b = false), and the object knows it. *)
Definition species_at {A} (b : bool) (s : species A) : Prop := sp_on_gpu s = b /\ forall n, species_array s n -> gpu (sp_arr s n) = b.
Definition fields_at {A} (b : bool) (f : fields A) : Prop :=
  f_on_gpu f = b /\ forall m, (0 <= m < f_Nm f)%Z ->
  (forall n, interp_array f n -> gpu (f_interp f m n) = b) /\ (forall n, spect_array f n -> gpu (f_spect f m n) = b).
Definition sim_at {A} (b : bool) (s : sim A) : Prop := Forall (species_at b) (s_ptcl s) /\ fields_at b (s_fld s).

(** The same object as far as the contents of the arrays and the other attributes are concerned. *)
Definition same_species {A} (s s' : species A) : Prop :=
  sp_cuda s = sp_cuda s' /\ sp_n_int s = sp_n_int s' /\ sp_tracker s = sp_tracker s' /\ sp_ionizer s = sp_ionizer s' /\
  forall n, val (sp_arr s n) = val (sp_arr s' n).
Definition same_fields {A} (f f' : fields A) : Prop :=
  f_cuda f = f_cuda f' /\ f_Nm f = f_Nm f' /\ f_pml f = f_pml f' /\ f_cross f = f_cross f' /\
  forall m n, val (f_interp f m n) = val (f_interp f' m n) /\ val (f_spect f m n) = val (f_spect f' m n).
Definition same_data {A} (s s' : sim A) : Prop :=
  s_cuda s = s_cuda s' /\ Forall2 same_species (s_ptcl s) (s_ptcl s') /\ same_fields (s_fld s) (s_fld s').
(** A simulation on the GPU, resp. on the CPU (Simulation passes its use_cuda to its species and fields). *)
Definition uses_cuda {A} (b : bool) (s : sim A) : Prop :=
  s_cuda s = b /\ Forall (fun sp => sp_cuda sp = b) (s_ptcl s) /\ f_cuda (s_fld s) = b.
(** Every object knows where its arrays are. *)
Definition knows {A} (s : sim A) : Prop :=
  Forall (fun sp => species_at (sp_on_gpu sp) sp) (s_ptcl s) /\ fields_at (f_on_gpu (s_fld s)) (s_fld s).
(** What is written for each deposition is its result, on the fields left by the previous ones, copied to the CPU. *)
Fixpoint written_in_turn {A} (f : fields A) (deposits : list (fields A -> fields A)) (seen : list (fields A)) : Prop :=
  match deposits, seen with
  | [], [] => True
  | d :: deposits, g :: seen => fields_at false g /\ same_fields (d f) g /\ exists f', fields_at true f' /\ same_fields (d f) f' /\ written_in_turn f' deposits seen
  | _, _ => False
  end.
