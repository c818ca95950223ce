(** openpmd_diag/particle_diag.py ParticleDiagnostic, data_dict.py, and boundary_communicator.py gather_ptcl_array. Exact arithmetic.
    Simplified: the HDF5 file starts empty; attributes other than value and unitDimension (all constants: unitSI = 1, timeOffset = 0,
    macroWeighted, weightingPower) are not modelled; copies from and to the GPU are the identity. *)
From Verif Require Import Base.
From Coq Require Import Reals String.
Import ListNotations.
Open Scope R_scope.
Open Scope list_scope.

(** One macroparticle: the elements of the arrays of a Particles object (particles.py:173-190), of tracker.id (tracking.py) and of
    ionizer.ionization_level (ionizer.py). [pid], [level] are meaningless when there is no tracker, no ionizer. *)
Record pt := { x : R; y : R; z : R; ux : R; uy : R; uz : R; inv_gamma : R; w : R; Ex : R; Ey : R; Ez : R; Bx : R; By : R; Bz : R;
  pid : Z; level : Z }.
(** The attributes of a Particles object that are read, besides the arrays (the same on all the MPI ranks). *)
Record species := { sp_q : R; sp_m : R; sp_tracked : bool; sp_ionizable : bool }.
(** getattr(species, name), for the names of arrays of floats. Simplified: other names (also the scalars q, m, dt) are an AttributeError. *)
Definition getattr (name : string) : res (pt -> R) :=
  match find (fun a => String.eqb (fst a) name) [("x", x); ("y", y); ("z", z); ("ux", ux); ("uy", uy); ("uz", uz); ("inv_gamma", inv_gamma);
    ("w", w); ("Ex", Ex); ("Ey", Ey); ("Ez", Ez); ("Bx", Bx); ("By", By); ("Bz", Bz)]%string with
  | Some (_, f) => Ok f | None => Err AttributeError end.
Definition isin (s : string) (l : list string) : bool := existsb (String.eqb s) l.

(** particle_diag.py:98-127: the lists array_quantities and constant_quantities of a species, made when the diagnostic is created. *)
Definition array_quantities (particle_data : list string) (s : species) : list string :=
  flat_map (fun q => if String.eqb q "position" then ["x"; "y"; "z"] else if String.eqb q "momentum" then ["ux"; "uy"; "uz"]
    else if String.eqb q "E" then ["Ex"; "Ey"; "Ez"] else if String.eqb q "B" then ["Bx"; "By"; "Bz"]
    else if String.eqb q "weighting" then ["w"] else [q])%string particle_data
  ++ (if sp_tracked s then ["id"%string] else []) ++ (if sp_ionizable s then ["charge"%string] else []).
Definition constant_quantities (s : species) : list string := ["mass"%string] ++ (if sp_ionizable s then [] else ["charge"%string]).

(** particle_diag.py:366-409 apply_selection on one rank. [rands]: the result of np.random.rand. [select]: the dictionary, in its
    order; an entry None is the bound None. *)
Definition rule := (string * (option R * option R))%type.
Definition gt (a b : R) : bool := if Rlt_dec b a then true else false.
Definition lt (a b : R) : bool := if Rlt_dec a b then true else false.
(** np.logical_and of arrays of the same length *)
Definition logical_and (a b : list bool) : list bool := map (fun '(p, q) => p && q) (combine a b).
Definition quantity_array (quantity : string) (l : list pt) : res (list R) :=
  if String.eqb quantity "gamma" then Ok (map (fun p => 1 / inv_gamma p) l)
  else bind (getattr quantity) (fun f => Ok (map f l)).
Definition apply_rule (l : list pt) (sel : list bool) (r : rule) : res (list bool) :=
  let '(quantity, (lower, upper)) := r in
  bind (quantity_array quantity l) (fun q =>
  let sel := match lower with Some b => logical_and (map (fun v => gt v b) q) sel | None => sel end in
  Ok (match upper with Some b => logical_and (map (fun v => lt v b) q) sel | None => sel end)).
Fixpoint foldM {A S} (f : S -> A -> res S) (l : list A) (s : S) : res S :=
  match l with [] => Ok s | a :: l => bind (f s a) (foldM f l) end.
Definition apply_selection (select : option (list rule)) (subsampling_fraction : option R) (rands : list R) (l : list pt) : res (list bool) :=
  let sel := map (fun _ => true) l in
  let sel := match subsampling_fraction with Some f => logical_and (map (fun r => lt r f) rands) sel | None => sel end in
  match select with Some rules => foldM (apply_rule l) rules sel | None => Ok sel end.

(** The elements of a dataset: 'f8' or 'uint64' *)
Inductive val := VF (r : R) | VU (n : Z).
(** array[ select_array ] *)
Definition mask {A} (sel : list bool) (l : list A) : list A := map snd (filter (fun a => fst a) (combine sel l)).
(** particle_diag.py:465-514 get_dataset, before the gathering, on one rank. [e], [c]: scipy.constants. tracker and ionizer may be None
    (AttributeError). *)
Definition one_proc (e c : R) (s : species) (quantity : string) (sel : list bool) (l : list pt) : res (list val) :=
  bind (if String.eqb quantity "id" then if sp_tracked s then Ok (map (fun p => VU (pid p)) l) else Err AttributeError
        else if String.eqb quantity "charge" then if sp_ionizable s then Ok (map (fun p => VF (e * IZR (level p))) l) else Err AttributeError
        else if String.eqb quantity "w" then Ok (map (fun p => VF (w p)) l)
        else if String.eqb quantity "gamma" then Ok (map (fun p => VF (1 / inv_gamma p)) l)
        else bind (getattr quantity) (fun f => Ok (map (fun p => VF (f p)) l))) (fun a =>
  let a := mask sel a in
  Ok (if isin quantity ["ux"; "uy"; "uz"]%string then
        if Rlt_dec 0 (sp_m s) then map (fun v => match v with VF r => VF (r * (sp_m s * c)) | VU n => VU n end) a else a
      else a)).

(** Writing [data] in [buf], from the index [start] on (the root of Gatherv; numpy: buf[start:start+len(data)] = data) *)
Definition place {A} (buf : list A) (start : nat) (data : list A) : list A :=
  firstn start buf ++ data ++ skipn (start + List.length data) buf.
(** boundary_communicator.py:1175-1222 gather_ptcl_array: [empty]: the uninitialized array of length Ntot; [arrays]: one per rank. *)
Fixpoint cumsum (acc : nat) (l : list nat) : list nat := match l with [] => [] | a :: l => (acc + a)%nat :: cumsum (acc + a) l end.
Definition gather_ptcl_array {A} (n_rank : list nat) (empty : list A) (arrays : list (list A)) : list A :=
  if (1 <? List.length arrays)%nat then
    let i_start_procs := cumsum 0 (0%nat :: removelast n_rank) in
    fold_left (fun buf '(i, a) => place buf i a) (combine i_start_procs arrays) empty
  else match arrays with a :: _ => place empty 0 a | [] => empty end.

(** data_dict.py:13-29 unit_dimension_dict: powers of L, M, T, I, theta, N, J *)
Definition unit_dimension_dict : list (string * list Z) := [
  ("rho", [-3; 0; 1; 1; 0; 0; 0]); ("J", [-2; 0; 0; 1; 0; 0; 0]); ("E", [1; 1; -3; -1; 0; 0; 0]); ("Er_pml", [1; 1; -3; -1; 0; 0; 0]);
  ("Et_pml", [1; 1; -3; -1; 0; 0; 0]); ("B", [0; 1; -2; -1; 0; 0; 0]); ("Br_pml", [0; 1; -2; -1; 0; 0; 0]); ("Bt_pml", [0; 1; -2; -1; 0; 0; 0]);
  ("charge", [0; 0; 1; 1; 0; 0; 0]); ("mass", [1; 0; 0; 0; 0; 0; 0]); ("weighting", [0; 0; 0; 0; 0; 0; 0]); ("position", [1; 0; 0; 0; 0; 0; 0]);
  ("positionOffset", [1; 0; 0; 0; 0; 0; 0]); ("momentum", [1; 1; -1; 0; 0; 0; 0]); ("id", [0; 0; 0; 0; 0; 0; 0]); ("gamma", [0; 0; 0; 0; 0; 0; 0])]%string%Z.
(** generic_diag.py:204-220 setup_openpmd_record: the attribute unitDimension of a record *)
Definition setup_openpmd_record (quantity : string) : res (list Z) :=
  let quantity := if prefix "rho" quantity then "rho"%string else quantity in
  match find (fun a => String.eqb (fst a) quantity) unit_dimension_dict with Some (_, d) => Ok d | None => Err KeyError end.

(** The group of a species in the file: datasets by path, values of the constant records, unitDimension by record. *)
Record group := { dset : string -> option (list val); constv : string -> option R; dims : string -> option (list Z) }.
Definition upd {V} (f : string -> option V) (k : string) (v : V) : string -> option V := fun j => if String.eqb j k then Some v else f j.
Definition set_dset p v g := {| dset := upd (dset g) p v; constv := constv g; dims := dims g |}.
Definition set_const p v g := {| dset := dset g; constv := upd (constv g) p v; dims := dims g |}.
Definition set_dims p g := bind (setup_openpmd_record p) (fun v => Ok {| dset := dset g; constv := constv g; dims := upd (dims g) p v |}).
(** particle_diag.py:130-175 setup_openpmd_species_group (the value of positionOffset is 0) *)
Definition setup_species_group (s : species) (const : list string) : res group :=
  let g := {| dset := fun _ => None; constv := fun _ => None; dims := fun _ => None |} in
  bind (foldM (fun g q => set_dims q g) const g) (fun g =>
  let g := set_const "mass" (sp_m s) g in
  let g := if isin "charge" const then set_const "charge" (sp_q s) g else g in
  bind (set_dims "positionOffset" g) (fun g => Ok (set_const "positionOffset" 0 g))).

(** particle_diag.py:412-463 write_dataset, with get_dataset: the gathered array replaces the dataset. [comm]: comm is not None; when it is
    None, every rank writes its own file: there is one rank. [junk]: what np.empty contains. *)
Definition write_dataset (e c : R) (s : species) (comm : bool) (junk : val) (ranks : list (list pt)) (sels : list (list bool))
  (g : group) (path quantity : string) : res group :=
  let n_rank := map (fun sel => List.length (filter (fun b => b) sel)) sels in
  let Ntot := list_sum n_rank in
  bind (foldM (fun acc '(sel, l) => bind (one_proc e c s quantity sel l) (fun a => Ok (acc ++ [a]))) (combine sels ranks) []) (fun arrays =>
  Ok (set_dset path (if comm then gather_ptcl_array n_rank (repeat junk Ntot) arrays else hd [] arrays) g)).
(** quantity[-1] of a name with two letters *)
Definition last_char (q : string) : string := substring (String.length q - 1) 1 q.
(** particle_diag.py:313-348, the loop over the quantities *)
Definition write_quantity (e c : R) (s : species) (comm : bool) (junk : val) (ranks : list (list pt)) (sels : list (list bool))
  (g : group) (quantity : string) : res group :=
  let wd := write_dataset e c s comm junk ranks sels g in
  if isin quantity ["x"; "y"; "z"]%string then wd ("position/" ++ quantity)%string quantity
  else if isin quantity ["ux"; "uy"; "uz"]%string then wd ("momentum/" ++ last_char quantity)%string quantity
  else if isin quantity ["Ex"; "Ey"; "Ez"]%string then wd ("E/" ++ last_char quantity)%string quantity
  else if isin quantity ["Bx"; "By"; "Bz"]%string then wd ("B/" ++ last_char quantity)%string quantity
  else if isin quantity ["w"; "id"; "charge"; "gamma"]%string then
    let path := if String.eqb quantity "w" then "weighting"%string else quantity in
    bind (wd path quantity) (set_dims path)
  else Err ValueError.
(** particle_diag.py:286-363 write_particles *)
Definition write_particles (e c : R) (s : species) (comm : bool) (junk : val) (ranks : list (list pt)) (sels : list (list bool))
  (g : group) (particle_data : list string) : res group :=
  bind (foldM (write_quantity e c s comm junk ranks sels) particle_data g) (fun g =>
  foldM (fun g '(q, r) => if isin q particle_data then set_dims r g else Ok g)
    [("x", "position"); ("ux", "momentum"); ("Ex", "E"); ("Bx", "B")]%string g).
(** The diagnostic (the part that concerns one species): the arguments and the two lists of quantities. *)
Record pdiag := { pd_select : option (list rule); pd_fraction : option R; pd_comm : bool; pd_array : list string; pd_const : list string }.
(** particle_diag.py:19-127 __init__ *)
Definition particle_diagnostic (particle_data : list string) (select : option (list rule)) (fraction : option R) (comm : bool) (s : species) : pdiag :=
  {| pd_select := select; pd_fraction := fraction; pd_comm := comm; pd_array := array_quantities particle_data s; pd_const := constant_quantities s |}.
(** particle_diag.py:211-284 write_hdf5, for one species; [rands]: np.random.rand on every rank. *)
Definition write_hdf5 (e c : R) (d : pdiag) (junk : val) (rands : list (list R)) (s : species) (ranks : list (list pt)) : res group :=
  bind (setup_species_group s (pd_const d)) (fun g =>
  bind (foldM (fun acc '(r, l) => bind (apply_selection (pd_select d) (pd_fraction d) r l) (fun a => Ok (acc ++ [a]))) (combine rands ranks) []) (fun sels =>
  write_particles e c s (pd_comm d) junk ranks sels g (pd_array d))).

(** ** The fields at the particles *)
(** particle_buffer_handling.py:345-374 (the arrays are np.empty: [junk] is what they contain) then particles.py:673-837 gather:
    [gathered]: the interpolated fields (Gather_Model.v). *)
Definition set_fields (f : R * R * R * (R * R * R)) (p : pt) : pt :=
  let '(a, b, d, (a', b', d')) := f in
  {| x := x p; y := y p; z := z p; ux := ux p; uy := uy p; uz := uz p; inv_gamma := inv_gamma p; w := w p;
     Ex := a; Ey := b; Ez := d; Bx := a'; By := b'; Bz := d'; pid := pid p; level := level p |}.
Definition exchange_and_gather (s : species) (junk gathered : pt -> R * R * R * (R * R * R)) (l : list pt) : list pt :=
  let l := map (fun p => set_fields (junk p) p) l in
  if Req_EM_T (sp_q s) 0 then l else map (fun p => set_fields (gathered p) p) l.
