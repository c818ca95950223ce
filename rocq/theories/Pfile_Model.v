(** The group of one species in an openPMD file, new or left by a previous simulation: openpmd_diag/particle_diag.py, generic_diag.py,
    data_dict.py. The contents of the datasets are those of Pdiag_Model.v. Exact arithmetic. *)
From Coq Require Import ZArith Reals List String.
From Verif Require Import Base Pdiag_Model.
Import ListNotations.
Open Scope R_scope.
Open Scope list_scope.

(** Values of HDF5 attributes that are used: numbers and arrays of numbers, strings. *)
Inductive attr := ANum (x : R) | AVec (l : list R) | AStr (s : string).
(** A path inside the group of the species: a record, or one of its components ("position/x"). [self]: the group itself. *)
Definition path := (string * option string)%type.
Definition self : path := ("."%string, None).
Inductive node := Dataset (l : list val) | Group.
(** What the group of the species contains: datasets and groups, and their attributes. *)
Record tree := mkTree { nodes : path -> option node; attrs : path -> string -> option attr }.
Definition empty_tree : tree := mkTree (fun _ => None) (fun _ _ => None).
Definition path_eqb (a b : path) : bool :=
  (String.eqb (fst a) (fst b) && match snd a, snd b with None, None => true | Some x, Some y => String.eqb x y | _, _ => false end)%bool.
(** [a] is [b], or is inside it. *)
Definition inside (a b : path) : bool := (path_eqb a b || match snd b with None => String.eqb (fst a) (fst b) | Some _ => false end)%bool.

(** h5py (external library, its documented behaviour): o.attrs[k] = v *)
Definition set_attr (p : path) (t : tree) (kv : string * attr) : tree :=
  mkTree (nodes t) (fun p' k' => if (path_eqb p' p && String.eqb k' (fst kv))%bool then Some (snd kv) else attrs t p' k').
Definition set_attrs (p : path) (l : list (string * attr)) (t : tree) : tree := fold_left (set_attr p) l t.
(** h5py: del grp[p], with what it contains and its attributes *)
Definition del (p : path) (t : tree) : tree :=
  mkTree (fun p' => if inside p' p then None else nodes t p') (fun p' k => if inside p' p then None else attrs t p' k).
(** A new object, without attributes *)
Definition link (p : path) (n : node) (t : tree) : tree :=
  mkTree (fun p' => if path_eqb p' p then Some n else nodes t p') (fun p' k => if path_eqb p' p then None else attrs t p' k).
(** h5py: the groups above a new object are created if needed; ValueError if one of them is a dataset *)
Definition parents (p : path) (t : tree) : res tree :=
  match snd p with
  | None => Ok t
  | Some _ => match nodes t (fst p, None) with None => Ok (link (fst p, None) Group t) | Some Group => Ok t | Some (Dataset _) => Err ValueError end
  end.
(** h5py: grp.require_group(p): TypeError if it exists and is a dataset *)
Definition require_group (p : path) (t : tree) : res tree :=
  match nodes t p with
  | Some Group => Ok t
  | Some (Dataset _) => Err TypeError
  | None => bind (parents p t) (fun t => Ok (link p Group t))
  end.
(** h5py: grp.create_dataset(p, (n,)): filled with 0; ValueError if the name exists *)
Definition create_dataset (p : path) (n : nat) (t : tree) : res tree :=
  match nodes t p with
  | Some _ => Err ValueError
  | None => bind (parents p t) (fun t => Ok (link p (Dataset (repeat (VF 0) n)) t))
  end.
(** h5py: dset[:] = l. Simplified: another length is a TypeError, also for one element. *)
Definition fill (p : path) (l : list val) (t : tree) : res tree :=
  match nodes t p with
  | Some (Dataset d) => if Nat.eqb (List.length d) (List.length l)
      then Ok (mkTree (fun p' => if path_eqb p' p then Some (Dataset l) else nodes t p') (attrs t)) else Err TypeError
  | _ => Err KeyError
  end.

(** data_dict.py:32-53 macro_weighted_dict, weighting_power_dict *)
Definition weighting_dict : list (string * (R * Z)) :=
  [("charge", (0, 1%Z)); ("mass", (0, 1%Z)); ("weighting", (1, 1%Z)); ("position", (0, 0%Z)); ("positionOffset", (0, 0%Z)); ("momentum", (0, 1%Z));
   ("E", (0, 0%Z)); ("B", (0, 0%Z)); ("gamma", (0, 0%Z)); ("id", (0, 0%Z))]%string.
(** particle_diag.py:177-196 setup_openpmd_species_record, with generic_diag.py:204-220; [p]: the object grp *)
Definition species_record (p : path) (quantity : string) (t : tree) : res tree :=
  bind (setup_openpmd_record quantity) (fun d =>
  match find (fun a => String.eqb (fst a) quantity) weighting_dict with
  | Some (_, (mw, wp)) => Ok (set_attrs p [("unitDimension", AVec (map IZR d)); ("timeOffset", ANum 0); ("macroWeighted", ANum mw);
      ("weightingPower", ANum (IZR wp))]%string t)
  | None => Err KeyError
  end).
(** particle_diag.py:198-209 setup_openpmd_species_component, with generic_diag.py:222-230 *)
Definition species_component (p : path) (t : tree) : tree := set_attrs p [("unitSI", ANum 1)]%string t.

(** A species, with the shape of its particles (particles.py:214: "linear" or "cubic"), which the diagnostic does not read. *)
Record shaped := { sh_species : species; sh_shape : string }.
(** particle_diag.py:130-175 setup_openpmd_species_group *)
Definition setup_openpmd_species_group (sh : shaped) (const : list string) (t : tree) : res tree :=
  let s := sh_species sh in
  let t := set_attrs self [("particleShape", ANum 1); ("currentDeposition", AStr "directMorseNielson"); ("particleSmoothing", AStr "none");
    ("particlePush", AStr "Vay"); ("particleInterpolation", AStr "uniform")]%string t in
  bind (foldM (fun t quantity =>
    bind (require_group (quantity, None) t) (fun t =>
    bind (species_record (quantity, None) quantity t) (fun t =>
    let t := species_component (quantity, None) t in
    Ok (set_attrs (quantity, None) [("shape", AVec [1])]%string t)))) const t) (fun t =>
  let t := set_attrs ("mass", None)%string [("value", ANum (sp_m s))]%string t in
  let t := if isin "charge" const then set_attrs ("charge", None)%string [("value", ANum (sp_q s))]%string t else t in
  bind (require_group ("positionOffset", None)%string t) (fun t =>
  bind (species_record ("positionOffset", None)%string "positionOffset" t) (fun t =>
  bind (foldM (fun t x =>
    bind (require_group ("positionOffset"%string, Some x) t) (fun t =>
    let t := species_component ("positionOffset"%string, Some x) t in
    Ok (set_attrs ("positionOffset"%string, Some x) [("shape", AVec [1])]%string t))) ["x"; "y"; "z"]%string t) (fun t =>
  Ok (fold_left (fun t x => set_attrs ("positionOffset"%string, Some x) [("value", ANum 0)]%string t) ["x"; "y"; "z"]%string t))))).

(** particle_diag.py:465-514 get_dataset: the array gathered on the first rank (as in Pdiag_Model.write_dataset) *)
Definition get_dataset (e c : R) (s : species) (comm : bool) (junk : val) (ranks : list (list pt)) (sels : list (list bool))
  (quantity : string) : res (list val) :=
  let n_rank := map (fun sel => List.length (filter (fun b => b) sel)) sels in
  bind (foldM (fun acc '(sel, l) => bind (one_proc e c s quantity sel l) (fun a => Ok (acc ++ [a]))) (combine sels ranks) []) (fun arrays =>
  Ok (if comm then gather_ptcl_array n_rank (repeat junk (list_sum n_rank)) arrays else hd [] arrays)).
(** particle_diag.py:412-463 write_dataset *)
Definition write_dataset (e c : R) (s : species) (comm : bool) (junk : val) (ranks : list (list pt)) (sels : list (list bool))
  (t : tree) (p : path) (quantity : string) : res tree :=
  let Ntot := list_sum (map (fun sel => List.length (filter (fun b => b) sel)) sels) in
  let t := match nodes t p with Some _ => del p t | None => t end in
  bind (create_dataset p Ntot t) (fun t =>
  let t := species_component p t in
  bind (get_dataset e c s comm junk ranks sels quantity) (fun a => fill p a t)).
(** particle_diag.py:313-348, the loop over the quantities *)
Definition write_quantity (e c : R) (s : species) (comm : bool) (junk : val) (ranks : list (list pt)) (sels : list (list bool))
  (t : tree) (quantity : string) : res tree :=
  let wd := write_dataset e c s comm junk ranks sels t in
  if isin quantity ["x"; "y"; "z"]%string then wd ("position"%string, Some quantity) quantity
  else if isin quantity ["ux"; "uy"; "uz"]%string then wd ("momentum"%string, Some (last_char quantity)) quantity
  else if isin quantity ["Ex"; "Ey"; "Ez"]%string then wd ("E"%string, Some (last_char quantity)) quantity
  else if isin quantity ["Bx"; "By"; "Bz"]%string then wd ("B"%string, Some (last_char quantity)) quantity
  else if isin quantity ["w"; "id"; "charge"; "gamma"]%string then
    let quantity_path := if String.eqb quantity "w" then "weighting"%string else quantity in
    bind (wd (quantity_path, None) quantity) (species_record (quantity_path, None) quantity_path)
  else Err ValueError.
(** particle_diag.py:286-363 write_particles *)
Definition write_particles (e c : R) (s : species) (comm : bool) (junk : val) (ranks : list (list pt)) (sels : list (list bool))
  (t : tree) (particle_data : list string) : res tree :=
  bind (foldM (write_quantity e c s comm junk ranks sels) particle_data t) (fun t =>
  foldM (fun t '(q, r) => if isin q particle_data then species_record (r, None) r t else Ok t)
    [("x", "position"); ("ux", "momentum"); ("Ex", "E"); ("Bx", "B")]%string t).
(** particle_diag.py:211-284 write_hdf5, for one species; [old]: the group of that name, if the file exists and has one (line 230: mode "a";
    line 250: require_group). The attributes of the file and of the iteration are in Pmd_Model.v. *)
Definition write_hdf5 (e c : R) (d : pdiag) (junk : val) (rands : list (list R)) (sh : shaped) (ranks : list (list pt)) (old : option tree)
  : res tree :=
  let t := match old with Some t => t | None => empty_tree end in
  bind (setup_openpmd_species_group sh (pd_const d) t) (fun t =>
  bind (foldM (fun acc '(r, l) => bind (apply_selection (pd_select d) (pd_fraction d) r l) (fun a => Ok (acc ++ [a]))) (combine rands ranks) []) (fun sels =>
  write_particles e c (sh_species sh) (pd_comm d) junk ranks sels t (pd_array d))).
