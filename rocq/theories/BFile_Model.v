(** The files of the back-transformed particle diagnostic: boosted_particle_diag.py:40-407, 486-541, 843-926 (everything but the
    Lorentz transformation and the crossing of the plane, that are in BPart_Model.v). Exact arithmetic. All the MPI ranks are run
    together: the gather in flush_to_disk is collective. HDF5: a dataset is a list that can be extended; attributes and the
    dtype check of require_dataset are not modelled. *)
From Verif Require Import Base Pdiag_Model.
From Coq Require Import Reals String.
Import ListNotations.
Open Scope R_scope.
Open Scope list_scope.

(** A particle of a slice, in the lab frame (boosted_particle_diag.py:828-839); u: normalized momentum *)
Record lab := { l_x : R; l_y : R; l_z : R; l_ux : R; l_uy : R; l_uz : R; l_w : R; l_level : Z; l_id : Z }.
(** A dictionary of arrays *)
Definition dict := list (string * list val).
(** d[q], boosted_particle_diag.py:526, 910-921 *)
Definition dget (d : dict) (q : string) : res (list val) :=
  match find (fun a => String.eqb (fst a) q) d with Some (_, a) => Ok a | None => Err KeyError end.
(** boosted_particle_diag.py:646-655, 832-839: the keys of a slice, before the selection *)
Definition slice_dict (s : species) (l : list lab) : dict :=
  ([("x", map (fun p => VF (l_x p)) l); ("y", map (fun p => VF (l_y p)) l); ("z", map (fun p => VF (l_z p)) l);
    ("ux", map (fun p => VF (l_ux p)) l); ("uy", map (fun p => VF (l_uy p)) l); ("uz", map (fun p => VF (l_uz p)) l);
    ("w", map (fun p => VF (l_w p)) l)]%string
   ++ (if sp_ionizable s then [("charge"%string, map (fun p => VU (l_level p)) l)] else [])
   ++ (if sp_tracked s then [("id"%string, map (fun p => VU (l_id p)) l)] else [])).

(** Comparison of an element (float or integer) with a bound, boosted_particle_diag.py:909-916 *)
Definition num (v : val) : R := match v with VF r => r | VU n => IZR n end.
(** boosted_particle_diag.py:906-916: one rule of the selection; a quantity is only looked up for a bound that is not None *)
Definition apply_rule (d : dict) (sel : list bool) (r : rule) : res (list bool) :=
  let '(quantity, (lower, upper)) := r in
  bind (match lower with
        | Some b => bind (dget d quantity) (fun a => Ok (logical_and sel (map (fun v => gt (num v) b) a)))
        | None => Ok sel end) (fun sel =>
  match upper with
  | Some b => bind (dget d quantity) (fun a => Ok (logical_and sel (map (fun v => lt (num v) b) a)))
  | None => Ok sel end).
(** boosted_particle_diag.py:880-926 apply_selection *)
Definition apply_selection (select : list rule) (d : dict) : res dict :=
  bind (dget d "w") (fun w =>
  bind (foldM (apply_rule d) select (map (fun _ => true) w)) (fun sel =>
  Ok (map (fun '(q, a) => (q, mask sel a)) d))).

Section Diag.
(** [e], [c]: scipy.constants; [junk]: what np.empty contains *)
Context (e c : R) (junk : val).
(** boosted_particle_diag.py:843-878 apply_opmd_standard *)
Definition apply_opmd_standard (s : species) (d : dict) : dict :=
  map (fun '(q, a) =>
    if isin q ["ux"; "uy"; "uz"]%string then
      (q, if Rlt_dec 0 (sp_m s) then map (fun v => VF (num v * (sp_m s * c))) a else a)
    else if String.eqb q "charge" then (q, map (fun v => VF (num v * e)) a)
    else (q, a)) d.
(** boosted_particle_diag.py:568-628 extract_slice, from the particles in the lab frame on *)
Definition extract_slice (select : option (list rule)) (s : species) (l : list lab) : res dict :=
  bind (match select with Some rules => apply_selection rules (slice_dict s l) | None => Ok (slice_dict s l) end) (fun d =>
  Ok (apply_opmd_standard s d)).

(** boosted_particle_diag.py:503-541 compact_slices *)
Definition compact_slices (slices : list dict) (quantities : list string) : res dict :=
  match slices with
  | [] => Ok (map (fun q => (q, [])) quantities)
  | _ => foldM (fun acc q =>
           bind (foldM (fun a d => bind (dget d q) (fun b => Ok (a ++ b))) slices []) (fun a => Ok (acc ++ [(q, a)]))) quantities []
  end.
(** boosted_particle_diag.py:229-259 gather_particle_arrays: [locals]: the dictionary of every rank *)
Definition gather_particle_arrays (locals : list dict) (quantities : list string) : res dict :=
  match quantities with
  | [] => Err IndexError
  | q0 :: _ =>
    bind (foldM (fun acc d => bind (dget d q0) (fun a => Ok (acc ++ [List.length a]))) locals []) (fun n_list =>
    foldM (fun acc q =>
      bind (foldM (fun arrays d => bind (dget d q) (fun a => Ok (arrays ++ [a]))) locals []) (fun arrays =>
      Ok (acc ++ [(q, gather_ptcl_array n_list (repeat junk (list_sum n_list)) arrays)]))) quantities [])
  end.
(** boosted_particle_diag.py:285-302 and 352-387: the path of a quantity in the group of the species *)
Definition path_of (q : string) : option string :=
  if isin q ["x"; "y"; "z"]%string then Some ("position/" ++ q)%string
  else if isin q ["ux"; "uy"; "uz"]%string then Some ("momentum/" ++ last_char q)%string
  else if isin q ["w"; "charge"; "id"]%string then Some (if String.eqb q "w" then "weighting"%string else q)
  else None.
(** The datasets of a species in a file, by path *)
Definition dsets := string -> option (list val).
(** boosted_particle_diag.py:307-319 write_particle_slices: the dataset is extended *)
Definition write_particle_slices (f : dsets) (path : string) (data : list val) : res dsets :=
  match f path with Some old => Ok (upd f path (old ++ data)) | None => Err KeyError end.
(** boosted_particle_diag.py:261-305 write_slices: other quantities are passed over *)
Definition write_slices (quantities : list string) (d : dict) (f : dsets) : res dsets :=
  foldM (fun f q => match path_of q with
                    | Some path => bind (dget d q) (write_particle_slices f path)
                    | None => Ok f end) quantities f.
(** boosted_particle_diag.py:350-392 create_file_empty_slice (rank 0), for a species: the file is opened in mode "a" and
    require_dataset keeps the dataset that exists (its shape may differ, as maxshape is the same) *)
Definition create_datasets (quantities : list string) (f : dsets) : res dsets :=
  foldM (fun f q => match path_of q with
                    | Some path => Ok (match f path with Some _ => f | None => upd f path [] end)
                    | None => Err ValueError end) quantities f.

(** What there is for a snapshot and a species: the buffered slices of every rank, and the file. *)
Record kstate := { k_buf : list (list dict); k_file : dsets }.
(** boosted_particle_diag.py:201-227 flush_to_disk, for a snapshot and a species. [comm]: comm is not None (otherwise there is one
    rank). *)
Definition flush_key (quantities : list string) (k : kstate) : res kstate :=
  bind (foldM (fun acc slices => bind (compact_slices slices quantities) (fun d => Ok (acc ++ [d]))) (k_buf k) []) (fun locals =>
  bind (if (1 <? List.length locals)%nat then gather_particle_arrays locals quantities
        else match locals with d :: _ => Ok d | [] => Err RuntimeError end) (fun d =>
  bind (write_slices quantities d (k_file k)) (fun f =>
  Ok {| k_buf := map (fun _ => []) (k_buf k); k_file := f |}))).
(** boosted_particle_diag.py:148-193 store_snapshot_slices and 486-501 register_slice, for a snapshot and a species. [caught]: for every
    rank, None if the plane is not in its domain or not within the limits of the snapshot, otherwise the particles that crossed. *)
Fixpoint store_key (select : option (list rule)) (s : species) (caught : list (option (list lab))) (b : list (list dict)) : res (list (list dict)) :=
  match caught, b with
  | o :: caught, slices :: b =>
      bind (match o with Some l => bind (extract_slice select s l) (fun d => Ok (slices ++ [d])) | None => Ok slices end) (fun slices =>
      bind (store_key select s caught b) (fun b => Ok (slices :: b)))
  | _, b => Ok b
  end.

(** A snapshot (its number) and the name of a species *)
Definition key := (nat * string)%type.
Definition key_eqb (a b : key) : bool := (fst a =? fst b)%nat && String.eqb (snd a) (snd b).
(** A loop over the snapshots and the species *)
Definition loop (f : key -> kstate -> res kstate) (keys : list key) (g : key -> kstate) : res (key -> kstate) :=
  foldM (fun g k => bind (f k (g k)) (fun s => Ok (fun j => if key_eqb j k then s else g j))) keys g.
(** The diagnostic: number of ranks, snapshots, names of the species (sorted), their attributes, the arguments *)
Record bdiag := { b_ranks : nat; b_snaps : list nat; b_names : list string; b_species : string -> species;
  b_data : list string; b_select : option (list rule); b_period : Z }.
(** boosted_particle_diag.py:171-190, 201-205: the order of the loops *)
Definition keys (d : bdiag) : list key := flat_map (fun i => map (fun n => (i, n)) (b_names d)) (b_snaps d).
(** particle_diag.py:94-123, for the species [n] *)
Definition quantities (d : bdiag) (n : string) : list string := array_quantities (b_data d) (b_species d n).
(** boosted_particle_diag.py:40-131 __init__ (on rank 0, that creates the files; the other ranks do not check the quantities): [files]: what
    there is on the disk, with None where there is no dataset *)
Definition init (d : bdiag) (files : key -> dsets) : res (key -> kstate) :=
  loop (fun k s => bind (create_datasets (quantities d (snd k)) (k_file s)) (fun f => Ok {| k_buf := k_buf s; k_file := f |}))
    (keys d) (fun k => {| k_buf := repeat [] (b_ranks d); k_file := files k |}).
(** boosted_particle_diag.py:133-147 write, at one iteration *)
Definition write (d : bdiag) (caught : Z -> key -> list (option (list lab))) (g : key -> kstate) (iteration : Z) : res (key -> kstate) :=
  bind (loop (fun k s => bind (store_key (b_select d) (b_species d (snd k)) (caught iteration k) (k_buf s)) (fun b =>
          Ok {| k_buf := b; k_file := k_file s |})) (keys d) g) (fun g =>
  if (iteration mod b_period d =? 0)%Z then loop (fun k => flush_key (quantities d (snd k))) (keys d) g else Ok g).
(** main.py:478-482: the diagnostic is called at each of the iterations [its] *)
Definition run (d : bdiag) (caught : Z -> key -> list (option (list lab))) (its : list Z) (g : key -> kstate) : res (key -> kstate) :=
  foldM (write d caught) its g.
(** A run that stops after the iterations [its1]; then the restart: a new diagnostic on the same directory, with empty buffers, that goes through
    [its2] (the iteration of the checkpoint and those that follow: checkpoint_restart.py restart_from_checkpoint; main.py:560-565). *)
Definition restart (d : bdiag) (caught : Z -> key -> list (option (list lab))) (its1 its2 : list Z) : res (key -> kstate) :=
  bind (init d (fun _ _ => None)) (fun g => bind (run d caught its1 g) (fun g =>
  bind (init d (fun k => k_file (g k))) (run d caught its2))).
End Diag.
