(** The openPMD files of fields: openpmd_diag/field_diag.py, generic_diag.py, particle_density_diag.py and boosted_field_diag.py
    (structure, attributes and datasets of a file). Exact arithmetic. *)
From Coq Require Import ZArith Reals List String Ascii.
From Coquelicot Require Import Complex.
From Verif Require Import Base Decomp_Model GGrid_Model Pdiag_Model.
From Verif Require Store_Model.
Import ListNotations.
Open Scope Z_scope.

(** Values of HDF5 attributes: a number, an array of numbers, a string, an array of strings. Simplified: the string
    "m=...;imag=..." (field_diag.py:358-359) is kept as its two values. *)
Inductive attr := ANum (x : R) | AVec (l : list R) | AStr (s : string) | AStrs (l : list string) | AGeom (m : Z) (imag : string).
(** A dataset of floats with 3 axes: its shape and its content. *)
Record h5dset := mkH5 { h_shape : Z * Z * Z; h_val : Z -> Z -> Z -> R }.
(** The objects of a file that have attributes: the root, /data/<iteration>/, /data/<iteration>/fields/ and, inside the
    latter, groups and datasets. Simplified: a file contains the only iteration of its name (field_diag.py:120-121, 269;
    boosted_field_diag.py:406-409); the particles of the same file are left out. *)
Inductive obj := Root | Iteration | Fields | Path (p : string).
Record file := mkFile { dsets : string -> option h5dset; attrs : obj -> string -> option attr }.
(** A file that has just been created. *)
Definition new_file : file := mkFile (fun _ => None) (fun _ _ => None).
Definition obj_eqb (a b : obj) : bool :=
  match a, b with
  | Root, Root | Iteration, Iteration | Fields, Fields => true
  | Path p, Path p' => String.eqb p p'
  | _, _ => false end.
(** o.attrs[k] = v in h5py *)
Definition set_attr (o : obj) (f : file) (kv : string * attr) : file :=
  mkFile (dsets f) (fun o' k' => if (obj_eqb o' o && String.eqb k' (fst kv))%bool then Some (snd kv) else attrs f o' k').
Definition set_attrs (o : obj) (l : list (string * attr)) (f : file) : file := fold_left (set_attr o) l f.
Definition set_dset (p : string) (d : h5dset) (f : file) : file :=
  mkFile (fun p' => if String.eqb p' p then Some d else dsets f p') (attrs f).
Definition shape_eqb (a b : Z * Z * Z) : bool :=
  let '(a1, a2, a3) := a in let '(b1, b2, b3) := b in ((a1 =? b1) && (a2 =? b2) && (a3 =? b3))%bool.
(** h5py's require_dataset(p, shape, dtype='f8') (external library, its documented behaviour): the dataset is kept if it exists
    with this shape, TypeError if it exists with another one, otherwise it is created and filled with 0. *)
Definition require_dataset (p : string) (shape : Z * Z * Z) (f : file) : res file :=
  match dsets f p with
  | None => Ok (set_dset p (mkH5 shape (fun _ _ _ => 0%R)) f)
  | Some d => if shape_eqb (h_shape d) shape then Ok f else Err TypeError
  end.

(** generic_diag.py:166-202 setup_openpmd_file. Simplified: the version of fbpic and the date are left out. *)
Definition setup_openpmd_file (time dt : R) (f : file) : file :=
  let f := set_attrs Root [("openPMD", AStr "1.0.0"); ("openPMDextension", ANum 1); ("meshesPath", AStr "fields/");
    ("particlesPath", AStr "particles/"); ("iterationEncoding", AStr "fileBased"); ("iterationFormat", AStr "data%T.h5");
    ("basePath", AStr "/data/%T/")]%string f in
  set_attrs Iteration [("time", ANum time); ("dt", ANum dt); ("timeUnitSI", ANum 1)]%string f.

(** generic_diag.py:204-220 setup_openpmd_record; the dictionary of the dimensions is that of Pdiag_Model.v (data_dict.py:13-29) *)
Definition setup_openpmd_record (o : obj) (quantity : string) (f : file) : res file :=
  bind (Pdiag_Model.setup_openpmd_record quantity) (fun d =>
  Ok (set_attrs o [("unitDimension", AVec (map IZR d)); ("timeOffset", ANum 0)]%string f)).
(** generic_diag.py:222-230 setup_openpmd_component *)
Definition setup_openpmd_component (o : obj) (f : file) : file := set_attrs o [("unitSI", ANum 1)]%string f.

(** field_diag.py:310-334 setup_openpmd_meshes_group *)
Definition setup_openpmd_meshes_group (f : file) : file :=
  set_attrs Fields [("fieldSolver", AStr "PSATD");
    ("fieldBoundary", AStrs ["reflecting"; "reflecting"; "reflecting"; "reflecting"]);
    ("particleBoundary", AStrs ["absorbing"; "absorbing"; "absorbing"; "absorbing"]);
    ("currentSmoothing", AStr "Binomial"); ("currentSmoothingParameters", AStr "period=1;numPasses=1;compensator=false");
    ("chargeCorrection", AStr "spectral"); ("chargeCorrectionParameters", AStr "period=1")]%string f.
(** field_diag.py:336-369 setup_openpmd_mesh_record. [Nm]: self.fld.Nm; [g0]: self.fld.interp[0] *)
Definition setup_openpmd_mesh_record (Nm : Z) (g0 : igrid C) (o : obj) (quantity : string) (dz zmin : R) (f : file) : res file :=
  bind (setup_openpmd_record o quantity f) (fun f =>
  Ok (set_attrs o [("geometry", AStr "thetaMode"); ("geometryParameters", AGeom Nm "+");
    ("gridSpacing", AVec [g_dr g0; dz]); ("gridGlobalOffset", AVec [g_rmin g0; zmin]); ("axisLabels", AStrs ["r"; "z"]);
    ("dataOrder", AStr "C"); ("gridUnitSI", ANum 1); ("fieldSmoothing", AStr "none")]%string f)).
(** field_diag.py:371-383 setup_openpmd_mesh_component *)
Definition setup_openpmd_mesh_component (o : obj) (f : file) : file :=
  set_attrs o [("position", AVec [1/2; 1/2])]%string%R (setup_openpmd_component o f).

(** str.endswith *)
Definition endswith (suffix s : string) : bool :=
  String.eqb (substring (String.length s - String.length suffix) (String.length suffix) s) suffix.
(** field_diag.py:70 *)
Definition coords : list string := ["r"; "t"; "z"]%string.

(** field_diag.py:226-308 create_file_empty_meshes, on the rank that writes; [old]: the file of that name, if there is one
    (generic_diag.py:96-121: mode "a"). *)
Definition create_file_empty_meshes (Nm : Z) (g0 : igrid C) (fieldtypes : list string) (old : option file)
  (time : R) (Nr Nz : Z) (zmin dz dt : R) : res file :=
  let data_shape := (2 * Nm - 1, Nr, Nz) in
  let f := match old with Some f => f | None => new_file end in
  let f := setup_openpmd_file time dt f in
  let f := setup_openpmd_meshes_group f in
  foldM (fun f fieldtype =>
    if (prefix "rho" fieldtype || endswith "_pml" fieldtype)%bool then
      bind (require_dataset fieldtype data_shape f) (fun f =>
      let f := setup_openpmd_mesh_component (Path fieldtype) f in
      setup_openpmd_mesh_record Nm g0 (Path fieldtype) fieldtype dz zmin f)
    else if isin fieldtype ["E"; "B"; "J"]%string then
      bind (foldM (fun f coord =>
        let path := (fieldtype ++ "/" ++ coord)%string in
        bind (require_dataset path data_shape f) (fun f => Ok (setup_openpmd_mesh_component (Path path) f))) coords f) (fun f =>
      setup_openpmd_mesh_record Nm g0 (Path fieldtype) fieldtype dz zmin f)
    else Err ValueError) fieldtypes f.

(** getattr(self.fld.interp[m], quantity), field_diag.py:213: the arrays of interpolation_grid.py:141-150; [pml]: those of
    interpolation_grid.py:151-156, when they exist *)
Definition field_names : list (string * fname) :=
  [("Er", fEr); ("Et", fEt); ("Ez", fEz); ("Br", fBr); ("Bt", fBt); ("Bz", fBz); ("Jr", fJr); ("Jt", fJt); ("Jz", fJz); ("rho", frho)]%string.
Definition get_field (g : igrid C) (pml : string -> option (@array2 C)) (quantity : string) : res (@array2 C) :=
  match find (fun a => String.eqb (fst a) quantity) field_names with
  | Some (_, f) => Ok (g_arr g f)
  | None => match pml quantity with Some a => Ok a | None => Err AttributeError end
  end.
(** The communicator and its radial attributes, or None: every rank writes its own subdomain (generic_diag.py:32-35). *)
Definition domain := option (comm * radial).
(** field_diag.py:198-222 get_dataset, on the first rank; [G m k]: the grid of mode m of rank k *)
Definition get_dataset (dom : domain) (G : Z -> Z -> igrid C) (pml : Z -> Z -> string -> option (@array2 C)) (quantity : string)
  (m : Z) : res (@array2 C) :=
  match dom with
  | Some (c, q) =>
      bind (mapM (fun k => get_field (G m k) (pml m k) quantity) (range (c_size c))) (fun l =>
      gather_grid_array (RtoC 0) c (get_Nr q false) false (fun k => nth (Z.to_nat k) l (fun _ _ => RtoC 0)))
  | None => get_field (G m 0) (pml m 0) quantity
  end.
(** field_diag.py:161-196 write_dataset; the content is that of Store_Model.v *)
Definition write_dataset (dom : domain) (Nm : Z) (G : Z -> Z -> igrid C) (pml : Z -> Z -> string -> option (@array2 C))
  (path quantity : string) (f : file) : res file :=
  match dsets f path with
  | None => Err KeyError
  | Some d =>
      bind (mapM (get_dataset dom G pml quantity) (range Nm)) (fun l =>
      Ok (set_dset path (mkH5 (h_shape d)
        (Store_Model.write_dataset Nm (fun m => nth (Z.to_nat m) l (fun _ _ => RtoC 0)) (h_val d))) f))
  end.

(** field_diag.py:101-117 and particle_density_diag.py:83-91: zmin, Nz, Nr *)
Definition extent (dom : domain) (g0 : igrid C) : res (R * Z * Z) :=
  match dom with
  | None => Ok (g_zmin g0, g_Nz g0, g_Nr g0)
  | Some (c, q) =>
      bind (get_zmin_zmax c false false false None) (fun '(zmin, _) =>
      bind (get_Nz_and_iz c false false false None) (fun '(Nz, _) => Ok (zmin, Nz, get_Nr q false)))
  end.
(** field_diag.py:72-157 FieldDiagnostic.write_hdf5, once rho and J have been brought to the interpolation grid (82-99, see
    Cycle_Model.v): the file that is left. *)
Definition field_write_hdf5 (dom : domain) (Nm : Z) (dt : R) (G : Z -> Z -> igrid C) (pml : Z -> Z -> string -> option (@array2 C))
  (fieldtypes : list string) (iteration : Z) (old : option file) : res file :=
  let time := (IZR iteration * dt)%R in
  let g0 := G 0 0 in
  bind (extent dom g0) (fun '(zmin, Nz, Nr) =>
  bind (create_file_empty_meshes Nm g0 fieldtypes old time Nr Nz zmin (g_dz g0) dt) (fun f =>
  foldM (fun f fieldtype =>
    if String.eqb fieldtype "rho" then write_dataset dom Nm G pml "rho" "rho" f
    else if isin fieldtype ["E"; "B"; "J"]%string then
      foldM (fun f coord => write_dataset dom Nm G pml (fieldtype ++ "/" ++ coord)%string (fieldtype ++ coord)%string f) coords f
    else if endswith "_pml" fieldtype then write_dataset dom Nm G pml fieldtype fieldtype f
    else Err ValueError) fieldtypes f)).

(** particle_density_diag.py:16-70 __init__: the list of fieldtypes *)
Definition density_fieldtypes (species : list string) : list string := map (fun s => "rho_" ++ s)%string species.
(** particle_density_diag.py:72-139 write_hdf5; [rho s m k]: the array rho of the grid of mode m of rank k once species s has been
    deposited, filtered and exchanged (98-118, see Cycle_Model.v) *)
Definition density_write_hdf5 (c : comm) (q : radial) (Nm : Z) (dt : R) (G : Z -> Z -> igrid C)
  (rho : string -> Z -> Z -> @array2 C) (species : list string) (iteration : Z) (old : option file) : res file :=
  let time := (IZR iteration * dt)%R in
  let g0 := G 0 0 in
  bind (extent (Some (c, q)) g0) (fun '(zmin, Nz, Nr) =>
  bind (create_file_empty_meshes Nm g0 (density_fieldtypes species) old time Nr Nz zmin (g_dz g0) dt) (fun f =>
  foldM (fun f s =>
    write_dataset (Some (c, q)) Nm (fun m k => set_arr (G m k) frho (rho s m k)) (fun _ _ _ => None) ("rho_" ++ s)%string "rho" f)
    species f)).

(** boosted_field_diag.py:96-124 and 378-432 __init__: the file of the snapshot of lab time [t_lab] *)
Definition lab_create (Nm Nr : Z) (g0 : igrid C) (fieldtypes : list string) (old : option file) (t_lab zmin_lab v_lab : R)
  (Nz : Z) (dz_lab dt : R) : res file :=
  create_file_empty_meshes Nm g0 fieldtypes old t_lab Nr Nz (zmin_lab + v_lab * t_lab)%R dz_lab dt.
(** boosted_field_diag.py:368-373 write_field_slices: dset[:, :, iz_min:iz_max] = data *)
Definition write_field_slices (data : Z -> Z -> Z -> R) (path : string) (iz_min iz_max : Z) (f : file) : res file :=
  match dsets f path with
  | None => Err KeyError
  | Some d => Ok (set_dset path (mkH5 (h_shape d) (fun p j i =>
                if ((iz_min <=? i) && (i <? iz_max))%bool then data p j (i - iz_min) else h_val d p j i)) f)
  end.
(** boosted_field_diag.py:322-366 write_slices; [data]: field_array[ f2i[quantity] ] *)
Definition write_slices (fieldtypes : list string) (data : string -> Z -> Z -> Z -> R) (iz_min iz_max : Z) (f : file) : res file :=
  foldM (fun f fieldtype =>
    if String.eqb fieldtype "rho" then write_field_slices (data "rho"%string) "rho" iz_min iz_max f
    else if isin fieldtype ["E"; "B"; "J"]%string then
      foldM (fun f coord => write_field_slices (data (fieldtype ++ coord)%string) (fieldtype ++ "/" ++ coord)%string iz_min iz_max f) coords f
    else Ok f) fieldtypes f.
