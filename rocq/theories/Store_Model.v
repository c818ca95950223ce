(** Storing and reloading fields (openpmd_diag/field_diag.py, checkpoint_restart.py) and selecting particles
    (openpmd_diag/particle_diag.py). Exact arithmetic. An HDF5 dataset is a function of its indices. *)
From Verif Require Import Base.
From Coq Require Import Reals String.
From Coquelicot Require Import Complex.
Open Scope R_scope.

(** A field of the grid of a mode: row iz, column ir; a dataset: index of the mode part, ir, iz (data_shape, field_diag.py:262) *)
Definition farray := Z -> Z -> C.
Definition dataset := Z -> Z -> Z -> R.
Definition set_slice (d : dataset) (k : Z) (s : Z -> Z -> R) : dataset := fun j ir iz => if (j =? k)%Z then s ir iz else d j ir iz.
(** Python's range (1, n) *)
Definition range1 (n : Z) : list Z := map Z.succ (range (n - 1)).
(** field_diag.py:172-191 FieldDiagnostic.write_dataset on the rank that writes; [mode m] is get_dataset (quantity, m) (the whole
    subdomain when there is no communicator, as in checkpoints, field_diag.py:211-219; gather_grid_array otherwise, C02); [old]: the
    previous content of the dataset (files are opened in mode "a", generic_diag.py:117). *)
Definition write_dataset (Nm : Z) (mode : Z -> farray) (old : dataset) : dataset :=
  let d := set_slice old 0 (fun ir iz => fst (mode 0%Z iz ir)) in
  fold_left (fun d m => set_slice (set_slice d (2 * m - 1) (fun ir iz => 2 * fst (mode m iz ir))) (2 * m) (fun ir iz => 2 * snd (mode m iz ir)))
            (range1 Nm) d.

(** openPMD-viewer get_field for the mode m and the angle theta (external library, its documented behaviour): an array with 2 Nr rows, the
    lower half being the opposite half-plane ([sgn]: sign there, unused by load_fields). *)
Definition get_field (d : dataset) (Nr m : Z) (theta sgn : R) : Z -> Z -> R := fun row iz =>
  let F ir := if (m =? 0)%Z then d 0%Z ir iz
              else d (2 * m - 1)%Z ir iz * cos (IZR m * theta) + d (2 * m)%Z ir iz * sin (IZR m * theta) in
  if (row >=? Nr)%Z then F (row - Nr)%Z else sgn * F (Nr - 1 - row)%Z.
(** checkpoint_restart.py:217-265 load_fields: the field array after loading *)
Definition load_field (d : dataset) (Nr m : Z) (sgn : R) : farray := fun iz ir =>
  if (m =? 0)%Z then RtoC (get_field d Nr m 0 sgn (Nr + ir)%Z iz)
  else let field_data_real := get_field d Nr m 0 sgn (Nr + ir)%Z iz in
       let field_data_imag := get_field d Nr m (PI / (2 * IZR m)) sgn (Nr + ir)%Z iz in
       Cmult (Cplus (RtoC field_data_real) (Cmult Ci (RtoC field_data_imag))) (RtoC (1 / 2)).
(** field_diag.py:360-386 (gridSpacing, gridGlobalOffset, position 0.5) with the axis given by openPMD-viewer: info.dz, info.zmin, info.zmax *)
Definition info (zmin dz : R) (Nz : Z) : R * R * R := (dz, zmin + (1 / 2) * dz, zmin + (1 / 2) * dz + IZR (Nz - 1) * dz).
(** checkpoint_restart.py:269-275: the new bounds of the grid *)
Definition load_bounds (i : R * R * R) : R * R := let '(dz, zmin, zmax) := i in (zmin - (1 / 2) * dz, zmax + (1 / 2) * dz).

(** A macroparticle: its attributes by name. A species on one rank: its particles, its mass, and the attributes that exist. *)
Definition particle := string -> R.
Record species := { s_ptcl : list particle; s_m : R; s_has : string -> bool }.
(** The dictionary [select]: quantity, lower and upper bounds *)
Definition rule := (string * (option R * option R))%type.
Definition Rltb (a b : R) : bool := if Rlt_dec a b then true else false.
Fixpoint logical_and (a b : list bool) : list bool := match a, b with x :: a, y :: b => (x && y)%bool :: logical_and a b | _, _ => [] end.
(** particle_diag.py:396-401: the array of a quantity *)
Definition quantity_array (s : species) (q : string) : res (list R) :=
  if (q =? "gamma")%string then if s_has s "inv_gamma"%string then Ok (map (fun p => 1 / p "inv_gamma"%string) (s_ptcl s)) else Err AttributeError
  else if s_has s q then Ok (map (fun p => p q) (s_ptcl s)) else Err AttributeError.
(** particle_diag.py:396-411: one rule *)
Definition apply_rule (s : species) (r : rule) (a : list bool) : res (list bool) :=
  let '(q, (lo, hi)) := r in
  bind (quantity_array s q) (fun v =>
    let a := match lo with None => a | Some b => logical_and (map (fun x => Rltb b x) v) a end in
    Ok (match hi with None => a | Some b => logical_and (map (fun x => Rltb x b) v) a end)).
(** particle_diag.py:366-413 apply_selection; [draws]: the uniform numbers of np.random.rand (one per particle) *)
Definition apply_selection (subsampling : option R) (draws : list R) (select : option (list rule)) (s : species) : res (list bool) :=
  let select_array := repeat true (List.length (s_ptcl s)) in
  let select_array := match subsampling with None => select_array | Some f => logical_and (map (fun u => Rltb u f) draws) select_array end in
  match select with
  | None => Ok select_array
  | Some rules => fold_left (fun acc r => bind acc (apply_rule s r)) rules (Ok select_array)
  end.
(** Boolean indexing of numpy *)
Fixpoint mask {A} (l : list A) (b : list bool) : list A := match l, b with x :: l, true :: b => x :: mask l b | _ :: l, false :: b => mask l b | _, _ => [] end.
(** particle_diag.py:467-514 get_dataset on one rank before gathering, for the attributes (id and charge are not modelled; w is an attribute) *)
Definition local_dataset (cc : R) (s : species) (q : string) (select_array : list bool) : res (list R) :=
  bind (quantity_array s q) (fun v =>
    let v := mask v select_array in
    Ok (if ((q =? "ux") || (q =? "uy") || (q =? "uz"))%string then if Rlt_dec 0 (s_m s) then map (fun x => x * (s_m s * cc)) v else v else v)).
(** boundary_communicator.py:1175-1222 gather_ptcl_array: rank k writes its n_rank[k] values from i_start_procs[k] on (Gatherv); the buffer
    starts with arbitrary values *)
Fixpoint cumsum (acc : nat) (n_rank : list nat) : list nat := match n_rank with [] => [] | n :: l => acc :: cumsum (acc + n) l end.
Definition put {A} (buf : list A) (start : nat) (a : list A) : list A := firstn start buf ++ a ++ skipn (start + List.length a) buf.
Definition gather_ptcl_array {A} (buf : list A) (arrays : list (list A)) : list A :=
  fold_left (fun b '(start, a) => put b start a) (combine (cumsum 0 (map (@List.length A) arrays)) arrays) buf.
(** particle_diag.py:236-290 and 415-465 for one quantity: every rank selects, the datasets are gathered on rank 0 *)
Fixpoint all_ok {A} (l : list (res A)) : res (list A) := match l with [] => Ok [] | x :: l => bind x (fun a => bind (all_ok l) (fun r => Ok (a :: r))) end.
Definition written (cc : R) (subsampling : option R) (select : option (list rule)) (ranks : list (species * list R)) (q : string) (buf : list R) : res (list R) :=
  bind (all_ok (map (fun '(s, draws) => bind (apply_selection subsampling draws select s) (local_dataset cc s q)) ranks)) (fun arrays =>
    Ok (gather_ptcl_array buf arrays)).
