(** Model of the boosted-frame field diagnostic: /repo/fbpic/openpmd_diag/boosted_field_diag.py.
    Simplified: real numbers instead of floats; one snapshot; a slice (all fields, modes and radial cells at one z) is a
    value of a type [A] in the bookkeeping part. *)
From Verif Require Import Base.
From Coq Require Import Reals.
From Flocq Require Import Core.Raux.
Open Scope R_scope.

(** boosted_field_diag.py:91-101 and 109-118, 380-424: boost, time step and one snapshot. *)
Record fdiag := { f_c : R; f_g : R; f_dt : R; f_t : R; f_zmin : R; f_zmax : R; f_period : Z }.
Definition f_inv_gamma (d : fdiag) : R := 1 / f_g d.
Definition f_beta (d : fdiag) : R := sqrt (1 - f_inv_gamma d ^ 2).
Definition f_inv_beta (d : fdiag) : R := 1 / f_beta d.
(** boosted_field_diag.py:99-101 the resolution in the lab frame and the number of slices of the file. *)
Definition dz_lab (d : fdiag) : R := f_c d * f_dt d * f_inv_beta d * f_inv_gamma d.
Definition Nz_lab (d : fdiag) : Z := (Ztrunc ((f_zmax d - f_zmin d) / dz_lab d) + 1)%Z.
Definition inv_dz_lab (d : fdiag) : R := 1 / dz_lab d.

(** boosted_field_diag.py:434-453 [update_current_output_positions]. *)
Definition fz_boost (d : fdiag) (t : R) : R := (f_t d * f_inv_gamma d - t) * f_c d * f_inv_beta d.
Definition fz_lab (d : fdiag) (t : R) : R := (f_t d - t * f_inv_gamma d) * f_c d * f_inv_beta d.

(** boosted_field_diag.py:188-191 the condition under which a process stores a slice. *)
Definition stores (d : fdiag) (lo hi : R) (iteration : Z) : bool :=
  let time := IZR iteration * f_dt d in
  Rlt_bool lo (fz_boost d time) && Rlt_bool (fz_boost d time) hi &&
  Rlt_bool (f_zmin d) (fz_lab d time) && Rlt_bool (fz_lab d time) (f_zmax d).

Section Slices.
Variable A : Type.
(** Zeros, the contents of an empty file and of np.zeros. *)
Variable zero : A.

(** boosted_field_diag.py:423-424 the buffer of a snapshot on one process: slices and indices, oldest first. *)
Record buffer := { b_idx : list Z; b_sl : list A }.
Definition empty_buffer : buffer := {| b_idx := []; b_sl := [] |}.

(** boosted_field_diag.py:455-483 [register_slice]. *)
Definition register_slice (d : fdiag) (t : R) (sl : A) (b : buffer) : buffer :=
  let iz_lab := match b_idx b with
    | [] => Ztrunc ((fz_lab d t - f_zmin d) * inv_dz_lab d)
    | _ => (last (b_idx b) 0 - 1)%Z end in
  {| b_idx := b_idx b ++ [iz_lab]; b_sl := b_sl b ++ [sl] |}.

(** boosted_field_diag.py:485-530 [compact_slices]: nothing, or an array with its first and last-plus-one index, or the
    UserWarning that is raised when the indices are not contiguous. *)
Inductive compacted := NoSlices | NotContiguous | Slices (a : list A) (iz_min iz_max : Z).
Fixpoint contiguous (iz_old : Z) (l : list Z) : bool :=
  match l with [] => true | iz :: r => (iz =? iz_old - 1)%Z && contiguous iz r end.
Definition compact_slices (b : buffer) : compacted :=
  match b_idx b with
  | [] => NoSlices
  | iz_old :: r => if contiguous iz_old r then Slices (rev (b_sl b)) (last (b_idx b) 0%Z) (iz_old + 1) else NotContiguous end.

(** The numpy / h5py assignment dst[lo:hi] = src on an array with [n] entries.
    Simplified: broadcasting of a single slice is an error here as well. *)
Definition assign (n : Z) (dst : Z -> A) (lo hi : Z) (src : list A) : res (Z -> A) :=
  if (0 <=? lo)%Z && (lo <=? hi)%Z && (hi <=? n)%Z && (Z.of_nat (length src) =? hi - lo)%Z
  then Ok (fun k => if (lo <=? k)%Z && (k <? hi)%Z then nth (Z.to_nat (k - lo)) src zero else dst k) else Err ValueError.

(** boosted_field_diag.py:242-320 [gather_slices]: what the first process obtains from the arrays of all of them. *)
Definition min_list (l : list Z) : Z := match l with [] => 0 | a :: r => fold_left Z.min r a end.
Definition max_list (l : list Z) : Z := match l with [] => 0 | a :: r => fold_left Z.max r a end.
Definition piece : Type := list A * Z * Z.
Fixpoint fill (n gmin : Z) (g : Z -> A) (l : list piece) : res (Z -> A) :=
  match l with
  | [] => Ok g
  | (a, lo, hi) :: r => bind (assign n g (lo - gmin) (hi - gmin) a) (fun g' => fill n gmin g' r) end.
Definition gather_slices (l : list piece) : res (option piece) :=
  match l with
  | [] => Ok None
  | _ => let gmin := min_list (map (fun q => snd (fst q)) l) in
         let gmax := max_list (map snd l) in
         bind (fill (gmax - gmin) gmin (fun _ => zero) l)
           (fun g => Ok (Some (map g (range (gmax - gmin)), gmin, gmax))) end.

(** boosted_field_diag.py:205-240 [flush_to_disk] with 322-373 [write_slices]: the buffers of all processes and the
    dataset of one field. Simplified: the transformation of the fields to the lab frame, done here slice by slice, is
    [transform_fields] below. None: one of the processes raises the UserWarning. *)
Fixpoint pieces (l : list compacted) : option (list piece) :=
  match l with
  | [] => Some []
  | NotContiguous :: _ => None
  | NoSlices :: r => pieces r
  | Slices a lo hi :: r => match pieces r with Some p => Some ((a, lo, hi) :: p) | None => None end end.
Definition write_slices (d : fdiag) (disk : Z -> A) (p : option piece) : res (Z -> A) :=
  match p with None => Ok disk | Some (a, lo, hi) => assign (Nz_lab d) disk lo hi a end.
Definition flush_to_disk (d : fdiag) (bufs : list buffer) (disk : Z -> A) : option (res (Z -> A)) :=
  match pieces (map compact_slices bufs) with
  | None => None
  | Some ps =>
    Some (if (Z.of_nat (length bufs) >? 1)%Z then bind (gather_slices ps) (write_slices d disk)
          else write_slices d disk (hd_error ps)) end.

(** boosted_field_diag.py:140-203 [store_snapshot_slices] and 129-138 [write] on all processes: process q has the
    physical domain (lo q, hi q) and extracts [slice q iteration]. None or an error: the run stops. *)
Definition write (d : fdiag) (procs : nat) (lo hi : Z -> nat -> R) (slice : Z -> nat -> A) (n : Z)
  (s : list buffer * (Z -> A)) : option (res (list buffer * (Z -> A))) :=
  let bufs := map (fun '(q, b) => if stores d (lo n q) (hi n q) n then register_slice d (IZR n * f_dt d) (slice n q) b else b)
                (combine (seq 0 procs) (fst s)) in
  if (n mod f_period d =? 0)%Z
  then match flush_to_disk d bufs (snd s) with
       | None => None
       | Some r => Some (bind r (fun disk => Ok (map (fun _ => empty_buffer) bufs, disk))) end
  else Some (Ok (bufs, snd s)).
(** main.py:480-482 the iterations 0, 1, ..., n-1 of a simulation that starts with empty buffers and files. *)
Fixpoint run (d : fdiag) (procs : nat) (lo hi : Z -> nat -> R) (slice : Z -> nat -> A) (n : nat)
  : option (res (list buffer * (Z -> A))) :=
  match n with
  | O => Some (Ok (repeat empty_buffer procs, fun _ => zero))
  | S m => match run d procs lo hi slice m with
           | Some (Ok s) => write d procs lo hi slice (Z.of_nat m) s
           | r => r end end.
End Slices.

(** boosted_field_diag.py:591-600 [extract_slice]: the index of the left cell (in the array with guard and damping cells,
    [offset] of them on the left) and its weight. *)
Definition slice_shape (z_boost zmin_boost dz : R) (offset : Z) : Z * R :=
  let z_staggered_gridunits := (z_boost - zmin_boost - 1 / 2 * dz) / dz in
  let iz := Ztrunc z_staggered_gridunits in
  let Sz := IZR iz + 1 - z_staggered_gridunits in
  ((iz + offset)%Z, Sz).
(** boosted_field_diag.py:624-653 [extract_slice_cpu] for one field, mode and radial cell; [data] is that column. *)
Definition extract_slice_cpu (data : Z -> R) (iz : Z) (Sz : R) : R := Sz * data iz + (1 - Sz) * data (iz + 1)%Z.

(** boosted_field_diag.py:556-557 the ten fields of a slice at one mode entry and radial cell. *)
Record fields := { fEr : R; fEt : R; fEz : R; fBr : R; fBt : R; fBz : R; fJr : R; fJt : R; fJz : R; frho : R }.
(** boosted_field_diag.py:694-742 [transform_fields_to_lab_frame]. *)
Definition transform_fields (d : fdiag) (f : fields) : fields :=
  let gamma := f_g d in
  let cbeta := f_c d * f_beta d in
  let beta_c := f_beta d / f_c d in
  let er_lab := gamma * (fEr f + cbeta * fBt f) in
  let bt_lab := gamma * (fBt f + beta_c * fEr f) in
  let et_lab := gamma * (fEt f - cbeta * fBr f) in
  let br_lab := gamma * (fBr f - beta_c * fEt f) in
  let rho_lab := gamma * (frho f + beta_c * fJz f) in
  let Jz_lab := gamma * (fJz f + cbeta * frho f) in
  {| fEr := er_lab; fEt := et_lab; fEz := fEz f; fBr := br_lab; fBt := bt_lab; fBz := fBz f;
     fJr := fJr f; fJt := fJt f; fJz := Jz_lab; frho := rho_lab |}.
