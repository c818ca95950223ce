(** Model of the boosted-frame particle diagnostic: /repo/fbpic/openpmd_diag/boosted_particle_diag.py.
    Simplified: real numbers instead of floats; the data of one particle are kept together instead of in one array per
    quantity; the optional integer quantities, the selection rules ([apply_selection], see Store_Model.v) and the units
    of the file ([apply_opmd_standard]) are left out. *)
From Verif Require Import Base.
From Coq Require Import Reals.
From Flocq Require Import Core.Raux.
Open Scope R_scope.

(** boosted_particle_diag.py:657-668 [get_particle_data], CPU: the attributes of one particle. *)
Record bptcl := { bx : R; by_ : R; bz : R; bux : R; buy : R; buz : R; bw : R; big : R }.
(** boosted_particle_diag.py:832-839 the entries of the slice dictionary for one particle ([inv_gamma] is removed). *)
Record lptcl := { lx : R; ly : R; lz : R; lux : R; luy : R; luz : R; lw : R }.
(** boosted_particle_diag.py:106-125 [BackTransformedParticleDiagnostic.__init__] and 414-459 [LabSnapshot.__init__]: the
    Lorentz factor of the boost, its beta, the time step, and one snapshot. *)
Record bdiag := { d_c : R; d_g : R; d_dt : R; s_t : R; s_zmin : R; s_zmax : R }.
Definition inv_gamma_boost (d : bdiag) : R := 1 / d_g d.
Definition beta_boost (d : bdiag) : R := sqrt (1 - inv_gamma_boost d ^ 2).
Definition inv_beta_boost (d : bdiag) : R := 1 / beta_boost d.

(** boosted_particle_diag.py:461-484 [update_current_output_positions]: current_z_boost, prev_z_boost, current_z_lab. *)
Definition current_z_boost (d : bdiag) (t : R) : R := (s_t d * inv_gamma_boost d - t) * d_c d * inv_beta_boost d.
Definition prev_z_boost (d : bdiag) (t : R) : R := (s_t d * inv_gamma_boost d - (t - d_dt d)) * d_c d * inv_beta_boost d.
Definition current_z_lab (d : bdiag) (t : R) : R := (s_t d - t * inv_gamma_boost d) * d_c d * inv_beta_boost d.

(** boosted_particle_diag.py:724-773 [get_particle_slice]: the condition given to np.compress, then the particles that
    meet it, in order. *)
Definition selected (d : bdiag) (cur prev : R) (p : bptcl) : bool :=
  let current_z := bz p in
  let previous_z := bz p - buz p * big p * d_c d * d_dt d in
  (Rle_bool cur current_z && Rle_bool previous_z prev) || (Rle_bool current_z cur && Rle_bool prev previous_z).
Definition get_particle_slice (d : bdiag) (cur prev : R) (l : list bptcl) : list bptcl := filter (selected d cur prev) l.

(** boosted_particle_diag.py:803-841 [interpolate_particles_to_lab_frame], one particle. *)
Definition t_cross (d : bdiag) (cur t : R) (p : bptcl) : R :=
  let v_z := buz p * big p * d_c d in
  let v_plane := - d_c d / beta_boost d in
  t - (cur - bz p) / (v_plane - v_z).
Definition to_lab (d : bdiag) (cur t : R) (p : bptcl) : lptcl :=
  let tc := t_cross d cur t p in
  let x := bx p + d_c d * (tc - t) * big p * bux p in
  let y := by_ p + d_c d * (tc - t) * big p * buy p in
  let z := bz p + d_c d * (tc - t) * big p * buz p in
  let z_lab := d_g d * (z + beta_boost d * d_c d * tc) in
  let gamma := 1 / big p in
  let uz_lab := d_g d * buz p + gamma * (beta_boost d * d_g d) in
  {| lx := x; ly := y; lz := z_lab; lux := bux p; luy := buy p; luz := uz_lab; lw := bw p |}.

(** boosted_particle_diag.py:568-629 [extract_slice], without selection. *)
Definition extract_slice (d : bdiag) (cur prev t : R) (l : list bptcl) : list lptcl :=
  map (to_lab d cur t) (get_particle_slice d cur prev l).

(** boosted_particle_diag.py:149-193 [store_snapshot_slices], one snapshot and one species: [lo], [hi] are the ends of
    the local grid (fld.interp[0].zmin, zmax); the result is what is appended to the buffer of the snapshot. *)
Definition store_snapshot_slices (d : bdiag) (lo hi : R) (iteration : Z) (l : list bptcl) : list lptcl :=
  let time := IZR iteration * d_dt d in
  let cur := current_z_boost d time in
  let zl := current_z_lab d time in
  if Rle_bool lo cur && Rlt_bool cur hi && Rle_bool (s_zmin d) zl && Rlt_bool zl (s_zmax d)
  then extract_slice d cur (prev_z_boost d time) time l else [].

(** boosted_particle_diag.py:133-147 [write] with 195-227 [flush_to_disk], 503-541 [compact_slices] and 307-319
    [write_particle_slices], one process: (buffer, dataset) after one more iteration. *)
Definition write (d : bdiag) (period : Z) (lo hi : R) (iteration : Z) (l : list bptcl) (s : list lptcl * list lptcl)
  : list lptcl * list lptcl :=
  let buffer := fst s ++ store_snapshot_slices d lo hi iteration l in
  if (iteration mod period =? 0)%Z then ([], snd s ++ buffer) else (buffer, snd s).

(** boosted_particle_diag.py:669-720 [get_particle_data], GPU: the range of longitudinal cell indices whose particles
    are copied from the GPU ([zmin], [dz]: local grid; the prefix sums themselves are in Sort_Model.v). *)
Definition gpu_cells (d : bdiag) (zmin dz cur prev : R) : Z * Z :=
  (Zceil ((cur - zmin - 1 / 2 * dz) / dz), Zceil ((prev - zmin - 1 / 2 * dz + d_dt d * d_c d) / dz) + 1)%Z.

(** main.py:480-482 every iteration calls [write]: the successive iterations [its], with the grids and particles of each. *)
Fixpoint run (d : bdiag) (period : Z) (lo hi : Z -> R) (l : Z -> list bptcl) (its : list Z) (s : list lptcl * list lptcl)
  : list lptcl * list lptcl :=
  match its with [] => s | n :: r => run d period lo hi l r (write d period (lo n) (hi n) n (l n) s) end.
