(** fields/smoothing.py and the filtering of the spectral fields. Exact arithmetic. *)
From Verif Require Import Base Hankel_Model.
From Coq Require Import Reals.
From Coquelicot Require Import Complex.
Open Scope Z_scope.

(** The values that a user may pass as n_passes or compensator: an int, a bool, a dictionary with keys
    'z' and 'r' (the only keys that are read), or anything else. *)
Inductive arg (A : Type) := One (a : A) | Dict (z r : A) | Other.
Arguments One {A}. Arguments Dict {A}. Arguments Other {A}.
Record smoother := { n_passes_z : Z; n_passes_r : Z; comp_z : bool; comp_r : bool }.
(** smoothing.py:40-45 and 48-53 *)
Definition register {A} (a : arg A) : res (A * A) :=
  match a with One n => Ok (n, n) | Dict z r => Ok (z, r) | Other => Err ValueError end.
(** smoothing.py:16-53 __init__ *)
Definition binomial_smoother (n_passes : arg Z) (compensator : arg bool) : res smoother :=
  bind (register n_passes) (fun n => bind (register compensator) (fun c =>
  Ok {| n_passes_z := fst n; n_passes_r := snd n; comp_z := fst c; comp_r := snd c |})).
(** smoothing.py:79-84 and 87-92: the factor for one wave number, one direction. *)
Definition filter_factor (n : Z) (compensator : bool) (k d : R) : R :=
  let s2 := (sin (0.5 * k * d) ^ 2)%R in
  let filt := powerRZ (1 - s2) n in
  if compensator then (filt * (1 + IZR n * s2))%R else filt.
(** smoothing.py:57-94 get_filter_array; the arrays kz and kr are functions of the index. *)
Definition get_filter_array (s : smoother) (kz kr : Z -> R) (dz dr : R) : (Z -> R) * (Z -> R) :=
  (fun iz => filter_factor (n_passes_z s) (comp_z s) (kz iz) dz,
   fun ir => filter_factor (n_passes_r s) (comp_r s) (kr ir) dr).
(** numba_methods.py:31-34 numba_filter_scalar (and 55-60 for each component of a vector), called in
    spectral_grid.py:423-478 filter: the loop writes each cell once, from that cell only. *)
Definition filter_scalar (fz fr : Z -> R) (G : Z -> Z -> C) : Z -> Z -> C :=
  fun iz ir => Cmult (RtoC (fz iz * fr ir)) (G iz ir).
(** spectral_grid.py:110-115: the arrays are made from the true kz. fields.py:596-607 filter_spect. *)
Definition filter_spect (s : smoother) (zeros : Z -> Z -> R) (rmax : R) (Nz Nr m : Z) (dz dr : R) (G : Z -> Z -> C) : Z -> Z -> C :=
  let f := get_filter_array s (kz_true Nz dz) (kr_of zeros rmax m) dz dr in
  filter_scalar (fst f) (snd f) G.
