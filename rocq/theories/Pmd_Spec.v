(** What C102 says: how a reader that follows the openPMD standard (version 1.0) reads a record of fields in the geometry
    thetaMode, and what it should find. *)
From Coq Require Import ZArith Reals List String.
From Coquelicot Require Import Complex.
From Verif Require Import Base Decomp_Model GGrid_Model GGrid_Spec Pdiag_Spec Pmd_Model.
Import ListNotations.
Open Scope Z_scope.

(** 1, ..., M - 1 *)
Definition above0 (M : Z) : list Z := map Z.of_nat (seq 1 (Z.to_nat M - 1)).
Definition rsum (l : list Z) (u : Z -> R) : R := fold_right Rplus 0%R (map u l).

(** ** The standard *)
(** The file has the value [x] at the position (z, r, theta), in SI units: [x] is an element (j, i) of the component [comp] of the
    record [rec]. An element is at offset + (index + position) * spacing along each axis; the first axis holds the real part of
    mode 0, then the coefficients of cos(m theta) and sin(m theta), m = 1, 2, ... *)
Definition pmd_read (f : file) (rec comp : string) (z r theta x : R) : Prop :=
  exists d unitSI pr pz M sr sz ofr ofz u Nr Nz j i,
  dsets f comp = Some d /\ h_shape d = (2 * M - 1, Nr, Nz) /\ 0 <= j < Nr /\ 0 <= i < Nz /\
  attrs f (Path comp) "unitSI"%string = Some (ANum unitSI) /\ attrs f (Path comp) "position"%string = Some (AVec [pr; pz]) /\
  attrs f (Path rec) "geometry"%string = Some (AStr "thetaMode") /\ attrs f (Path rec) "geometryParameters"%string = Some (AGeom M "+") /\
  attrs f (Path rec) "axisLabels"%string = Some (AStrs ["r"; "z"]%string) /\ attrs f (Path rec) "dataOrder"%string = Some (AStr "C") /\
  attrs f (Path rec) "gridSpacing"%string = Some (AVec [sr; sz]) /\ attrs f (Path rec) "gridGlobalOffset"%string = Some (AVec [ofr; ofz]) /\
  attrs f (Path rec) "gridUnitSI"%string = Some (ANum u) /\
  z = (u * (ofz + (IZR i + pz) * sz))%R /\ r = (u * (ofr + (IZR j + pr) * sr))%R /\
  x = (unitSI * (h_val d 0%Z j i + rsum (above0 M) (fun m =>
         h_val d (2 * m - 1)%Z j i * cos (IZR m * theta) + h_val d (2 * m)%Z j i * sin (IZR m * theta))))%R.
(** The time of a record *)
Definition pmd_time (f : file) (rec : string) : option R :=
  match attrs f Iteration "time", attrs f Iteration "timeUnitSI", attrs f (Path rec) "timeOffset" with
  | Some (ANum t), Some (ANum u), Some (ANum o) => Some ((t + o) * u)%R
  | _, _, _ => None
  end%string.
(** ... and its dimension *)
Definition pmd_dimension (f : file) (rec : string) (d : list Z) : Prop :=
  attrs f (Path rec) "unitDimension"%string = Some (AVec (map IZR d)).

(** ** What should be there *)
(** The records, their components and the fields of the simulation that they stand for. *)
Definition documented_fields : list (string * string * fname) :=
  [("E", "E/r", fEr); ("E", "E/t", fEt); ("E", "E/z", fEz); ("B", "B/r", fBr); ("B", "B/t", fBt); ("B", "B/z", fBz);
   ("J", "J/r", fJr); ("J", "J/t", fJt); ("J", "J/z", fJz); ("rho", "rho", frho)]%string.
(** A real field whose azimuthal modes are a(m), m = 0, ..., Nm - 1: the sum of a(m) exp(- i m theta) over positive and negative m,
    where a(-m) is the conjugate of a(m). *)
Definition real_field (Nm : Z) (a : Z -> C) (theta : R) : R :=
  (fst (a 0%Z) + rsum (above0 Nm) (fun m =>
    fst (Cplus (Cmult (a m) (cos (IZR m * theta), - sin (IZR m * theta)))
               (Cmult (Cconj (a m)) (cos (IZR m * theta), sin (IZR m * theta))))))%R.
(** A simulation whose window has moved by [ns] cells, step by step (C94): [G m k] is the grid of mode m of rank k. *)
Definition simulation (c : comm) (q : radial) (ns : list Z) (Nm : Z) (G : Z -> Z -> igrid C) : Prop :=
  0 < Nm /\ (0 < r_dr q)%R /\ 0 < g_Nz (G 0 0) /\ forall m, 0 <= m < Nm -> setting (RtoC 0) c q m ns (G m).
(** The rank in charge of the position z has, at (z, r), the modes [a] of the array [arr]. *)
Definition has_modes (c : comm) (q : radial) (ns : list Z) (Nm : Z) (G : Z -> Z -> igrid C) (fn : fname) (z r : R) (a : Z -> C) : Prop :=
  exists k lo hi, 0 <= k < c_size c /\ get_zmin_zmax (moved_comm ns c) true false false (Some k) = Ok (lo, hi) /\ (lo <= z < hi)%R /\
  (r < IZR (r_Nr q) * r_dr q)%R /\ forall m, 0 <= m < Nm -> sampled (view (G m k) fn) z r (a m).
(** What the file may already contain: the same numbers of modes and cells, for the datasets that will be written. *)
Definition compatible (old : option file) (Nm Nr Nz : Z) (comps : list string) : Prop :=
  forall f comp d, old = Some f -> In comp comps -> dsets f comp = Some d -> h_shape d = (2 * Nm - 1, Nr, Nz).
Definition comps_of (fieldtypes : list string) : list string :=
  map (fun x => snd (fst x)) (filter (fun x => existsb (String.eqb (fst (fst x))) fieldtypes) documented_fields).
(** Back-transformed fields: what successive flushes (first and last-plus-one index along z, data) leave in an array of zeros. *)
Definition stored (flushes : list (Z * Z * (Z -> Z -> Z -> R))) (p j i : Z) : R :=
  fold_left (fun v '(lo, hi, data) => if (lo <=? i) && (i <? hi) then data p j (i - lo) else v)%bool flushes 0%R.
(** ... and the field at an angle, from the array: real part of mode 0, then coefficients of cos(m theta), sin(m theta). *)
Definition at_angle (Nm : Z) (u : Z -> R) (theta : R) : R :=
  (u 0%Z + rsum (above0 Nm) (fun m => u (2 * m - 1)%Z * cos (IZR m * theta) + u (2 * m)%Z * sin (IZR m * theta)))%R.
(** The names of the fields *)
Definition names : list (fname * string) :=
  [(fEr, "Er"); (fEt, "Et"); (fEz, "Ez"); (fBr, "Br"); (fBt, "Bt"); (fBz, "Bz"); (fJr, "Jr"); (fJt, "Jt"); (fJz, "Jz"); (frho, "rho")]%string.
