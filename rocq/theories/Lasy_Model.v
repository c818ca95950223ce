(** Laser pulses read from a lasy file: lpa_utils/laser/laser_profiles.py:844-1065 (FromLasyFileLaser), and the choice of the method in
    lpa_utils/laser/laser.py:14-112 (add_laser_pulse), 113-229 (add_laser). Exact arithmetic. *)
From Coq Require Import ZArith List Reals String.
From Coquelicot Require Import Complex.
From Flocq Require Import Core.
From Verif Require Import Base Fourier_Lib.
Import ListNotations.
Open Scope R_scope.

(** What is read of the file, laser_profiles.py:905-936. [f_version]: the parts of the version between dots (None: not an integer). [f_shape]: the
    shape of the dataset; [f_data i j k]: its elements (numba does not check the bounds: beyond the shape it is what the memory holds). *)
Record lfile := { f_software : option string; f_version : option (list (option Z)); f_geometry : string; f_omega : R; f_pol : C * C;
  f_offset : R * R * R; f_spacing : R * R * R; f_unit : R; f_shape : Z * Z * Z; f_data : Z -> Z -> Z -> C }.
(** tuple comparison of Python (>=), laser_profiles.py:914 *)
Fixpoint tuple_ge (a b : list Z) : bool :=
  match a, b with
  | x :: a, y :: b => if (x =? y)%Z then tuple_ge a b else (y <? x)%Z
  | _, [] => true
  | [], _ :: _ => false
  end.
(** int(number) for number in version_string.split('.'), laser_profiles.py:913 *)
Fixpoint ints (l : list (option Z)) : res (list Z) :=
  match l with
  | [] => Ok []
  | Some n :: l => bind (ints l) (fun r => Ok (n :: r))
  | None :: _ => Err ValueError
  end.
(** laser_profiles.py:908-922: the check of the version *)
Definition check_version (f : lfile) : res unit :=
  bind (match f_software f, f_version f with
        | Some software, Some v => bind (ints v) (fun v => Ok (String.eqb software "lasy" && tuple_ge v [0; 3; 0]%Z))
        | _, _ => Ok false end) (fun valid =>
  if valid then Ok tt else Err RuntimeError).

Local Notation "a .+ b" := (Cplus a b) (at level 50, left associativity).
Local Notation "a .* b" := (Cmult (RtoC a) b) (at level 40, left associativity).
(** laser_profiles.py:971-974 and the same for the other arrays: [d it ir] *)
Definition bil (S0t S1t S0r S1r : R) (d : Z -> Z -> C) (it ir : Z) : C :=
  (S1r * S1t) .* d it ir .+ (S0r * S1t) .* d it (ir + 1)%Z .+ (S1r * S0t) .* d (it + 1)%Z ir .+ (S0r * S0t) .* d (it + 1)%Z (ir + 1)%Z.
(** laser_profiles.py:939-994 define_thetaMode_interp_function. dt_data, dr_data: gridSpacing*gridUnitSI. The result is None for nan (0/0; numba's
    ufuncs do not raise ZeroDivisionError). The offset of the grid along r is not read. *)
Definition theta_interp (f : lfile) (x y t : R) : option C :=
  let '(dt_s, dr_s, _) := f_spacing f in
  let dt_data := dt_s * f_unit f in let dr_data := dr_s * f_unit f in
  let inv_dt_data := 1 / dt_data in let inv_dr_data := 1 / dr_data in
  let '(n0, nt, nr) := f_shape f in
  let n_modes := (n0 / 2 + 1)%Z in
  let r := sqrt (x * x + y * y) in
  let ir_interp := r * inv_dr_data in let ir := Zfloor ir_interp in
  let it_interp := t * inv_dt_data in let it := Zfloor it_interp in
  if ((it <? 0) || (nt - 1 <? it + 1) || (ir <? 0) || (nr - 1 <? ir + 1))%Z then Some (RtoC 0)
  else
    let S0t := it_interp - IZR it in let S1t := IZR (it + 1) - it_interp in
    let S0r := ir_interp - IZR ir in let S1r := IZR (ir + 1) - ir_interp in
    let d i := bil S0t S1t S0r S1r (f_data f i) it ir in
    fold_left (fun (env : option C) m =>
      let env_cos := d (2 * m - 1)%Z in let env_sin := d (2 * m)%Z in
      match env with
      | None => None
      | Some env =>
        if Req_EM_T r 0 then None
        else let exp_theta := cpow (x / r, y / r) (Z.to_nat m) in
          Some (env .+ (fst exp_theta .* env_cos .+ snd exp_theta .* env_sin))
      end) (map Z.of_nat (seq 1 (Z.to_nat (n_modes - 1)))) (Some (d 0%Z)).
(** laser_profiles.py:997-1049 define_cartesian_interp_function *)
Definition cart_interp (f : lfile) (x y t : R) : option C :=
  let '(dt_s, dy_s, dx_s) := f_spacing f in
  let dt_data := dt_s * f_unit f in let dy_data := dy_s * f_unit f in let dx_data := dx_s * f_unit f in
  let '(_, y_min, x_min) := f_offset f in
  let '(nt, ny, nx) := f_shape f in
  let ix_interp := (x - x_min) * (1 / dx_data) in let ix := Zfloor ix_interp in
  let iy_interp := (y - y_min) * (1 / dy_data) in let iy := Zfloor iy_interp in
  let it_interp := t * (1 / dt_data) in let it := Zfloor it_interp in
  if ((it <? 0) || (nt - 1 <? it + 1) || (iy <? 0) || (ny - 1 <? iy + 1) || (ix <? 0) || (nx - 1 <? ix + 1))%Z then Some (RtoC 0)
  else
    let S0t := it_interp - IZR it in let S1t := IZR (it + 1) - it_interp in
    let S0y := iy_interp - IZR iy in let S1y := IZR (iy + 1) - iy_interp in
    let S0x := ix_interp - IZR ix in let S1x := IZR (ix + 1) - ix_interp in
    Some ((S1x * S1y * S1t) .* f_data f it iy ix .+ (S0x * S1y * S1t) .* f_data f it iy (ix + 1)%Z
       .+ (S1x * S0y * S1t) .* f_data f it (iy + 1)%Z ix .+ (S0x * S0y * S1t) .* f_data f it (iy + 1)%Z (ix + 1)%Z
       .+ (S1x * S1y * S0t) .* f_data f (it + 1)%Z iy ix .+ (S0x * S1y * S0t) .* f_data f (it + 1)%Z iy (ix + 1)%Z
       .+ (S1x * S0y * S0t) .* f_data f (it + 1)%Z (iy + 1)%Z ix .+ (S0x * S0y * S0t) .* f_data f (it + 1)%Z (iy + 1)%Z (ix + 1)%Z).

(** laser_profiles.py:844-936 __init__: the object *)
Record lasy := { l_omega : R; l_pol : C * C; l_tmin : R; l_tstart : R; l_interp : R -> R -> R -> option C }.
Definition from_lasy_file (f : lfile) (t_start : R) : res lasy :=
  bind (check_version f) (fun _ =>
  let mk i := {| l_omega := f_omega f; l_pol := f_pol f; l_tmin := fst (fst (f_offset f)); l_tstart := t_start; l_interp := i |} in
  if String.eqb (f_geometry f) "thetaMode" then Ok (mk (theta_interp f))
  else if String.eqb (f_geometry f) "cartesian" then Ok (mk (cart_interp f))
  else Err RuntimeError).
(** laser_profiles.py:1052-1065 E_field (None: nan) *)
Definition E_field (l : lasy) (x y z t : R) : option (R * R) :=
  match l_interp l x y (t - l_tstart l) with
  | None => None
  | Some env =>
    let E := Cmult env (cis (- l_omega l * (t - l_tstart l + l_tmin l))) in
    Some (fst (Cmult E (fst (l_pol l))), fst (Cmult E (snd (l_pol l))))
  end.

(** *** Adding a laser to a simulation *)
(** The profile: from lasy or not (isinstance), and its direction of propagation. *)
Record profile := { p_lasy : bool; p_dir : Z }.
(** What is done: fields added on the grid, or an antenna added to the simulation (at z0, with the velocity v); with or without a boosted frame *)
Inductive added := Direct (p : profile) (boost : option R) | Antenna (p : profile) (z0 v : R) (boost : option R).
(** laser.py:14-112 add_laser_pulse *)
Definition add_laser_pulse (p : profile) (gamma_boost : option R) (method : string) (z0_antenna : option R) (v_antenna : R) : res added :=
  bind (match gamma_boost with
        | Some g => if Req_EM_T g 1 then Ok None else if (p_dir p =? 1)%Z then Ok (Some g) else Err ValueError
        | None => Ok None end) (fun boost =>
  if String.eqb method "direct" then (if p_lasy p then Err RuntimeError else Ok (Direct p boost))
  else if String.eqb method "antenna" then
    match z0_antenna with
    | None => Err ValueError
    | Some z0 => if p_lasy p && (if Req_EM_T v_antenna 0 then false else true) then Err RuntimeError else Ok (Antenna p z0 v_antenna boost)
    end
  else Err ValueError).
(** laser.py:113-229 add_laser: a Gaussian profile, then add_laser_pulse (the arguments of the profile are those of GaussianLaser, with tau = ctau/c,
    see Laser_Model.v). *)
Definition add_laser (gamma_boost : option R) (method : string) (fw_propagating : bool) (zf : option R) (z0_antenna : option R) (v_antenna : R) : res added :=
  let propagation_direction := if fw_propagating then 1%Z else (-1)%Z in
  add_laser_pulse {| p_lasy := false; p_dir := propagation_direction |} gamma_boost method z0_antenna v_antenna.
