(** lpa_utils/laser/direct_injection.py: a laser that is added directly to the grid.  Exact arithmetic, CPU.
    Messages, and the arrays of the PML, are left out. *)
From Verif Require Import Base Fourier_Lib Boost_Model Decomp_Model Hankel_Model Psatd_Model Laser_Model.
From Coq Require Import Reals.
From Coquelicot Require Import Coquelicot.
Open Scope C_scope.

(** laser.py:66-74 (add_laser_pulse): the converter that is given to add_laser_direct *)
Definition make_boost (gamma_boost : option R) (l : laser) : res (option converter) :=
  match gamma_boost with
  | Some g => if Req_EM_T g 1 then Ok None
              else if Req_EM_T (propag_direction l) 1 then Ok (Some (boost_converter g)) else Err ValueError
  | None => Ok None
  end.
(** direct_injection.py:133-156: (Er_3d, Et_3d) at one point (z, r, theta); [cl]: the speed of light, [time]: sim.time. *)
Definition sample (cl : R) (l : laser) (boost : option converter) (time z r theta : R) : R * R :=
  (let cos_theta := cos theta in let sin_theta := sin theta in
   let x := r * cos_theta in let y := r * sin_theta in
   let '(zlab, tlab) := match boost with
     | Some b => (gamma0 b * (z + beta0 b * cl * time), gamma0 b * (time + (beta0 b * 1 / cl) * z))
     | None => (z, time) end in
   let '(Ex, Ey) := E_field l x y zlab tlab in
   let Er := cos_theta * Ex + sin_theta * Ey in
   let Et := - sin_theta * Ex + cos_theta * Ey in
   match boost with
   | Some b => let scale_factor := 1 / (gamma0 b * (1 + beta0 b)) in (Er * scale_factor, Et * scale_factor)
   | None => (Er, Et) end)%R.
(** direct_injection.py:129-130: the angles *)
Definition theta_of (Nm j : nat) : R := (2 * PI / INR (2 * Nm) * INR j)%R.
(** direct_injection.py:103-163 get_laser_Er_Et: the elements m of the last axis, at the point (z, r); numpy's ifft over
    the 2 Nm angles. *)
Definition get_laser_Er_Et (cl : R) (l : laser) (boost : option converter) (time : R) (Nm : nat) (z r : R) (m : nat) : C * C :=
  (idft (2 * Nm) (fun j => RtoC (fst (sample cl l boost time z r (theta_of Nm j)))) m,
   idft (2 * Nm) (fun j => RtoC (snd (sample cl l boost time z r (theta_of Nm j)))) m).

(** numpy.sign *)
Definition np_sign (x : R) : R := if Rlt_dec 0 x then 1%R else if Rlt_dec x 0 then (-1)%R else 0%R.
(** direct_injection.py:187-189 *)
Definition laser_filter (kz_true dz : R) : R :=
  ((1 - sin (0.5 * kz_true * dz) ^ 2) * (1 + sin (0.5 * kz_true * dz) ^ 2))%R.
(** direct_injection.py:190-213: Ep, Em, Ez, Bp, Bm, Bz of one spectral mode, from the Ep and Em of the transverse field;
    [kz]: the (modified) wavenumber of the solver; [f]: the element of filter_array. *)
Record six := { sEp : C; sEm : C; sEz : C; sBp : C; sBm : C; sBz : C }.
Definition laser_w (cl dir kz kr : R) : R := (cl * sqrt (kz ^ 2 + kr ^ 2) * (np_sign kz * dir))%R.
Definition laser_mode (cl dir f kz kr : R) (Ep0 Em0 : C) : six :=
  let Ep := Ep0 * f in let Em := Em0 * f in
  let inv_kz := if Req_EM_T kz 0 then 0%R else (1 / kz)%R in
  let Ez := Ci * kr * (Ep - Em) * inv_kz in
  let w := laser_w cl dir kz kr in
  let inv_w := if Req_EM_T w 0 then 0%R else (1 / w)%R in
  {| sEp := Ep; sEm := Em; sEz := Ez;
     sBp := - Ci * inv_w * (kz * Ep - 0.5 * Ci * kr * Ez);
     sBm := - Ci * inv_w * (- (kz) * Em - 0.5 * Ci * kr * Ez);
     sBz := inv_w * kr * (Ep + Em) |}.

(** The interpolation grid of one azimuthal mode *)
Record interp := { gEr : Z -> Z -> C; gEt : Z -> Z -> C; gEz : Z -> Z -> C; gBr : Z -> Z -> C; gBt : Z -> Z -> C; gBz : Z -> Z -> C }.
(** direct_injection.py:166-217 calculate_laser_fields, for one azimuthal mode: [tr], its transformer; [kz], the array
    spect.kz[:,0]; [kr], spect.kr[0,:]; [ztrue], the array kz_true; [cells] and [cells'], the orders of the loops of the transforms. *)
Definition spectral_fields (cl dir dz : R) (tr : transformer) (cells : list (Z * Z)) (ztrue kz kr : Z -> R) (Er Et : Z -> Z -> C) : Z -> Z -> six :=
  let '(Ep, Em) := interp2spect_vect tr cells Er Et in
  fun iz ir => laser_mode cl dir (laser_filter (ztrue iz) dz) (kz iz) (kr ir) (Ep iz ir) (Em iz ir).
Definition calculate_laser_fields (cl dir dz : R) (tr : transformer) (cells cells' : list (Z * Z)) (ztrue kz kr : Z -> R) (Er Et : Z -> Z -> C) : interp :=
  let S := spectral_fields cl dir dz tr cells ztrue kz kr Er Et in
  let '(Er', Et') := spect2interp_vect tr cells' (fun iz ir => sEp (S iz ir)) (fun iz ir => sEm (S iz ir)) in
  let '(Br', Bt') := spect2interp_vect tr cells' (fun iz ir => sBp (S iz ir)) (fun iz ir => sBm (S iz ir)) in
  {| gEr := Er'; gEt := Et'; gEz := spect2interp_scal tr (fun iz ir => sEz (S iz ir));
     gBr := Br'; gBt := Bt'; gBz := spect2interp_scal tr (fun iz ir => sBz (S iz ir)) |}.

(** interpolation_grid.py:67-89 and main.py:285-297: the positions of the cells of the (enlarged) grid of rank k. *)
Definition local_z (c : comm) (k : Z) (iz : Z) : res R :=
  bind (get_zmin_zmax c true true true (Some k)) (fun '(zmin, _) => Ok (zmin + (IZR iz + 0.5) * c_dz c)%R).
(** direct_injection.py:80-97, for one array: adds [new] to the rows of the rank's own cells. *)
Definition add_to (c : comm) (Nr k : Z) (old glob : Z -> Z -> C) : res (Z -> Z -> C) :=
  bind (get_Nz_and_iz c true true false (Some k)) (fun '(Nz_local, iz_start_local_domain) =>
  bind (get_Nz_and_iz c true true true (Some k)) (fun '(_, iz_start_local_array) =>
  let iz_in_array := (iz_start_local_domain - iz_start_local_array)%Z in
  bind (scatter_grid_array c Nr true k glob) (fun new =>
  Ok (fun iz ir => if ((iz_in_array <=? iz) && (iz <? iz_in_array + Nz_local))%Z then old iz ir + new (iz - iz_in_array)%Z ir else old iz ir)))).
(** direct_injection.py:12-100 add_laser_direct, for one azimuthal mode: the arrays of rank k afterwards.  [Er k iz ir], [Et k iz ir]: the element of
    laser_Er, laser_Et on rank k; [old k]: the grids before; [solve]: calculate_laser_fields on the gathered arrays (performed by rank 0).
    The grids are emptied before and restored after the calculation of the fields (lines 42-50, 65-69), which has no net effect. *)
Definition add_laser_direct (c : comm) (Nr : Z) (solve : (Z -> Z -> C) -> (Z -> Z -> C) -> interp) (Er Et : Z -> Z -> Z -> C)
  (old : Z -> interp) (k : Z) : res interp :=
  bind (gather_grid_array (RtoC 0) c Nr true Er) (fun Er =>
  bind (gather_grid_array (RtoC 0) c Nr true Et) (fun Et =>
  let glob := solve Er Et in
  bind (add_to c Nr k (gEr (old k)) (gEr glob)) (fun Er =>
  bind (add_to c Nr k (gEt (old k)) (gEt glob)) (fun Et =>
  bind (add_to c Nr k (gEz (old k)) (gEz glob)) (fun Ez =>
  bind (add_to c Nr k (gBr (old k)) (gBr glob)) (fun Br =>
  bind (add_to c Nr k (gBt (old k)) (gBt glob)) (fun Bt =>
  bind (add_to c Nr k (gBz (old k)) (gBz glob)) (fun Bz =>
  Ok {| gEr := Er; gEt := Et; gEz := Ez; gBr := Br; gBt := Bt; gBz := Bz |})))))))).
