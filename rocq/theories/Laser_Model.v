(** Laser profiles: fbpic/lpa_utils/laser/transverse_laser_profiles.py, longitudinal_laser_profiles.py and
    laser_profiles.py.  The methods work on arrays, element by element: they are modelled at one point (x, y, z, t).
    Floating-point numbers are real numbers. *)
From Verif Require Import Base Fourier_Lib.
From Coq Require Import Reals.
From Coquelicot Require Import Coquelicot.
Open Scope C_scope.

(** numpy functions of a complex argument: np.exp, np.angle (between -pi and pi, 0 at 0), complex powers with a real
    exponent (principal value; the base is never 0 where this is used). *)
Definition Cexp (z : C) : C := RtoC (exp (Re z)) * cis (Im z).
Definition angle (z : C) : R :=
  if Ceq_dec z 0 then 0%R else if Rle_dec 0 (Im z) then acos (Re z / Cmod z) else (- acos (Re z / Cmod z))%R.
Definition Cpower (z : C) (a : R) : C := RtoC (exp (a * ln (Cmod z))) * cis (a * angle z).

(** scipy.special: factorial, binom, genlaguerre (external; the generalized Laguerre polynomial, from its coefficients). *)
Definition factR (n : nat) : R := INR (fact n).
Fixpoint rsum (n : nat) (f : nat -> R) : R := match n with O => 0%R | S n => (rsum n f + f n)%R end.
Definition genlaguerre (p m : nat) (x : R) : R :=
  rsum (S p) (fun i => ((-1) ^ i * (factR (p + m) / (factR (p - i) * factR (m + i) * factR i)) * x ^ i)%R).
Definition binom (m n : nat) : R := Binomial.C m n.

(** ** Transverse profiles *)
(** Attributes common to the transverse profiles: k0, inv_zr, zf, w0 (w_foc for the flattened profile) and
    propag_direction (1. or -1.). *)
Record transverse := { t_k0 : R; t_inv_zr : R; t_zf : R; t_w0 : R; t_dir : R }.
(** transverse_laser_profiles.py:46-48 (assert on the direction), 131-137 (same code at 240-241, 253-256 and 384-396). *)
Definition transverse_init (waist zf lambda0 : R) (propagation_direction : Z) : res transverse :=
  if ((propagation_direction =? -1) || (propagation_direction =? 1))%Z then
    let k0 := (2 * PI / lambda0)%R in
    let zr := (0.5 * k0 * waist ^ 2)%R in
    Ok {| t_k0 := k0; t_inv_zr := (1 / zr)%R; t_zf := zf; t_w0 := waist; t_dir := IZR propagation_direction |}
  else Err AssertionError.
(** transverse_laser_profiles.py:153-155 (same at 285-286, 406-407 and 529-530) *)
Definition diffract_factor (t : transverse) (z : R) : C := 1 + Ci * t_dir t * (z - t_zf t)%R * t_inv_zr t.

(** GaussianTransverseProfile.evaluate, transverse_laser_profiles.py:143-160 *)
Definition gauss_evaluate (t : transverse) (x y z : R) : C :=
  let d := diffract_factor t z in
  let exp_argument := - RtoC (x ^ 2 + y ^ 2) / ((t_w0 t ^ 2)%R * d) in
  Cexp exp_argument / d.
(** squared_profile_integral, transverse_laser_profiles.py:162-166 (same at 306-310 and 428-432) *)
Definition gauss_squared_integral (t : transverse) : R := (0.5 * PI * t_w0 t ^ 2)%R.

(** LaguerreGaussTransverseProfile, transverse_laser_profiles.py:236-260.  (A non-integer m, that is refused
    with the same error, cannot be expressed.  When m + p < 0, factorial returns 0 and numpy warns about a division by
    zero before the error of line 249 is raised.) *)
Record laguerre_gauss := { l_t : transverse; l_p : nat; l_m : nat; l_scaled_amplitude : R; l_theta0 : R }.
Definition laguerre_init (p : nat) (m : Z) (waist zf lambda0 theta0 : R) (propagation_direction : Z) : res laguerre_gauss :=
  bind (transverse_init waist zf lambda0 propagation_direction) (fun t =>
  if (m <? 0)%Z then Err ValueError else
  let m := Z.to_nat m in
  let a := match m with O => 1%R | _ => sqrt (factR p / factR (m + p)) end in
  let a := match m with O => a | _ => (a * sqrt 2)%R end in
  Ok {| l_t := t; l_p := p; l_m := m; l_scaled_amplitude := a; l_theta0 := theta0 |}).
(** evaluate, transverse_laser_profiles.py:281-304 *)
Definition laguerre_evaluate (l : laguerre_gauss) (x y z : R) : C :=
  let t := l_t l in
  let d := diffract_factor t z in
  let w := (t_w0 t * Cmod d)%R in
  let psi := angle d in
  let scaled_radius_squared := (2 * (x ^ 2 + y ^ 2) / w ^ 2)%R in
  let scaled_radius := sqrt scaled_radius_squared in
  let theta := angle (x + Ci * y) in
  let exp_argument := - RtoC (x ^ 2 + y ^ 2) / ((t_w0 t ^ 2)%R * d) - Ci * ((2 * INR (l_p l) + INR (l_m l)) * psi)%R in
  let profile := Cexp exp_argument / d * (scaled_radius ^ l_m l)%R * genlaguerre (l_p l) (l_m l) scaled_radius_squared *
    cos (INR (l_m l) * (theta - l_theta0 l)) in
  profile * l_scaled_amplitude l.

(** DonutLikeLaguerreGaussTransverseProfile, transverse_laser_profiles.py:380-397 *)
Record donut := { d_t : transverse; d_p : nat; d_m : Z; d_scaled_amplitude : R }.
Definition donut_init (p : nat) (m : Z) (waist zf lambda0 : R) (propagation_direction : Z) : res donut :=
  bind (transverse_init waist zf lambda0 propagation_direction) (fun t =>
  Ok {| d_t := t; d_p := p; d_m := m; d_scaled_amplitude := sqrt (factR p / factR (Z.abs_nat m + p)) |}).
(** evaluate, transverse_laser_profiles.py:402-426 *)
Definition donut_evaluate (l : donut) (x y z : R) : C :=
  let t := d_t l in
  let d := diffract_factor t z in
  let w := (t_w0 t * Cmod d)%R in
  let psi := angle d in
  let scaled_radius_squared := (2 * (x ^ 2 + y ^ 2) / w ^ 2)%R in
  let scaled_radius := sqrt scaled_radius_squared in
  let theta := angle (x + Ci * y) in
  let am := Z.abs_nat (d_m l) in
  let exp_argument := - Ci * (IZR (d_m l) * theta)%R - RtoC (x ^ 2 + y ^ 2) / ((t_w0 t ^ 2)%R * d)
    - Ci * ((2 * INR (d_p l) + INR am) * psi)%R in
  let profile := Cexp exp_argument / d * (scaled_radius ^ am)%R * genlaguerre (d_p l) am scaled_radius_squared in
  profile * d_scaled_amplitude l.

(** FlattenedGaussianTransverseProfile, transverse_laser_profiles.py:501-522.  N is an integer (line 505 rounds it);
    w_foc is in [t_w0], and zr is computed from it (line 510). *)
Record flattened := { f_t : transverse; f_N : nat; f_cn : nat -> R }.
Definition flattened_init (w0 : R) (N : nat) (zf lambda0 : R) (propagation_direction : Z) : res flattened :=
  let w_foc := (w0 * sqrt (INR N + 1))%R in
  bind (transverse_init w_foc zf lambda0 propagation_direction) (fun t =>
  Ok {| f_t := t; f_N := N;
        f_cn := fun n => (rsum (N + 1 - n) (fun i => (1 / 2) ^ (n + i) * binom (n + i) n) / (INR N + 1))%R |}).
(** The recursive computation of the Laguerre polynomials, transverse_laser_profiles.py:541-554: L and L1 (L_{n-1})
    after the iteration n.  (For n = 0, L1 does not exist.) *)
Fixpoint laguerre_rec (v : R) (n : nat) : R * R :=
  match n with
  | O => (1%R, 0%R)
  | S n' => let '(L, L1) := laguerre_rec v n' in
      match n' with
      | O => let L1 := L in (1 - v, L1)%R
      | _ => let L2 := L1 in let L1 := L in
          ((((2 * INR (S n') - 1) - v) * L1 - (INR (S n') - 1) * L2) / INR (S n'), L1)%R
      end
  end.
(** evaluate, transverse_laser_profiles.py:524-559 *)
Definition flattened_evaluate (l : flattened) (x y z : R) : C :=
  let t := f_t l in
  let d := diffract_factor t z in
  let w := (t_w0 t * Cmod d)%R in
  let psi := angle d in
  let scaled_radius_squared := (2 * (x ^ 2 + y ^ 2) / w ^ 2)%R in
  let laguerre_sum := csum (f_N l + 1) (fun n =>
    f_cn l n * Cexp (- (2 * Ci * INR n) * psi) * fst (laguerre_rec scaled_radius_squared n)) in
  let exp_argument := - RtoC (x ^ 2 + y ^ 2) / ((t_w0 t ^ 2)%R * d) in
  laguerre_sum * Cexp exp_argument / d.
(** squared_profile_integral, transverse_laser_profiles.py:561-565 *)
Definition flattened_squared_integral (l : flattened) : R :=
  (0.5 * PI * t_w0 (f_t l) ^ 2 * rsum (f_N l + 1) (fun n => f_cn l n ^ 2))%R.

Section Constants.
(** scipy.constants *)
Context (c m_e e epsilon_0 : R).

(** ** Longitudinal profile *)
(** GaussianChirpedLongitudinalProfile, longitudinal_laser_profiles.py:149-160 *)
Record longitudinal := { g_k0 : R; g_z0 : R; g_cep_phase : R; g_phi2_chirp : R; g_inv_ctau2 : R; g_dir : R }.
Definition longitudinal_init (tau z0 lambda0 cep_phase phi2_chirp : R) (propagation_direction : Z) : res longitudinal :=
  if ((propagation_direction =? -1) || (propagation_direction =? 1))%Z then
    Ok {| g_k0 := (2 * PI / lambda0)%R; g_z0 := z0; g_cep_phase := cep_phase; g_phi2_chirp := phi2_chirp;
          g_inv_ctau2 := (1 / (c * tau) ^ 2)%R; g_dir := IZR propagation_direction |}
  else Err AssertionError.
(** evaluate, longitudinal_laser_profiles.py:162-181 *)
Definition stretch_factor (g : longitudinal) : C := 1 - 2 * Ci * (g_phi2_chirp g * c ^ 2 * g_inv_ctau2 g)%R.
Definition longitudinal_evaluate (g : longitudinal) (z t : R) : C :=
  let exp_argument := - Ci * g_cep_phase g + Ci * g_k0 g * (g_dir g * (z - g_z0 g) - c * t)%R
    - 1 / stretch_factor g * g_inv_ctau2 g * ((g_dir g * (z - g_z0 g) - c * t) ^ 2)%R in
  Cexp exp_argument / Cpower (stretch_factor g) 0.5.
(** squared_profile_integral, longitudinal_laser_profiles.py:183-187 *)
Definition longitudinal_squared_integral (g : longitudinal) : R := sqrt (0.5 * PI * 1 / g_inv_ctau2 g)%R.

(** ** Laser profiles *)
(** A LaserProfile, laser_profiles.py:20-67: its direction of propagation and its method E_field, that returns (Ex, Ey). *)
Record laser := { propag_direction : R; E_field : R -> R -> R -> R -> R * R }.
(** The products of lines 281-294, 433-446, 572-585, 697-710 and 161-174 (identical). *)
Definition combine (E0x E0y : R) (long : R -> R -> C) (trans : R -> R -> R -> C) (x y z t : R) : R * R :=
  let profile := long z t * trans x y z in
  (Re (E0x * profile), Re (E0y * profile)).
(** GaussianLaser.__init__, laser_profiles.py:255-279 *)
Definition E0_of (a0 lambda0 : R) : R := let k0 := (2 * PI / lambda0)%R in (a0 * m_e * c ^ 2 * k0 / e)%R.
Definition zf_of (z0 : R) (zf : option R) : R := match zf with None => z0 | Some zf => zf end.
Definition gaussian_laser (a0 waist tau z0 : R) (zf : option R) (theta_pol lambda0 cep_phase phi2_chirp : R) (dir : Z) : res laser :=
  bind (longitudinal_init tau z0 lambda0 cep_phase phi2_chirp dir) (fun g =>
  bind (transverse_init waist (zf_of z0 zf) lambda0 dir) (fun t =>
  let E0 := E0_of a0 lambda0 in
  Ok {| propag_direction := IZR dir;
        E_field := combine (E0 * cos theta_pol) (E0 * sin theta_pol) (longitudinal_evaluate g) (gauss_evaluate t) |})).
(** LaguerreGaussLaser.__init__, laser_profiles.py:408-431 *)
Definition laguerre_gauss_laser (p : nat) (m : Z) (a0 waist tau z0 : R) (zf : option R) (theta_pol lambda0 cep_phase theta0 : R) (dir : Z) : res laser :=
  bind (longitudinal_init tau z0 lambda0 cep_phase 0 dir) (fun g =>
  bind (laguerre_init p m waist (zf_of z0 zf) lambda0 theta0 dir) (fun t =>
  let E0 := E0_of a0 lambda0 in
  Ok {| propag_direction := IZR dir;
        E_field := combine (E0 * cos theta_pol) (E0 * sin theta_pol) (longitudinal_evaluate g) (laguerre_evaluate t) |})).
(** DonutLikeLaguerreGaussLaser.__init__, laser_profiles.py:547-570 *)
Definition donut_laser (p : nat) (m : Z) (a0 waist tau z0 : R) (zf : option R) (theta_pol lambda0 cep_phase : R) (dir : Z) : res laser :=
  bind (longitudinal_init tau z0 lambda0 cep_phase 0 dir) (fun g =>
  bind (donut_init p m waist (zf_of z0 zf) lambda0 dir) (fun t =>
  let E0 := E0_of a0 lambda0 in
  Ok {| propag_direction := IZR dir;
        E_field := combine (E0 * cos theta_pol) (E0 * sin theta_pol) (longitudinal_evaluate g) (donut_evaluate t) |})).
(** FlattenedGaussianLaser.__init__, laser_profiles.py:672-695 *)
Definition flattened_laser (a0 w0 tau z0 : R) (N : nat) (zf : option R) (theta_pol lambda0 cep_phase : R) (dir : Z) : res laser :=
  bind (longitudinal_init tau z0 lambda0 cep_phase 0 dir) (fun g =>
  bind (flattened_init w0 N (zf_of z0 zf) lambda0 dir) (fun t =>
  let E0 := E0_of a0 lambda0 in
  Ok {| propag_direction := IZR dir;
        E_field := combine (E0 * cos theta_pol) (E0 * sin theta_pol) (longitudinal_evaluate g) (flattened_evaluate t) |})).
(** FewCycleLaser, laser_profiles.py:796-839.  [s] is what scipy.optimize.fsolve returns (external). *)
Definition few_cycle_profile (k0 zr zf z0 s dir cep_phase : R) (x y z t : R) : C :=
  let inv_q := 1 / ((dir * (z - zf))%R + Ci * zr) in
  let argument := 1 + Ci * (k0 / s)%R * ((dir * (z - z0) - c * t)%R + (0.5 * (x ^ 2 + y ^ 2))%R * inv_q) in
  Cexp (Ci * cep_phase) * Ci * zr * inv_q * Cpower argument (- s - 1).
Definition few_cycle_laser (fsolve : (R -> R) -> R -> R) (a0 waist tau_fwhm z0 : R) (zf : option R) (theta_pol lambda0 cep_phase : R) (dir : Z) : res laser :=
  if ((dir =? -1) || (dir =? 1))%Z then
    let k0 := (2 * PI / lambda0)%R in
    let zr := (0.5 * k0 * waist ^ 2)%R in
    let E0 := E0_of a0 lambda0 in
    let w_tau := (c * k0 * tau_fwhm)%R in
    let s := fsolve (fun s => s * sqrt (2 * (exp (1 / (s + 1) * ln 4) - 1)) - w_tau)%R 1%R in
    let f := few_cycle_profile k0 zr (zf_of z0 zf) z0 s (IZR dir) cep_phase in
    Ok {| propag_direction := IZR dir;
          E_field := fun x y z t => (Re ((E0 * cos theta_pol)%R * f x y z t), Re ((E0 * sin theta_pol)%R * f x y z t)) |}
  else Err AssertionError.
(** SummedLaserProfile (the operator +), laser_profiles.py:70-103 *)
Definition summed_laser (l1 l2 : laser) : res laser :=
  if Req_EM_T (propag_direction l1) (propag_direction l2) then
    Ok {| propag_direction := propag_direction l1;
          E_field := fun x y z t => let '(Ex1, Ey1) := E_field l1 x y z t in let '(Ex2, Ey2) := E_field l2 x y z t in
            (Ex1 + Ex2, Ey1 + Ey2)%R |}
  else Err AssertionError.
(** ParaxialApproximationLaser, laser_profiles.py:129-174, for a transverse profile given by its attributes k0 and
    propag_direction, its method evaluate and its squared_profile_integral. *)
Definition paraxial_laser (g : longitudinal) (t_k0 t_dir : R) (trans : R -> R -> R -> C) (trans_int E_laser theta_pol : R) : res laser :=
  if Req_EM_T (g_dir g) t_dir then
    if Req_EM_T (g_k0 g) t_k0 then
      let long_int := longitudinal_squared_integral g in
      let E0 := sqrt (2 * E_laser / (epsilon_0 * long_int * trans_int))%R in
      Ok {| propag_direction := g_dir g;
            E_field := combine (E0 * cos theta_pol) (E0 * sin theta_pol) (longitudinal_evaluate g) trans |}
    else Err AssertionError
  else Err AssertionError.
End Constants.
