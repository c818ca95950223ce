(** The spectral field solver: fields/psatd_coefs.py, fields/numba_methods.py,
    fields/spectral_grid.py, fields/fields.py. Exact (complex) arithmetic.
    Every loop is [for iz in prange(Nz): for ir in range(Nr)] and its body reads and writes the
    elements [iz, ir] only, so everything below describes one spectral mode (iz, ir), of
    wavenumbers kz (modified) and kr. The CUDA kernels (cuda_methods.py) are in GSpect_Model.v. *)
From Verif Require Import Base Fourier_Lib.
From Coq Require Import Reals.
From Coquelicot Require Import Coquelicot.
Open Scope C_scope.

(** spectral_grid.py:86-99: the value of the arrays at one mode. *)
Record mode := { Ep : C; Em : C; Ez : C; Bp : C; Bm : C; Bz : C; Jp : C; Jm : C; Jz : C;
                 rho_prev : C; rho_next : C; rho_next_z : C; rho_next_xy : C }.

Definition set_E (s : mode) (p m z : C) : mode :=
  {| Ep := p; Em := m; Ez := z; Bp := Bp s; Bm := Bm s; Bz := Bz s; Jp := Jp s; Jm := Jm s; Jz := Jz s;
     rho_prev := rho_prev s; rho_next := rho_next s; rho_next_z := rho_next_z s; rho_next_xy := rho_next_xy s |}.
Definition set_B (s : mode) (p m z : C) : mode :=
  {| Ep := Ep s; Em := Em s; Ez := Ez s; Bp := p; Bm := m; Bz := z; Jp := Jp s; Jm := Jm s; Jz := Jz s;
     rho_prev := rho_prev s; rho_next := rho_next s; rho_next_z := rho_next_z s; rho_next_xy := rho_next_xy s |}.
Definition set_J (s : mode) (p m z : C) : mode :=
  {| Ep := Ep s; Em := Em s; Ez := Ez s; Bp := Bp s; Bm := Bm s; Bz := Bz s; Jp := p; Jm := m; Jz := z;
     rho_prev := rho_prev s; rho_next := rho_next s; rho_next_z := rho_next_z s; rho_next_xy := rho_next_xy s |}.
Definition set_rho (s : mode) (prev next z xy : C) : mode :=
  {| Ep := Ep s; Em := Em s; Ez := Ez s; Bp := Bp s; Bm := Bm s; Bz := Bz s; Jp := Jp s; Jm := Jm s; Jz := Jz s;
     rho_prev := prev; rho_next := next; rho_next_z := z; rho_next_xy := xy |}.

(** psatd_coefs.py: the coefficients of one mode. [co_V]: the argument V. The last four are only
    attributes of the object when V is not None (they are then never read, see [correct_currents]
    and [push_eb_with]). The real arrays C, S_w, j_coef, ... of the standard scheme are injected
    in the complex numbers. *)
Record coefs := { co_V : option R; co_dt : R; co_C : C; co_S_w : C; co_j : C; co_rho_prev : C; co_rho_next : C;
                  co_T_eb : C; co_T_cc : C; co_T_rho : C; co_j_corr : C }.

(** current_correction: fields.py:149-152 accepts exactly these two strings (ValueError otherwise). *)
Inductive correction := CurlFree | CrossDeposition.

Section Constants.
Context (c mu_0 epsilon_0 : R).   (* scipy.constants *)

(** psatd_coefs.py:66, 67 *)
Definition omega (kz kr : R) : R := (c * sqrt (kz ^ 2 + kr ^ 2))%R.
Definition inv_w (kz kr : R) : R := (1 / (if Req_EM_T (omega kz kr) 0 then 1 else omega kz kr))%R.
(** psatd_coefs.py:70 *)
Definition coef_C (kz kr dt : R) : R := cos (omega kz kr * dt).
(** psatd_coefs.py:72-74 *)
Definition coef_S_w (kz kr dt : R) : R :=
  if Req_EM_T (omega kz kr) 0 then dt else (sin (omega kz kr * dt) * inv_w kz kr)%R.
(** psatd_coefs.py:80 *)
Definition coef_T2 (kz V dt : R) : C := cis (kz * V * dt).
(** psatd_coefs.py:81-91 *)
Definition coef_T_eb (galilean : bool) (kz V dt : R) : C := if galilean then coef_T2 kz V dt else 1.
Definition coef_T_cc (galilean : bool) (kz V dt : R) : C := if galilean then 1 else cis (0.5 * kz * V * dt).
(** psatd_coefs.py:94-100 *)
Definition coef_T_rho (galilean : bool) (kz V dt : R) : C :=
  if Req_EM_T V 0 then RtoC (- dt)
  else if Req_EM_T kz 0 then RtoC (- dt)
  else (1 - coef_T2 kz V dt) / (coef_T_cc galilean kz V dt * (Ci * kz * V)).
(** psatd_coefs.py:105-108 *)
Definition inv_w_kzV (kz kr V : R) : R :=
  (1 / (if Req_EM_T (omega kz kr ^ 2 - kz ^ 2 * V ^ 2) 0 then 1 else (omega kz kr ^ 2 - kz ^ 2 * V ^ 2)))%R.
(** psatd_coefs.py:110 *)
Definition inv_1_T2 (kz V dt : R) : C :=
  1 / (if Ceq_dec (coef_T2 kz V dt) 1 then 1 else 1 - coef_T2 kz V dt).
(** psatd_coefs.py:112-113 *)
Definition xi_1 (galilean : bool) (kz kr V dt : R) : C :=
  1 / coef_T_cc galilean kz V dt * inv_w_kzV kz kr V *
  (1 - coef_T2 kz V dt * coef_C kz kr dt + Ci * kz * V * coef_T2 kz V dt * coef_S_w kz kr dt).
(** psatd_coefs.py:115-121 *)
Definition xi_2 (kz kr V dt : R) : C :=
  if Req_EM_T kz 0 then RtoC (inv_w kz kr ^ 2 * (1 - coef_S_w kz kr dt * (1 / dt)))
  else inv_w_kzV kz kr V *
       (1 + Ci * kz * V * coef_T2 kz V dt * coef_S_w kz kr dt * inv_1_T2 kz V dt
        + RtoC (kz ^ 2 * V ^ 2 * inv_w kz kr ^ 2) * coef_T2 kz V dt * inv_1_T2 kz V dt * RtoC (1 - coef_C kz kr dt)).
(** psatd_coefs.py:123-129 *)
Definition xi_3 (galilean : bool) (kz kr V dt : R) : C :=
  if Req_EM_T kz 0 then RtoC (inv_w kz kr ^ 2 * (coef_C kz kr dt - coef_S_w kz kr dt * (1 / dt)))
  else coef_T_eb galilean kz V dt * inv_w_kzV kz kr V *
       (coef_C kz kr dt + Ci * kz * V * coef_T2 kz V dt * coef_S_w kz kr dt * inv_1_T2 kz V dt
        + RtoC (kz ^ 2 * V ^ 2 * inv_w kz kr ^ 2) * inv_1_T2 kz V dt * RtoC (1 - coef_C kz kr dt)).
(** psatd_coefs.py:132-137 *)
Definition coef_j_corr (kz V dt : R) : C :=
  if Req_EM_T V 0 then RtoC (1 / dt)
  else if Req_EM_T kz 0 then RtoC (1 / dt) else (- (Ci) * kz * V) * inv_1_T2 kz V dt.
(** psatd_coefs.py:140-145 *)
Definition coef_j (V : option R) (galilean : bool) (kz kr dt : R) : C :=
  if Req_EM_T (omega kz kr) 0 then RtoC (mu_0 * c ^ 2 * (0.5 * dt ^ 2))
  else match V with
       | None => RtoC (mu_0 * c ^ 2 * (1 - coef_C kz kr dt) * inv_w kz kr ^ 2)
       | Some V => if Req_EM_T V 0 then RtoC (mu_0 * c ^ 2 * (1 - coef_C kz kr dt) * inv_w kz kr ^ 2)
                   else RtoC (mu_0 * c ^ 2) * xi_1 galilean kz kr V dt
       end.
(** psatd_coefs.py:148-155 *)
Definition coef_rho_prev (V : option R) (galilean : bool) (kz kr dt : R) : C :=
  if Req_EM_T (omega kz kr) 0 then RtoC (c ^ 2 / epsilon_0 * (- 1 / 3 * dt ^ 2))
  else match V with
       | None => RtoC (c ^ 2 / epsilon_0 * (coef_C kz kr dt - 1 / dt * coef_S_w kz kr dt) * inv_w kz kr ^ 2)
       | Some V => if Req_EM_T V 0
                   then RtoC (c ^ 2 / epsilon_0 * (coef_C kz kr dt - 1 / dt * coef_S_w kz kr dt) * inv_w kz kr ^ 2)
                   else RtoC (c ^ 2 / epsilon_0) * xi_3 galilean kz kr V dt
       end.
(** psatd_coefs.py:157-163 *)
Definition coef_rho_next (V : option R) (galilean : bool) (kz kr dt : R) : C :=
  if Req_EM_T (omega kz kr) 0 then RtoC (c ^ 2 / epsilon_0 * (1 / 6 * dt ^ 2))
  else match V with
       | None => RtoC (c ^ 2 / epsilon_0 * (1 - 1 / dt * coef_S_w kz kr dt) * inv_w kz kr ^ 2)
       | Some V => if Req_EM_T V 0
                   then RtoC (c ^ 2 / epsilon_0 * (1 - 1 / dt * coef_S_w kz kr dt) * inv_w kz kr ^ 2)
                   else RtoC (c ^ 2 / epsilon_0) * xi_2 kz kr V dt
       end.
(** psatd_coefs.py:20-163 PsatdCoeffs.__init__ *)
Definition psatd_coeffs (V : option R) (galilean : bool) (kz kr dt : R) : coefs :=
  {| co_V := V; co_dt := dt; co_C := RtoC (coef_C kz kr dt); co_S_w := RtoC (coef_S_w kz kr dt);
     co_j := coef_j V galilean kz kr dt; co_rho_prev := coef_rho_prev V galilean kz kr dt;
     co_rho_next := coef_rho_next V galilean kz kr dt;
     co_T_eb := match V with None => 0 | Some V => coef_T_eb galilean kz V dt end;
     co_T_cc := match V with None => 0 | Some V => coef_T_cc galilean kz V dt end;
     co_T_rho := match V with None => 0 | Some V => coef_T_rho galilean kz V dt end;
     co_j_corr := match V with None => 0 | Some V => coef_j_corr kz V dt end |}.

(** spectral_grid.py:117-120; the attribute inv_k2 exists with 'curl-free' only. *)
Definition inv_k2 (cc : correction) (kz kr : R) : option R :=
  match cc with
  | CurlFree => Some (if Req_EM_T kz 0 then if Req_EM_T kr 0 then 0%R else (1 / (kz ^ 2 + kr ^ 2))%R
                      else (1 / (kz ^ 2 + kr ^ 2))%R)
  | CrossDeposition => None
  end.

(** numba_methods.py:63-85 numba_correct_currents_curlfree_standard *)
Definition curlfree_standard (kz kr ik2 inv_dt : R) (s : mode) : mode :=
  let F := - (RtoC ik2) * ((rho_next s - rho_prev s) * inv_dt + Ci * kz * Jz s + kr * (Jp s - Jm s)) in
  set_J s (Jp s + 0.5 * kr * F) (Jm s + - (0.5) * kr * F) (Jz s + - (Ci) * kz * F).
(** numba_methods.py:87-116 numba_correct_currents_crossdeposition_standard *)
Definition crossdeposition_standard (kz kr inv_dt : R) (s : mode) : mode :=
  let Dz := Ci * kz * Jz s + 0.5 * inv_dt * (rho_next s - rho_next_xy s + rho_next_z s - rho_prev s) in
  let Dxy := kr * (Jp s - Jm s) + 0.5 * inv_dt * (rho_next s - rho_next_z s + rho_next_xy s - rho_prev s) in
  set_J s (if Req_EM_T kr 0 then Jp s else Jp s + - (0.5) * Dxy * RtoC (1 / kr))
          (if Req_EM_T kr 0 then Jm s else Jm s + 0.5 * Dxy * RtoC (1 / kr))
          (if Req_EM_T kz 0 then Jz s else Jz s + Ci * Dz * RtoC (1 / kz)).
(** numba_methods.py:216-240 numba_correct_currents_curlfree_comoving *)
Definition curlfree_comoving (kz kr ik2 : R) (j_corr T_eb T_cc : C) (s : mode) : mode :=
  let F := - (RtoC ik2) * (T_cc * j_corr * (rho_next s - rho_prev s * T_eb) + Ci * kz * Jz s + kr * (Jp s - Jm s)) in
  set_J s (Jp s + 0.5 * kr * F) (Jm s + - (0.5) * kr * F) (Jz s + - (Ci) * kz * F).
(** numba_methods.py:242-275 numba_correct_currents_crossdeposition_comoving *)
Definition crossdeposition_comoving (kz kr : R) (j_corr T_eb T_cc : C) (s : mode) : mode :=
  let Dz := Ci * kz * Jz s + 0.5 * T_cc * j_corr *
              (rho_next s - T_eb * rho_next_xy s + rho_next_z s - T_eb * rho_prev s) in
  let Dxy := kr * (Jp s - Jm s) + 0.5 * T_cc * j_corr *
              (rho_next s + T_eb * rho_next_xy s - rho_next_z s - T_eb * rho_prev s) in
  set_J s (if Req_EM_T kr 0 then Jp s else Jp s + - (0.5) * Dxy * RtoC (1 / kr))
          (if Req_EM_T kr 0 then Jm s else Jm s + 0.5 * Dxy * RtoC (1 / kr))
          (if Req_EM_T kz 0 then Jz s else Jz s + Ci * Dz * RtoC (1 / kz)).

(** spectral_grid.py:198-296 correct_currents (CPU branch); the argument [current_correction] is
    the one given to the constructor (fields.py:149-152, 300-302). *)
Definition correct_currents (dt : R) (ps : coefs) (cc : correction) (kz kr : R) (s : mode) : mode :=
  let inv_dt := (1 / dt)%R in
  match co_V ps, inv_k2 cc kz kr with
  | None, Some ik2 => curlfree_standard kz kr ik2 inv_dt s
  | None, None => crossdeposition_standard kz kr inv_dt s
  | Some _, Some ik2 => curlfree_comoving kz kr ik2 (co_j_corr ps) (co_T_eb ps) (co_T_cc ps) s
  | Some _, None => crossdeposition_comoving kz kr (co_j_corr ps) (co_T_eb ps) (co_T_cc ps) s
  end.

(** numba_methods.py:118-185 numba_push_eb_standard. c2 = c**2 (numba_methods.py:11). *)
Definition push_eb_standard (ps : coefs) (use_true_rho : bool) (kz kr : R) (s : mode) : mode :=
  let c2 := RtoC (c ^ 2) in
  let rho_diff :=
    if use_true_rho then co_rho_next ps * rho_next s - co_rho_prev ps * rho_prev s
    else let divE := kr * (Ep s - Em s) + Ci * kz * Ez s in
         let divJ := kr * (Jp s - Jm s) + Ci * kz * Jz s in
         (co_rho_next ps - co_rho_prev ps) * epsilon_0 * divE - co_rho_next ps * co_dt ps * divJ in
  let Cw := co_C ps in let S_w := co_S_w ps in let j_coef := co_j ps in
  let s1 := set_E s
    (Cw * Ep s + 0.5 * kr * rho_diff + c2 * S_w * (- (Ci) * 0.5 * kr * Bz s + kz * Bp s - mu_0 * Jp s))
    (Cw * Em s - 0.5 * kr * rho_diff + c2 * S_w * (- (Ci) * 0.5 * kr * Bz s - kz * Bm s - mu_0 * Jm s))
    (Cw * Ez s - Ci * kz * rho_diff + c2 * S_w * (Ci * kr * Bp s + Ci * kr * Bm s - mu_0 * Jz s)) in
  set_B s1
    (Cw * Bp s - S_w * (- (Ci) * 0.5 * kr * Ez s + kz * Ep s) + j_coef * (- (Ci) * 0.5 * kr * Jz s + kz * Jp s))
    (Cw * Bm s - S_w * (- (Ci) * 0.5 * kr * Ez s - kz * Em s) + j_coef * (- (Ci) * 0.5 * kr * Jz s - kz * Jm s))
    (Cw * Bz s - S_w * (Ci * kr * Ep s + Ci * kr * Em s) + j_coef * (Ci * kr * Jp s + Ci * kr * Jm s)).

(** numba_methods.py:277-355 numba_push_eb_comoving *)
Definition push_eb_comoving (ps : coefs) (V : R) (use_true_rho : bool) (kz kr : R) (s : mode) : mode :=
  let c2 := RtoC (c ^ 2) in let T_eb := co_T_eb ps in let T_cc := co_T_cc ps in
  let rho_diff :=
    if use_true_rho then co_rho_next ps * rho_next s - co_rho_prev ps * rho_prev s
    else let divE := kr * (Ep s - Em s) + Ci * kz * Ez s in
         let divJ := kr * (Jp s - Jm s) + Ci * kz * Jz s in
         (T_eb * co_rho_next ps - co_rho_prev ps) * epsilon_0 * divE + co_T_rho ps * co_rho_next ps * divJ in
  let Cw := co_C ps in let S_w := co_S_w ps in let j_coef := co_j ps in
  let s1 := set_E s
    (T_eb * Cw * Ep s + 0.5 * kr * rho_diff + j_coef * Ci * kz * V * Jp s
       + c2 * T_eb * S_w * (- (Ci) * 0.5 * kr * Bz s + kz * Bp s - mu_0 * T_cc * Jp s))
    (T_eb * Cw * Em s - 0.5 * kr * rho_diff + j_coef * Ci * kz * V * Jm s
       + c2 * T_eb * S_w * (- (Ci) * 0.5 * kr * Bz s - kz * Bm s - mu_0 * T_cc * Jm s))
    (T_eb * Cw * Ez s - Ci * kz * rho_diff + j_coef * Ci * kz * V * Jz s
       + c2 * T_eb * S_w * (Ci * kr * Bp s + Ci * kr * Bm s - mu_0 * T_cc * Jz s)) in
  set_B s1
    (T_eb * Cw * Bp s - T_eb * S_w * (- (Ci) * 0.5 * kr * Ez s + kz * Ep s) + j_coef * (- (Ci) * 0.5 * kr * Jz s + kz * Jp s))
    (T_eb * Cw * Bm s - T_eb * S_w * (- (Ci) * 0.5 * kr * Ez s - kz * Em s) + j_coef * (- (Ci) * 0.5 * kr * Jz s - kz * Jm s))
    (T_eb * Cw * Bz s - T_eb * S_w * (Ci * kr * Ep s + Ci * kr * Em s) + j_coef * (Ci * kr * Jp s + Ci * kr * Jm s)).

(** spectral_grid.py:316-405 push_eb_with (CPU branch, without PML: the split PML fields are
    separate arrays that the push of the regular fields does not read). *)
Definition push_eb_with (ps : coefs) (use_true_rho : bool) (kz kr : R) (s : mode) : mode :=
  match co_V ps with
  | None => push_eb_standard ps use_true_rho kz kr s
  | Some V => push_eb_comoving ps V use_true_rho kz kr s
  end.

(** spectral_grid.py:407-421 push_rho *)
Definition push_rho (s : mode) : mode := set_rho s (rho_next s) 0 (rho_next_z s) (rho_next_xy s).
(** fields.py:247-276 push, for one azimuthal mode (the assertions on [exchanged_source] are
    modelled in Step_Model). *)
Definition push (ps : coefs) (use_true_rho : bool) (kz kr : R) (s : mode) : mode :=
  push_rho (push_eb_with ps use_true_rho kz kr s).

(** spectral_grid.py:299-314 correct_divE; reading [self.inv_k2] raises AttributeError when the
    constructor has not set it. *)
Definition correct_divE (cc : correction) (kz kr : R) (s : mode) : res mode :=
  match inv_k2 cc kz kr with
  | None => Err AttributeError
  | Some ik2 =>
    let F := - (RtoC ik2) * (- rho_prev s / epsilon_0 + Ci * kz * Ez s + kr * (Ep s - Em s)) in
    Ok (set_E s (Ep s + 0.5 * kr * F) (Em s + - (0.5) * kr * F) (Ez s + - (Ci) * kz * F))
  end.

(** The sources that one iteration of the PIC loop deposits (main.py:511-528), at one mode. *)
Record sources := { s_Jp : C; s_Jm : C; s_Jz : C; s_rho : C; s_rho_z : C; s_rho_xy : C }.
Definition load_sources (x : sources) (s : mode) : mode :=
  set_rho (set_J s (s_Jp x) (s_Jm x) (s_Jz x)) (rho_prev s) (s_rho x) (s_rho_z x) (s_rho_xy x).

(** main.py:509-544: the part of one iteration of [Simulation.step] that acts on a spectral mode,
    between the deposition and the boundaries; one MPI rank. [corr]: correct_currents. *)
Definition field_step (ps : coefs) (cc : correction) (use_true_rho corr divE_corr : bool) (kz kr : R)
  (x : sources) (s : mode) : res mode :=
  let s := load_sources x s in
  let s := if corr then correct_currents (co_dt ps) ps cc kz kr s else s in
  let s := push ps use_true_rho kz kr s in
  if divE_corr then correct_divE cc kz kr s else Ok s.
(** The loop of main.py:421 over the iterations, on that part. *)
Fixpoint field_steps (ps : coefs) (cc : correction) (use_true_rho corr divE_corr : bool) (kz kr : R)
  (xs : list sources) (s : mode) : res mode :=
  match xs with
  | nil => Ok s
  | cons x xs => bind (field_step ps cc use_true_rho corr divE_corr kz kr x s)
                      (field_steps ps cc use_true_rho corr divE_corr kz kr xs)
  end.
End Constants.

(** main.py:1040-1044 reverse_time, on one spectral mode. *)
Definition flip_B (s : mode) : mode := set_B s (- Bp s) (- Bm s) (- Bz s).
