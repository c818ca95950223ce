(** Compton scattering: particles/elementary_process/compton/{compton,numba_methods,inline_functions}.py
    and elementary_process/cuda_numba_utils.py. Exact arithmetic. The CUDA versions
    (cuda_methods.py) differ only by one thread per batch instead of a loop and by the generator. *)
From Verif Require Import Base Sort_Model Ionize_Model.
From Coq Require Import Reals.
From Flocq Require Import Core.Core.
Open Scope R_scope.

(** (p, px, py, pz), as the four variables of the code. *)
Record fourmom := { p0 : R; p1 : R; p2 : R; p3 : R }.
(** The attributes of a macroparticle that are read or written here (the fields of the new photons,
    Ex, ..., Bz, are left unset by the code and are not represented). *)
Record cp := { cx : R; cy : R; cz : R; cux : R; cuy : R; cuz : R; cig : R; cw : R }.

(** inline_functions.py:17-40 lorentz_transform *)
Definition lorentz_transform (p : fourmom) (gamma beta nx ny nz : R) : fourmom :=
  let par_in := nx * p1 p + ny * p2 p + nz * p3 p in
  let p_out := gamma * (p0 p - beta * par_in) in
  let par_out := gamma * (par_in - beta * p0 p) in
  {| p0 := p_out; p1 := p1 p + nx * (par_out - par_in);
     p2 := p2 p + ny * (par_out - par_in); p3 := p3 p + nz * (par_out - par_in) |}.

(** inline_functions.py:74-78, the Klein-Nishina cross-section divided by PI_RE_2 *)
Definition klein_nishina (k : R) : R :=
  let f1 := 2 * (2 + k * (1 + k) * (8 + k)) / (k ^ 2 * (1 + 2 * k) ^ 2) in
  let f2 := (2 + k * (2 - k)) * ln (1 + 2 * k) / k ^ 3 in
  f1 - f2.

(** inline_functions.py:87-125 get_photon_density_gaussian *)
Definition get_photon_density_gaussian (elec_x elec_y elec_z ct photon_n_lab_max inv_laser_waist2
    inv_laser_ctau2 laser_initial_z0 gamma_boost beta_boost : R) : R :=
  let elec_zlab := gamma_boost * (elec_z + beta_boost * ct) in
  let elec_ctlab := gamma_boost * (ct + beta_boost * elec_z) in
  let photon_n_lab := photon_n_lab_max * exp (- 2 * inv_laser_waist2 * (elec_x ^ 2 + elec_y ^ 2)
        - 2 * inv_laser_ctau2 * (elec_zlab - laser_initial_z0 + elec_ctlab) ^ 2) in
  gamma_boost * photon_n_lab * (1 + beta_boost).

(** compton.py:104-118, the incident photon in the frame of the simulation. *)
Definition incident_photon (h laser_wavelength gamma_boost beta_boost : R) : fourmom :=
  let lab_px := 0 in let lab_py := 0 in let lab_pz := - h / laser_wavelength in
  let lab_p := sqrt (lab_px ^ 2 + lab_py ^ 2 + lab_pz ^ 2) in
  let pz := gamma_boost * (lab_pz - beta_boost * lab_p) in
  {| p0 := sqrt (lab_px ^ 2 + lab_py ^ 2 + pz ^ 2); p1 := lab_px; p2 := lab_py; p3 := pz |}.

Section C.
(** Constants (inline_functions.py:10-14): c, PI_RE_2 and m_e*c; the incident photon; the ratio of
    the weights (compton.py:92-94). *)
Context (c PI_RE_2 mc : R) (beam : fourmom) (ratio : R).
Let INV_MC := 1 / mc.
Let inv_ratio := 1 / ratio.

(** inline_functions.py:43-84 get_scattering_probability, with photon_beta of compton.py:119-121 *)
Definition get_scattering_probability (dt : R) (a : cp) (photon_n : R) : R :=
  let bx := p1 beam / p0 beam in let by_ := p2 beam / p0 beam in let bz := p3 beam / p0 beam in
  let elec_gamma := 1 / cig a in
  let transform_factor := elec_gamma - cux a * bx - cuy a * by_ - cuz a * bz in
  let photon_n_rest := photon_n * transform_factor in
  let photon_p_rest := p0 beam * transform_factor in
  let k := photon_p_rest * INV_MC in
  let sigma := PI_RE_2 * klein_nishina k in
  let proper_dt_rest := dt * cig a in
  1 - exp (- sigma * photon_n_rest * c * proper_dt_rest).

(** numba_methods.py:140-155: gamma, beta and direction of the electron *)
Definition elec_gamma (a : cp) : R := 1 / cig a.
Definition elec_u (a : cp) : R := sqrt (cux a ^ 2 + cuy a ^ 2 + cuz a ^ 2).
Definition elec_beta (a : cp) : R := elec_u a * cig a.
Definition elec_n (a : cp) : R * R * R :=
  if Req_EM_T (elec_u a) 0 then (0, 0, 1)
  else let inv_u := 1 / elec_u a in (inv_u * cux a, inv_u * cuy a, inv_u * cuz a).
(** numba_methods.py:157-161 *)
Definition to_rest (a : cp) : fourmom :=
  let '(nx, ny, nz) := elec_n a in lorentz_transform beam (elec_gamma a) (elec_beta a) nx ny nz.
(** numba_methods.py:164-175: cos_theta, sin_theta, cos_phi, sin_phi *)
Definition angles (P : fourmom) : R * R * R * R :=
  let cos_theta := p3 P / p0 P in
  if Rlt_dec (cos_theta ^ 2) 1 then
    let sin_theta := sqrt (1 - cos_theta ^ 2) in
    let inv_pxy := 1 / (sin_theta * p0 P) in
    (cos_theta, sin_theta, p1 P * inv_pxy, p2 P * inv_pxy)
  else (cos_theta, 0, 1, 0).

(** numba_methods.py:184-202: rejection loop. [draws] is the sequence of pairs (r1, r2) drawn;
    [None]: all of them are rejected (the loop goes on). r1 appears as an exponent of a positive number. *)
Fixpoint sample_x (k : R) (draws : list (R * R)) : option R :=
  match draws with
  | [] => None
  | (r1, r2) :: rest =>
      let c0 := 2 * (2 * k ^ 2 + 2 * k + 1) / (2 * k + 1) ^ 3 in
      let b := (2 + c0) / (2 - c0) in
      let a := 2 * b - 1 in
      let x := b - (b + 1) * Rpower (/ 2 * c0) r1 in
      let h := a / (b - x) in
      let factor := 1 + k * (1 - x) in
      let f := ((1 + x ^ 2) * factor + k ^ 2 * (1 - x) ^ 2) / factor ^ 3 in
      if Rlt_dec r2 (f / h) then Some x else sample_x k rest
  end.

(** numba_methods.py:205-223: the scattered photon in the rest frame *)
Definition rest_scattered (P : fourmom) (x phi_draw : R) : fourmom :=
  let k := p0 P * INV_MC in
  let '(cos_theta, sin_theta, cos_phi, sin_phi) := angles P in
  let new_p := p0 P / (1 + k * (1 - x)) in
  let cos_theta_s := x in
  let sin_theta_s := sqrt (1 - x ^ 2) in
  let phi_s := 2 * PI * phi_draw in
  let pX := new_p * sin_theta_s * cos phi_s in
  let pY := new_p * sin_theta_s * sin phi_s in
  let pZ := new_p * cos_theta_s in
  {| p0 := new_p;
     p1 := sin_theta * cos_phi * pZ + cos_theta * cos_phi * pX - sin_phi * pY;
     p2 := sin_theta * sin_phi * pZ + cos_theta * sin_phi * pX + cos_phi * pY;
     p3 := cos_theta * pZ - sin_theta * pX |}.
(** numba_methods.py:225-231 *)
Definition from_rest (a : cp) (Q : fourmom) : fourmom :=
  let '(nx, ny, nz) := elec_n a in lorentz_transform Q (elec_gamma a) (elec_beta a) (- nx) (- ny) (- nz).
(** numba_methods.py:178-231, one scattering *)
Definition scatter_one (a : cp) (draws : list (R * R)) (phi_draw : R) : option fourmom :=
  let P := to_rest a in
  match sample_x (p0 P * INV_MC) draws with
  | None => None
  | Some x => Some (from_rest a (rest_scattered P x phi_draw))
  end.
(** numba_methods.py:233-245 *)
Definition photon_of (a : cp) (q : fourmom) : cp :=
  {| cx := cx a; cy := cy a; cz := cz a; cux := p1 q; cuy := p2 q; cuz := p3 q;
     cig := 1 / p0 q; cw := cw a * inv_ratio |}.
(** numba_methods.py:260-264 *)
Definition recoil (a : cp) (q : fourmom) : cp :=
  {| cx := cx a; cy := cy a; cz := cz a;
     cux := cux a + INV_MC * (p1 beam - p1 q); cuy := cuy a + INV_MC * (p2 beam - p2 q);
     cuz := cuz a + INV_MC * (p3 beam - p3 q); cig := cig a; cw := cw a |}.

(** The random numbers of a step: for the count, for each scattering (i_elec, i_scat), and for the recoil. *)
Context (draw_n : Z -> R) (draws : Z -> Z -> list (R * R)) (draw_phi : Z -> Z -> R) (draw_recoil : Z -> R).
Open Scope Z_scope.
Context (Ntot batch_size : Z).

(** numba_methods.py:86-92; Python int() truncates. *)
Definition nscatter (dt : R) (photon_n : Z -> R) (elec : Z -> cp) (ip : Z) : Z :=
  Ztrunc (get_scattering_probability dt (elec ip) (photon_n ip) * ratio + draw_n ip)%R.
(** numba_methods.py:54-103 determine_scatterings_numba: one batch. The state is the pair
    (nscatter_per_elec, nscatter_per_batch). *)
Definition determine_batch (dt : R) (photon_n : Z -> R) (elec : Z -> cp) (s : (Z -> Z) * (Z -> Z)) (i_batch : Z)
  : (Z -> Z) * (Z -> Z) :=
  fold_left (fun '(per_elec, per_batch) ip =>
      let n := nscatter dt photon_n elec ip in
      (upd (upd per_elec (ip, 0)) (ip, n), upd per_batch (i_batch, per_batch i_batch + n)))
    (batch_ips Ntot batch_size i_batch) (fst s, upd (snd s) (i_batch, 0)).
(** The parallel loop over the batches, whose bodies touch different elements, as a sequential one. *)
Definition determine_scatterings dt photon_n elec (N_batch : Z) (s : (Z -> Z) * (Z -> Z)) : (Z -> Z) * (Z -> Z) :=
  fold_left (determine_batch dt photon_n elec) (range N_batch) s.

(** numba_methods.py:178-248, the loop over i_scat of an electron: photons emitted, in order. *)
Definition emitted (a : cp) (i n : Z) : option (list fourmom) :=
  fold_left (fun acc i_scat =>
      match acc, scatter_one a (draws i i_scat) (draw_phi i i_scat) with
      | Some l, Some q => Some (l ++ [q])
      | _, _ => None
      end) (range n) (Some []).
(** Writes of this loop in the photon arrays, and i_photon after it. *)
Fixpoint write_photons (a : cp) (i_photon : Z) (l : list fourmom) : Z * list (Z * option cp) :=
  match l with
  | [] => (i_photon, [])
  | q :: l => let '(i', ws) := write_photons a (i_photon + 1) l in (i', (i_photon, Some (photon_of a q)) :: ws)
  end.
(** numba_methods.py:135-264, body of the loop over i_elec. State: i_photon, writes made so far
    in the photon arrays, electron arrays. *)
Definition scatter_elec (per_elec : Z -> Z) (st : option (Z * list (Z * option cp) * (Z -> cp))) (i : Z)
  : option (Z * list (Z * option cp) * (Z -> cp)) :=
  match st with
  | None => None
  | Some (i_photon, ws, elec) =>
      match emitted (elec i) i (per_elec i) with
      | None => None
      | Some l =>
          let '(i_photon', ws') := write_photons (elec i) i_photon l in
          let elec' :=
            if per_elec i >? 0 then
              if Rlt_dec (draw_recoil i) inv_ratio then upd elec (i, recoil (elec i) (last l beam)) else elec
            else elec in
          Some (i_photon', ws ++ ws', elec')
      end
  end.
(** numba_methods.py:127-135, one batch *)
Definition scatter_batch (per_elec : Z -> Z) (old_Ntot : Z) (cumul : Z -> Z)
  (st : option (list (Z * option cp) * (Z -> cp))) (i_batch : Z) : option (list (Z * option cp) * (Z -> cp)) :=
  match st with
  | None => None
  | Some (ws, elec) =>
      match fold_left (scatter_elec per_elec) (batch_ips Ntot batch_size i_batch) (Some (old_Ntot + cumul i_batch, ws, elec)) with
      | None => None
      | Some (_, ws', elec') => Some (ws', elec')
      end
  end.
(** numba_methods.py:107-264 scatter_photons_electrons_numba; parallel loop over the batches as a
    sequential one. *)
Definition scatter_photons_electrons per_elec old_Ntot cumul (N_batch : Z) (elec : Z -> cp) :=
  fold_left (scatter_batch per_elec old_Ntot cumul) (range N_batch) (Some ([], elec)).

(** cuda_numba_utils.py:30-43 perform_cumsum *)
Definition perform_cumsum (a : Z -> Z) (b : Z) : Z := fold_left (fun acc b' => acc + a b') (range b) 0.

(** A species: number of particles and arrays ([None]: never filled). *)
Definition cstore := (Z * (Z -> option cp))%type.
(** cuda_numba_utils.py:65-124 reallocate_and_copy_old *)
Definition realloc (st : cstore) (i : Z) : option cp := if (0 <=? i) && (i <? fst st) then snd st i else None.

(** compton.py:138-240 handle_scattering, CPU. [garbage]: content of the freshly allocated arrays
    (lines 160-161). Line 155 [int(Ntot/batch_size)]: exact quotient (a rounding up of the float
    division would only add an empty batch). The new ids (line 240) are modelled in Track_Model.
    Result: electrons, photons; [None]: a rejection loop has not ended with the given draws. *)
Definition handle_scattering (dt : R) (photon_n : Z -> R) (garbage : (Z -> Z) * (Z -> Z)) (elec : Z -> cp) (photons : cstore)
  : option ((Z -> cp) * cstore) :=
  let N_batch := Z.quot Ntot batch_size + 1 in
  let '(per_elec, per_batch) := determine_scatterings dt photon_n elec N_batch garbage in
  let cumul := perform_cumsum per_batch in
  let N_created := cumul N_batch in
  if N_created =? 0 then Some (elec, photons) else
  let old_Ntot := fst photons in
  let new_Ntot := old_Ntot + N_created in
  match scatter_photons_electrons per_elec old_Ntot cumul N_batch elec with
  | None => None
  | Some (ws, elec') => Some (elec', (new_Ntot, apply_writes (realloc photons) ws))
  end.
End C.
