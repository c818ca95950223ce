(** Laser pulse with a spectrum read from a file:
    /repo/fbpic/lpa_utils/laser/longitudinal_laser_profiles.py:190-354
    (CustomSpectrumLongitudinalProfile). Real arithmetic. The FFT, trapz, interp1d are the textbook operations that
    numpy and scipy document; polyfit is a parameter (its specification is in Spectrum_Spec.v). *)
From Coq Require Import ZArith List Reals.
From Coquelicot Require Import Complex.
From Flocq Require Import Core.
From Verif Require Import Base Fourier_Lib Deposit_Spec.
Import ListNotations.
Open Scope R_scope.

(** One line of the file, longitudinal_laser_profiles.py:265-271: wavelength, intensity and phase. *)
Record row := mk_row { r_lam : R; r_int : R; r_ph : R }.

(** numpy.trapz over a list of (x, y), used at longitudinal_laser_profiles.py:281-282, 334-335. *)
Fixpoint trapz (l : list (R * R)) : R :=
  match l with
  | p :: ((q :: _) as l') => (fst q - fst p) * (snd p + snd q) / 2 + trapz l'
  | _ => 0
  end.

Section Interp.
Context {V : Type} (fill : V) (lin : R -> V -> R -> V -> R -> V).
(** scipy.interpolate.interp1d sorts the abscissae (assume_sorted=False is its default);
    used at longitudinal_laser_profiles.py:296-300, 329-331. *)
Fixpoint insert (p : R * V) (l : list (R * V)) : list (R * V) :=
  match l with
  | [] => [p]
  | q :: l' => if Rle_dec (fst p) (fst q) then p :: l else q :: insert p l'
  end.
(** interp1d: sort of the abscissae, longitudinal_laser_profiles.py:296-300, 329-331 *)
Definition isort (l : list (R * V)) : list (R * V) := fold_right insert [] l.
(** interp1d, kind='linear': the interval is the first one whose right end is not below x (searchsorted, clipped);
    longitudinal_laser_profiles.py:296-300, 329-331 *)
Fixpoint interp_sorted (l : list (R * V)) (x : R) : V :=
  match l with
  | p :: ((q :: l'') as l') =>
      match l'' with
      | [] => lin (fst p) (snd p) (fst q) (snd q) x
      | _ => if Rle_dec x (fst q) then lin (fst p) (snd p) (fst q) (snd q) x else interp_sorted l' x
      end
  | _ => fill
  end.
(** interp1d(..., fill_value=0, bounds_error=False): the fill value outside of the data;
    longitudinal_laser_profiles.py:296-300, 329-331 *)
Definition interp1d (l : list (R * V)) (x : R) : V :=
  let s := isort l in
  if Rlt_dec x (fst (hd (0, fill) s)) then fill
  else if Rlt_dec (fst (last s (0, fill))) x then fill
  else interp_sorted s x.
End Interp.
(** interp1d, kind='linear': slope*(x - x_lo) + y_lo, real values (longitudinal_laser_profiles.py:296-300) *)
Definition linR (x0 y0 x1 y1 x : R) : R := (y1 - y0) / (x1 - x0) * (x - x0) + y0.
(** interp1d, kind='linear': slope*(x - x_lo) + y_lo, complex values (longitudinal_laser_profiles.py:329-331) *)
Definition linC (x0 : R) (y0 : C) (x1 : R) (y1 : C) (x : R) : C :=
  Cplus (Cmult (Cdiv (Cminus y1 y0) (RtoC (x1 - x0))) (RtoC (x - x0))) y0.

(** numpy.fft.fftfreq, used at longitudinal_laser_profiles.py:310 *)
Definition fftfreq (n : Z) (d : R) (k : Z) : R :=
  IZR (if (k <? (n - 1) / 2 + 1)%Z then k else (k - n)%Z) * (1 / (IZR n * d)).
(** numpy.fft.fft, used at longitudinal_laser_profiles.py:316 *)
Definition np_fft (n : Z) (f : Z -> C) (j : Z) : C :=
  lsum (fun k => Cmult (cis (- (2 * PI * IZR (j * k) / IZR n))) (f k)) (range n).
(** numpy.fft.fftshift: element i of the input goes to (i + n//2) mod n; longitudinal_laser_profiles.py:316 *)
Definition fftshift {V} (n : Z) (f : Z -> V) (j : Z) : V := f ((j - n / 2) mod n)%Z.
(** abs(...).max(), longitudinal_laser_profiles.py:318 *)
Definition max_abs (n : Z) (f : Z -> C) : R := fold_right Rmax 0 (map (fun j => Cmod (f j)) (range n)).

Section Profile.
(** [c]: the speed of light; [polyfit]: numpy.polyfit(x, y, 4), highest power first. *)
Context (c : R) (polyfit : list (R * R) -> R * R * R * R * R).

(** longitudinal_laser_profiles.py:268-271: a file of two columns has no phase *)
Definition load (three : bool) (rows : list row) : list row :=
  if three then rows else map (fun r => mk_row (r_lam r) (r_int r) 0) rows.
(** longitudinal_laser_profiles.py:272 *)
Definition omega_axis (r : row) : R := 2 * PI * c / r_lam r.
(** longitudinal_laser_profiles.py:274-278 *)
Definition unslope (subtract : bool) (rows : list row) : list row :=
  if subtract then
    let '(_, _, _, a1, _) := polyfit (map (fun r => (omega_axis r, r_ph r)) rows) in
    map (fun r => mk_row (r_lam r) (r_int r) (r_ph r - omega_axis r * a1)) rows
  else rows.
(** longitudinal_laser_profiles.py:281-282 and 337-341 get_mean_wavelength *)
Definition lambda0 (rows : list row) : R :=
  trapz (map (fun r => (r_lam r, r_lam r * r_int r)) rows) * 1 / trapz (map (fun r => (r_lam r, r_int r)) rows).
(** longitudinal_laser_profiles.py:283 *)
Definition k0 (rows : list row) : R := 2 * PI / lambda0 rows.
(** longitudinal_laser_profiles.py:286-291 *)
Definition chirp (phi2 phi3 phi4 : R) (k : R) (r : row) : R :=
  r_ph r + 1 / 2 * phi2 * (omega_axis r - k * c) ^ 2 + 1 / 6 * phi3 * (omega_axis r - k * c) ^ 3
  + 1 / 24 * phi4 * (omega_axis r - k * c) ^ 4.

(** The arguments of the constructor, longitudinal_laser_profiles.py:194-198 *)
Record args := mk_args
  { a_z0 : R; a_phi2 : R; a_phi3 : R; a_phi4 : R; a_sub : bool; a_prop : Z; a_three : bool; a_rows : list row }.

(** longitudinal_laser_profiles.py:266-278: the data after the subtraction of the slope *)
Definition data (a : args) : list row := unslope (a_sub a) (load (a_three a) (a_rows a)).
(** longitudinal_laser_profiles.py:281-283 for these arguments *)
Definition lam0 (a : args) : R := lambda0 (data a).
(** longitudinal_laser_profiles.py:296-298 *)
Definition inten_fn (a : args) : R -> R :=
  interp1d 0 linR (map (fun r => (omega_axis r, r_int r * r_lam r ^ 2)) (data a)).
(** longitudinal_laser_profiles.py:286-291, 299-300 *)
Definition phase_fn (a : args) : R -> R :=
  interp1d 0 linR (map (fun r => (omega_axis r, chirp (a_phi2 a) (a_phi3 a) (a_phi4 a) (k0 (data a)) r)) (data a)).
(** longitudinal_laser_profiles.py:303-304 *)
Definition dt (a : args) : R := lam0 a / 1000 / c.
(** longitudinal_laser_profiles.py:303, 305 *)
Definition time_window (a : args) : R := lam0 a * lam0 a / c / (lam0 a / 1000).
(** longitudinal_laser_profiles.py:306 (numpy.round: to nearest, ties to even) *)
Definition Nt (a : args) : Z := ZnearestE (time_window a / dt a).
(** longitudinal_laser_profiles.py:309 *)
Definition time_arr (a : args) (j : Z) : R := - (5 / 10) * time_window a + dt a * IZR j.
(** longitudinal_laser_profiles.py:310 *)
Definition omega_arr (a : args) (k : Z) : R := 2 * PI * fftfreq (Nt a) (dt a) k.
(** longitudinal_laser_profiles.py:314-315 *)
Definition spectral_field (a : args) (w : R) : C := Cmult (RtoC (sqrt (inten_fn a w))) (cis (phase_fn a w)).
(** longitudinal_laser_profiles.py:314-316 *)
Definition raw_field (a : args) (j : Z) : C :=
  fftshift (Nt a) (np_fft (Nt a) (fun k => spectral_field a (omega_arr a k))) j.
(** longitudinal_laser_profiles.py:318. (A maximum of 0 gives NaN in the code; the theorems show when it is not 0.) *)
Definition temporal_field (a : args) (j : Z) : C := Cdiv (raw_field a j) (RtoC (max_abs (Nt a) (raw_field a))).
(** longitudinal_laser_profiles.py:329-331 and 349-354 evaluate *)
Definition evaluate (a : args) (z t : R) : C :=
  interp1d (RtoC 0) linC
    (map (fun j => (IZR (a_prop a) * a_z0 a - c * time_arr a j, temporal_field a j)) (range (Nt a)))
    (IZR (a_prop a) * z - c * t).
(** longitudinal_laser_profiles.py:334-335 and 343-347 squared_profile_integral *)
Definition squared_profile_integral (a : args) : R :=
  trapz (map (fun j => (c * time_arr a j, Cmod (temporal_field a j) ^ 2)) (range (Nt a))).
(** LaserLongitudinalProfile.__init__ (longitudinal_laser_profiles.py:42-44): the assertion on the direction *)
Definition init (a : args) : res args :=
  if ((a_prop a =? 1) || (a_prop a =? -1))%Z then Ok a else Err AssertionError.
End Profile.
