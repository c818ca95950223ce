(** The split fields of the radial perfectly matched layer (PML): fields/spectral_grid.py,
    fields/numba_methods.py, fields/fields.py. Exact (complex) arithmetic, one spectral mode (iz, ir), as in
    Psatd_Model. The CUDA kernels (cuda_methods.py) are in GSpect_Model.v. *)
From Verif Require Import Base Fourier_Lib Psatd_Model.
From Coq Require Import Reals.
From Coquelicot Require Import Coquelicot.
Open Scope C_scope.

(** spectral_grid.py:101-106: the additional arrays of a grid with [use_pml], at one mode. *)
Record pml := { Ep_pml : C; Em_pml : C; Bp_pml : C; Bm_pml : C }.
(** spectral_grid.py:103-106, and interpolation_grid.py: every PML array is created full of zeros. *)
Definition pml_zero : pml := {| Ep_pml := 0; Em_pml := 0; Bp_pml := 0; Bm_pml := 0 |}.

Section Constants.
Context (c mu_0 epsilon_0 : R).   (* scipy.constants *)

(** numba_methods.py:188-215 numba_push_eb_pml_standard *)
Definition push_eb_pml_standard (ps : coefs) (kr : R) (s : mode) (p : pml) : pml :=
  let c2 := RtoC (c ^ 2) in let Cw := co_C ps in let S_w := co_S_w ps in
  {| Ep_pml := Cw * Ep_pml p + c2 * S_w * (- (Ci) * 0.5 * kr * Bz s);
     Em_pml := Cw * Em_pml p + c2 * S_w * (- (Ci) * 0.5 * kr * Bz s);
     Bp_pml := Cw * Bp_pml p - S_w * (- (Ci) * 0.5 * kr * Ez s);
     Bm_pml := Cw * Bm_pml p - S_w * (- (Ci) * 0.5 * kr * Ez s) |}.
(** numba_methods.py:357-385 numba_push_eb_pml_comoving *)
Definition push_eb_pml_comoving (ps : coefs) (kr : R) (s : mode) (p : pml) : pml :=
  let c2 := RtoC (c ^ 2) in let Cw := co_C ps in let S_w := co_S_w ps in let T_eb := co_T_eb ps in
  {| Ep_pml := T_eb * Cw * Ep_pml p + c2 * T_eb * S_w * (- (Ci) * 0.5 * kr * Bz s);
     Em_pml := T_eb * Cw * Em_pml p + c2 * T_eb * S_w * (- (Ci) * 0.5 * kr * Bz s);
     Bp_pml := T_eb * Cw * Bp_pml p - T_eb * S_w * (- (Ci) * 0.5 * kr * Ez s);
     Bm_pml := T_eb * Cw * Bm_pml p - T_eb * S_w * (- (Ci) * 0.5 * kr * Ez s) |}.

(** spectral_grid.py:376-405 push_eb_with (CPU branch) with use_pml: the PML arrays are pushed first, with the values of
    Ez and Bz before the push of the regular fields. *)
Definition push_eb_with_pml (ps : coefs) (use_true_rho : bool) (kz kr : R) (sp : mode * pml) : mode * pml :=
  let (s, p) := sp in
  let p := match co_V ps with None => push_eb_pml_standard ps kr s p | Some _ => push_eb_pml_comoving ps kr s p end in
  (push_eb_with c mu_0 epsilon_0 ps use_true_rho kz kr s, p).
(** fields.py:247-276 push, for one azimuthal mode, with use_pml. *)
Definition push_pml (ps : coefs) (use_true_rho : bool) (kz kr : R) (sp : mode * pml) : mode * pml :=
  let (s, p) := push_eb_with_pml ps use_true_rho kz kr sp in (push_rho s, p).
End Constants.
