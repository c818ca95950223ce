(** lpa_utils/bunch.py:838-1007: the space-charge field of a relativistic bunch. Exact arithmetic. The projection of the sources on the
    global grid is that of a single rank; the copies between the ranks (gather_grid_array, scatter_grid_array) are not modelled. *)
From Verif Require Import Base Fourier_Lib Deposit_Model Hankel_Model Smooth_Model Psatd_Model.
From Coq Require Import Reals.
From Coquelicot Require Import Complex.
Open Scope Z_scope.

(** bunch.py:862-880: the mean Lorentz factor; [ranks]: for each rank the arrays w and inv_gamma of the species. mpi_comm.allreduce sums
    over the ranks. None: "found 0 macroparticles", nothing is added. *)
Definition mean_gamma (ranks : list (list (R * R))) : option R :=
  let w_sum_local (l : list (R * R)) := fold_right Rplus 0%R (map fst l) in
  let w_gamma_sum_local (l : list (R * R)) := fold_right Rplus 0%R (map (fun p => fst p * 1 / snd p)%R l) in
  let w_sum := fold_right Rplus 0%R (map w_sum_local ranks) in
  let w_gamma_sum := fold_right Rplus 0%R (map w_gamma_sum_local ranks) in
  if Req_EM_T w_sum 0 then None else Some (w_gamma_sum / w_sum)%R.

Section Constants.
Context (c mu_0 epsilon_0 : R).
Local Open Scope C_scope.
(** bunch.py:946-1007 get_space_charge_spect, one mode of wavenumbers kz (modified) and kr; [backward]: direction == 'backward' *)
Definition space_charge_spect (kz kr gamma : R) (backward neglect_transverse_currents : bool) (s : mode) : mode :=
  let beta := (if backward then sqrt (1 - 1 / gamma ^ 2) * -1 else sqrt (1 - 1 / gamma ^ 2))%R in
  let K2 := (kr ^ 2 + kz ^ 2 * 1 / gamma ^ 2)%R in
  let K2_corrected := if Req_EM_T K2 0 then 1%R else K2 in
  let inv_K2 := if Req_EM_T K2 0 then 0%R else (1 / K2_corrected)%R in
  let phi := rho_prev s * inv_K2 / epsilon_0 in
  let Ap := Jp s * inv_K2 * mu_0 in
  let Am := Jm s * inv_K2 * mu_0 in
  let Az := Jz s * inv_K2 * mu_0 in
  let Ep1 := Ep s + RtoC 0.5 * kr * phi in
  let Em1 := Em s + RtoC (-0.5) * kr * phi in
  let Ez1 := Ez s + (- (Ci) * kz * phi + Ci * beta * c * kz * Az) in
  let Ep2 := if neglect_transverse_currents then Ep1 else Ep1 + Ci * beta * c * kz * Ap in
  let Em2 := if neglect_transverse_currents then Em1 else Em1 + Ci * beta * c * kz * Am in
  let Bp1 := Bp s + - (RtoC 0.5 * Ci) * kr * Az in
  let Bm1 := Bm s + - (RtoC 0.5 * Ci) * kr * Az in
  let Bp2 := if neglect_transverse_currents then Bp1 else Bp1 + kz * Ap in
  let Bm2 := if neglect_transverse_currents then Bm1 else Bm1 - kz * Am in
  let Bz2 := if neglect_transverse_currents then Bz s else Bz s + (Ci * kr * Ap + Ci * kr * Am) in
  set_B (set_E s Ep2 Em2 Ez1) Bp2 Bm2 Bz2.
End Constants.

(** bunch.py:884-924: the sources of the species, on the spectral grid of mode m; the fields of the new object global_fld are 0. With
    filter_currents = False the smoother is not applied ([smooth] = None). The grids of mode m have wavenumbers kz (true: [kz_true]) and kr. *)
Definition smoothed (smooth : option smoother) (zeros : Z -> Z -> R) (rmax : R) (Nz Nr m : Z) (dz dr : R) (G : Z -> Z -> C) : Z -> Z -> C :=
  match smooth with None => G | Some s => filter_spect s zeros rmax Nz Nr m dz dr G end.
Definition bunch_sources (c : R) (g : grid) (tr : transformer) (cells : list (Z * Z)) (smooth : option smoother) (zeros : Z -> Z -> R) (rmax : R) (nthreads : Z) (m : nat)
  (ptcl : species) (iz ir : Z) : mode :=
  let dep k := deposit c g k m nthreads [] (Some [ptcl]) in
  let filt := smoothed smooth zeros rmax (g_Nz g) (g_Nr g) (Z.of_nat m) (g_dz g) (g_dr g) in
  let J := interp2spect_vect tr cells (dep Jr) (dep Jt) in
  {| Ep := RtoC 0; Em := RtoC 0; Ez := RtoC 0; Bp := RtoC 0; Bm := RtoC 0; Bz := RtoC 0;
     Jp := filt (fst J) iz ir; Jm := filt (snd J) iz ir; Psatd_Model.Jz := filt (interp2spect_scal tr (dep Deposit_Model.Jz)) iz ir;
     rho_prev := filt (interp2spect_scal tr (dep Rho)) iz ir; rho_next := RtoC 0; rho_next_z := RtoC 0; rho_next_xy := RtoC 0 |}.
(** bunch.py:921-922: the fields of one spectral mode *)
Definition space_charge_fields (c mu_0 epsilon_0 : R) (g : grid) (tr : transformer) (cells : list (Z * Z)) (smooth : option smoother) (zeros : Z -> Z -> R) (rmax : R)
  (nthreads : Z) (m : nat) (ptcl : species) (kz : Z -> R) (gamma : R) (backward : bool) (iz ir : Z) : mode :=
  space_charge_spect c mu_0 epsilon_0 (kz iz) (kr_of zeros rmax (Z.of_nat m) ir) gamma backward true
    (bunch_sources c g tr cells smooth zeros rmax nthreads m ptcl iz ir).
