(** The laser pulse of Compton scattering: compton.py (ComptonScatterer.__init__ and the call to
    get_photon_density_gaussian of handle_scattering). Exact arithmetic. *)
From Verif Require Import Base Compton_Model.
From Coq Require Import Reals.
Open Scope R_scope.

(** The attributes set by compton.py:96-131. *)
Record scatterer := { sc_gamma : R; sc_beta : R; sc_beam : fourmom; sc_z0 : R; sc_inv_waist2 : R; sc_inv_ctau2 : R; sc_n_peak : R }.

(** compton.py:56-131 ComptonScatterer.__init__; [boost] is the gamma0 of the BoostConverter
    (boosted_frame.py:17-28), or None. The registration of the species and of the ratio of the weights
    (l. 89-94) is left out (see Compton_Model). *)
Definition compton_init (h c laser_energy laser_wavelength laser_waist laser_ctau laser_initial_z0 : R) (boost : option R) : scatterer :=
  let '(gamma_boost, beta_boost) := match boost with Some gamma0 => (gamma0, sqrt (1 - 1 / gamma0 ^ 2)) | None => (1, 0) end in
  let photon_lab_p := sqrt (0 ^ 2 + 0 ^ 2 + (- h / laser_wavelength) ^ 2) in
  let effective_volume := Rpower (PI / 2) (3 / 2) * laser_waist ^ 2 * laser_ctau in
  let photon_energy := photon_lab_p * c in
  {| sc_gamma := gamma_boost; sc_beta := beta_boost; sc_beam := incident_photon h laser_wavelength gamma_boost beta_boost;
     sc_z0 := laser_initial_z0; sc_inv_waist2 := 1 / laser_waist ^ 2; sc_inv_ctau2 := 1 / laser_ctau ^ 2;
     sc_n_peak := laser_energy / (effective_volume * photon_energy) |}.

(** compton.py:171-181, numba_methods.py:20-51: density at the position of an electron, at time t. *)
Definition photon_density (s : scatterer) (c x y z t : R) : R :=
  get_photon_density_gaussian x y z (c * t) (sc_n_peak s) (sc_inv_waist2 s) (sc_inv_ctau2 s) (sc_z0 s) (sc_gamma s) (sc_beta s).
