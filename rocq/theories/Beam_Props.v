(** C67: the photons met by the electrons in Compton scattering are those of the laser pulse. *)
From Verif Require Import Base Compton_Model Compton_Spec Gauss_Lib Beam_Model Beam_Spec Beam_Proofs.
From Coq Require Import Reals Lra.
From Coquelicot Require Import Coquelicot.
Open Scope R_scope.

Definition boost_ok (boost : option R) : Prop := match boost with Some g => 1 <= g | None => True end.

(** Energy: in the lab and in any boosted frame, at any time, the integral of the density over space is
    the energy of the laser divided by the energy h c / lambda of a photon. *)
Theorem C67_energy h c W lam waist ctau z0 boost t :
  0 < h -> 0 < c -> 0 < lam -> 0 < waist -> 0 < ctau -> boost_ok boost ->
  int_R3 (fun x y z => photon_density (compton_init h c W lam waist ctau z0 boost) c x y z t) (W / (h / lam * c)).
Proof. intros. apply total_number; assumption. Qed.
Print Assumptions C67_energy.

(** Boosted frame: the density and the flux of photons at an event are the Lorentz transformation of the
    4-flux of the lab frame at that event, and so is the 4-momentum of the photons, (h / lambda) (1, 0, 0, -1)
    in the lab; the velocity used is that of the frame. *)
Theorem C67_boost h c W lam waist ctau z0 boost x y z t :
  0 < h -> 0 < c -> 0 < lam -> boost_ok boost ->
  let s := compton_init h c W lam waist ctau z0 boost in
  exists gamma beta, is_frame boost gamma beta /\
  let n := photon_density (compton_init h c W lam waist ctau z0 None) c x y (lab_z c gamma beta z t) (lab_t c gamma beta z t) in
  let n' := photon_density s c x y z t in
  let b := sc_beam s in
  b = lorentz_z gamma beta {| p0 := h / lam; p1 := 0; p2 := 0; p3 := - (h / lam) |} /\ lightlike b /\
  {| p0 := n'; p1 := n' * (p1 b / p0 b); p2 := n' * (p2 b / p0 b); p3 := n' * (p3 b / p0 b) |}
  = lorentz_z gamma beta {| p0 := n; p1 := 0; p2 := 0; p3 := - n |}.
Proof.
  intros Hh Hc Hl Hb s. exists (sc_gamma s), (sc_beta s). split; [apply frame; assumption|].
  split; [apply beam_eq; assumption|]. split; [apply beam_lightlike; assumption|]. apply flux; assumption.
Qed.
Print Assumptions C67_boost.

(** The pulse moves along -z at the velocity c without change of shape, in any frame; in the lab its center
    is at z0 - c t, and the density is 1/e^2 of its peak (the field, 1/e) at a distance waist from the axis
    and at a distance ctau from the center along the axis. *)
Theorem C67_pulse h c W lam waist ctau z0 boost x y z t d :
  0 < c -> 0 < waist -> 0 < ctau -> boost_ok boost ->
  let n b := photon_density (compton_init h c W lam waist ctau z0 b) c in
  n boost x y (z - c * d) (t + d) = n boost x y z t /\
  (x ^ 2 + y ^ 2 = waist ^ 2 /\ z = z0 - c * t \/ x = 0 /\ y = 0 /\ (z - (z0 - c * t)) ^ 2 = ctau ^ 2 ->
   n None x y z t = exp (- 2) * n None 0 0 (z0 - c * t) t).
Proof.
  intros Hc Hw Hct Hb n. split; [apply moves; assumption|]. intros E. apply widths; assumption.
Qed.
Print Assumptions C67_pulse.

Example C67_met : boost_ok (Some 2) /\ boost_ok None /\ is_frame (Some 2) 2 (sqrt 3 / 2) /\
  (3 ^ 2 + 4 ^ 2 = 5 ^ 2 /\ 7 = 7 - 1 * 0).
Proof.
  split; [cbn; lra|]. split; [exact I|]. split; [|split; ring]. cbn -[pow]. split; [reflexivity|].
  split; [pose proof (sqrt_pos 3); lra|]. replace ((sqrt 3 / 2) ^ 2) with (sqrt 3 ^ 2 / 4) by field. rewrite pow2_sqrt by lra. field.
Qed.
