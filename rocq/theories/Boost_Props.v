(** C41: conversions to the boosted frame. [c]: speed of light, [gm]: Lorentz factor of the frame. The
    reference is the Lorentz transformation [lorentz] of events. *)
From Verif Require Import Base Boost_Model Boost_Spec Boost_Proofs.
From Coq Require Import Reals Lra Lia.
Open Scope R_scope.

(** gamma0 and beta0 of a converter belong together. *)
Theorem C41_frame : forall gm, 1 <= gm -> gamma0 (boost_converter gm) = gm /\ boost_ok gm (beta0 (boost_converter gm)).
Proof. intros. split; [reflexivity|]. exact (converter_ok gm H). Qed.
Print Assumptions C41_frame.

(** An object of velocity bo c and lab length l: e1 is any event on its back end, e2 one on its front end. If they
    are simultaneous in the boosted frame their distance there is the converted length. A static object is the
    case bo = 0. *)
Theorem C41_length : forall c gm, 0 < c -> 1 <= gm -> forall bo l, -1 <= bo <= 1 ->
  let cv := boost_converter gm in let L := lorentz c (gamma0 cv) (beta0 cv) in
  forall e1 e2, e_z e2 - bo * c * e_t e2 = e_z e1 - bo * c * e_t e1 + l -> e_t (L e1) = e_t (L e2) ->
  copropag_length cv [l] bo = [e_z (L e2) - e_z (L e1)] /\ (bo = 0 -> static_length cv [l] = [e_z (L e2) - e_z (L e1)]).
Proof.
  intros c gm Hc Hg bo l Hb cv L e1 e2 E T. assert (R := length_ok c gm Hc Hg bo l Hb e1 e2 E T). split; [exact R|].
  intros ->. unfold cv. rewrite (static_is_copropag gm Hg). exact R.
Qed.
Print Assumptions C41_length.

(** Density times length is the same in both frames. *)
Theorem C41_number : forall gm, 1 <= gm -> forall bo n l, -1 <= bo <= 1 -> let cv := boost_converter gm in
  (exists n' l', copropag_density cv [n] bo = [n'] /\ copropag_length cv [l] bo = [l'] /\ n' * l' = n * l) /\
  (exists n' l', static_density cv [n] = [n'] /\ static_length cv [l] = [l'] /\ n' * l' = n * l).
Proof.
  intros gm Hg bo n l Hb cv. split; [apply number_ok; assumption|]. unfold cv. rewrite static_is_copropag_density, (static_is_copropag gm Hg). apply number_ok; [assumption|lra].
Qed.
Print Assumptions C41_number.

(** If something moves from event e1 to event e2 with lab velocity v, it moves between the transformed
    events with the converted velocity; that is below c if v is, and c is kept. *)
Theorem C41_velocity : forall c gm, 0 < c -> 1 <= gm -> forall v, let cv := boost_converter gm in let L := lorentz c (gamma0 cv) (beta0 cv) in
  (forall e1 e2, - c <= v <= c -> e_z e2 - e_z e1 = v * (e_t e2 - e_t e1) ->
     exists v', velocity c cv [v] = [v'] /\ e_z (L e2) - e_z (L e1) = v' * (e_t (L e2) - e_t (L e1))) /\
  (- c < v < c -> exists v', velocity c cv [v] = [v'] /\ - c < v' < c) /\ velocity c cv [c; - c] = [c; - c].
Proof. intros c gm Hc Hg v cv L. split; [|split]; [intros; apply velocity_ok|apply velocity_below_c|apply velocity_c]; assumption. Qed.
Print Assumptions C41_velocity.

(** Momentum: (sqrt(1+u^2), u) transforms as (c t, z) does, and stays on the mass shell; its velocity is the
    converted velocity. *)
Theorem C41_momentum : forall c gm, 0 < c -> 1 <= gm -> forall u, let cv := boost_converter gm in let q := sqrt (1 + u ^ 2) in
  exists u', longitudinal_momentum cv [u] = [u'] /\ u' = gamma0 cv * (u - beta0 cv * q) /\ sqrt (1 + u' ^ 2) = gamma0 cv * (q - beta0 cv * u) /\
  (- c < u / q * c < c -> velocity c cv [u / q * c] = [u' / sqrt (1 + u' ^ 2) * c]).
Proof. intros. apply momentum_ok; assumption. Qed.
Print Assumptions C41_momentum.

(** The Lorentz factor of a particle that moves forward (or not at all) in the lab. *)
Theorem C41_gamma_partial : forall gm, 1 <= gm -> forall u, 0 <= u -> let cv := boost_converter gm in
  exists u', longitudinal_momentum cv [u] = [u'] /\ gamma cv [sqrt (1 + u ^ 2)] = [sqrt (1 + u' ^ 2)].
Proof. intros. apply (gamma_ok 1); try lra; assumption. Qed.
Print Assumptions C41_gamma_partial.
(** It is wrong for every particle that moves backward. *)
Theorem C41_gamma_refuted : forall gm, 1 < gm -> forall u, u < 0 -> let cv := boost_converter gm in
  exists u', longitudinal_momentum cv [u] = [u'] /\ gamma cv [sqrt (1 + u ^ 2)] <> [sqrt (1 + u' ^ 2)].
Proof. intros gm Hg u Hu cv. apply (gamma_backward 1); lra. Qed.
Print Assumptions C41_gamma_refuted.

(** Wave number of a laser that propagates forward: the phase is the same in both frames, at each event. *)
Theorem C41_wavenumber : forall c gm, 0 < c -> 1 <= gm -> forall k, let cv := boost_converter gm in let L := lorentz c (gamma0 cv) (beta0 cv) in
  exists k', wavenumber cv [k] = [k'] /\ forall e, k' * (e_z (L e) - c * e_t (L e)) = k * (e_z e - c * e_t e).
Proof. intros. apply wavenumber_ok; assumption. Qed.
Print Assumptions C41_wavenumber.

(** Bunch particles: the world line of the returned particle is the transformed world line of the given one. *)
Theorem C41_particle : forall c gm, 0 < c -> 1 <= gm -> forall p, let cv := boost_converter gm in let L := lorentz c (gamma0 cv) (beta0 cv) in
  let w t := free_particle c (px p) (py p) (pz p) (pux p) (puy p) (puz p) t in
  exists p', boost_particle_arrays c cv [p] = [p'] /\
  pinv_gamma p' = 1 / sqrt (1 + pux p' ^ 2 + puy p' ^ 2 + puz p' ^ 2) /\
  forall t, L (w t) = free_particle c (px p') (py p') (pz p') (pux p') (puy p') (puz p') (e_t (L (w t))).
Proof. intros. apply particle_ok; assumption. Qed.
Print Assumptions C41_particle.

(** Interaction time, window moving at c: from the event where the front of the window meets the start of the plasma
    to the one where its back passes the end of the plasma. *)
Theorem C41_interaction_time : forall c gm, 0 < c -> 1 <= gm -> forall Lp lw enter leave,
  let cv := boost_converter gm in let L := lorentz c (gamma0 cv) (beta0 cv) in
  e_z leave - e_z enter = Lp -> e_t leave - e_t enter = (Lp + lw) / c ->
  interaction_time c cv Lp lw c = Some (e_t (L leave) - e_t (L enter)).
Proof. intros. apply interaction_time_ok; assumption. Qed.
Print Assumptions C41_interaction_time.

(** A frame with beta0 = 3/5; events that meet the hypotheses of C41_length for an object of velocity c/2 and length 1. *)
Example C41_met : let cv := boost_converter (5 / 4) in beta0 cv = 3 / 5 /\
  let e1 := {| e_t := 0; e_x := 0; e_y := 0; e_z := 0 |} in let e2 := {| e_t := 6 / 7; e_x := 0; e_y := 0; e_z := 10 / 7 |} in
  e_z e2 - 1 / 2 * 1 * e_t e2 = e_z e1 - 1 / 2 * 1 * e_t e1 + 1 /\
  e_t (lorentz 1 (5 / 4) (3 / 5) e1) = e_t (lorentz 1 (5 / 4) (3 / 5) e2) /\ copropag_length cv [1] (1 / 2) = [8 / 7].
Proof.
  assert (B : beta0 (boost_converter (5 / 4)) = 3 / 5). { cbn. replace (1 - 1 / (5 / 4 * (5 / 4 * 1))) with ((3 / 5) ^ 2) by field. apply sqrt_pow2. lra. }
  cbv zeta. split; [exact B|]. cbn [e_t e_z lorentz]. repeat split; try lra. unfold copropag_length. rewrite B. cbn. f_equal. lra.
Qed.
