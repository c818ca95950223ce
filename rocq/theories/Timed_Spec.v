(** What C104 says: the time of the values in the output, for particles on which no force acts. *)
From Coq Require Import ZArith Reals List String.
From Verif Require Import Base Step_Model Cycle_Model.
Import ListNotations.
Open Scope R_scope.

Section S.
Context {P Q A W : Type} (k : kernels P Q A W).
(** The species of a simulation in free motion: [ps tx ty tz] has the coordinates x of the time tx, y of the time ty and z of the time tz. No force, no
    creation or loss of particles; the function that moves the particles during d, with a factor for each axis, does just that. One process; the grid is
    [w t] at the time t: fixed, or moving at the Galilean velocity. *)
Record free_motion (ps : R -> R -> R -> list P) (w : R -> W) : Prop := {
  fm_one : k_multi k = false; fm_window : k_window k = false;
  fm_moving : k_galilean k = true -> forall t d, k_shift k d (w t) = w (t + d);
  fm_still : k_galilean k = false -> forall t t', w t = w t';
  fm_exch : forall t t', k_exch_p k (w t) t' (ps t t t) = (w t, ps t t t);
  fm_gather : forall t eb, map (k_gather k (w t) eb) (ps t t t) = ps t t t;
  fm_ext : forall t t', k_ext k t' (ps t t t) = ps t t t;
  fm_push_p : forall t t', map (k_push_p k t') (ps t t t) = ps t t t;
  fm_push_x : forall tx ty tz d fx fy fz, map (k_push_x k d fx fy fz) (ps tx ty tz) = ps (tx + d * fx) (ty + d * fy) (tz + d * fz);
  fm_elem : forall t t', k_elem k (w t) t' (ps t t t) = (w t, ps t t t) }.
(** The current (true) or the charge (false) of some species, in spectral space (tracers do not count) and on the grid. *)
Definition spectral_source (cur : bool) (w : W) (l : list P) : A :=
  let v := k_fwd k cur (k_reduce k cur (fold_left (fun a p => k_dep k cur w p a) l (k_zero k cur))) in
  if k_filter k then k_filt k cur v else v.
Definition active (l : list P) : list P := filter (fun p => negb (k_tracer k p)) l.
Definition source (cur : bool) (w : W) (l : list P) : A := k_bwd k cur (spectral_source cur w l).
(** The current of the time t - dt/2, corrected with the charge at t - dt and at t, and for the cross-deposition with the charge of the particles of which
    only (x, y), respectively only z, have moved. *)
Definition corrected_spectral (ps : R -> R -> R -> list P) (w : R -> W) (t : R) (a : A) : Prop :=
  let dt := k_dt k in
  let S cur w l := spectral_source cur w (active l) in
  exists xy z, a = k_correct k (S true (w (t - dt/2)) (ps (t - dt/2) (t - dt/2) (t - dt/2)))
                               (S false (w (t - dt)) (ps (t - dt) (t - dt) (t - dt))) (S false (w t) (ps t t t)) xy z /\
    (k_cross k = true -> xy = S false (w (t - dt)) (ps t t (t - dt)) /\ z = S false (w t) (ps (t - dt) (t - dt) t)).
Definition corrected ps w t (a : A) : Prop := exists v, corrected_spectral ps w t v /\ a = k_bwd k true v.
(** A simulation at the beginning of iteration n, at the time n dt, without antenna. *)
Record at_time (ps : R -> R -> R -> list P) (w : R -> W) (n : Z) (s : st P Q A W) : Prop := {
  at_ptc : let t := IZR n * k_dt k in ptc s = ps t t t; at_ants : ants s = []; at_env : env s = w (IZR n * k_dt k); at_it : it s = n; at_clock : time s = IZR n * k_dt k }.
End S.
