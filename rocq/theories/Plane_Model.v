(** Injection through a plane: particles/injection/ballistic_before_plane.py, its creation in lpa_utils/bunch.py, its use in
    particles/particles.py:push_p and main.py:step. Exact arithmetic; push: Push_Model. *)
From Verif Require Import Base Boost_Model Push_Model.
From Coq Require Import Reals.
Open Scope R_scope.

(** ballistic_before_plane.py:26-43 __init__ *)
Record plane := { z_plane_lab : R; inv_gamma_boost : R; beta_boost : R }.
Definition ballistic_before_plane (z_plane_lab : R) (boost : option converter) : plane :=
  match boost with
  | Some b => {| z_plane_lab := z_plane_lab; inv_gamma_boost := 1 / gamma0 b; beta_boost := beta0 b |}
  | None => {| z_plane_lab := z_plane_lab; inv_gamma_boost := 1; beta_boost := 0 |}
  end.
(** ballistic_before_plane.py:46-61 get_current_plane_position *)
Definition get_current_plane_position (c : R) (p : plane) (t : R) : R :=
  inv_gamma_boost p * z_plane_lab p - beta_boost p * c * t.

(** A species created by add_particle_bunch* (bunch.py:115-118, 539-542): injector None or BallisticBeforePlane; not ionizable. *)
Record bunch := { b_q : R; b_m : R; b_injector : option plane; b_ptcl : list mp }.
Definition add_bunch (q m : R) (l : list mp) (z_injection_plane : option R) (boost : option converter) : bunch :=
  {| b_q := q; b_m := m;
     b_injector := match z_injection_plane with Some z => Some (ballistic_before_plane z boost) | None => None end;
     b_ptcl := l |}.

Section C.
Context (c e : R).
(** particles.py:557-636 push_p( t ) *)
Definition bunch_push_p (s : bunch) (t dt : R) : res bunch :=
  let zp := match b_injector s with Some p => Some (get_current_plane_position c p t) | None => None end in
  bind (push_p c e {| q := b_q s; m := b_m s; z_plane := zp; ionizer := false; ptcls := b_ptcl s |} dt)
       (fun l => Ok {| b_q := b_q s; b_m := b_m s; b_injector := b_injector s; b_ptcl := l |}).
(** particles.py:639-671 push_x *)
Definition bunch_push_x (dt xp yp zp : R) (s : bunch) : bunch :=
  {| b_q := b_q s; b_m := b_m s; b_injector := b_injector s; b_ptcl := map (push_x c dt xp yp zp) (b_ptcl s) |}.
(** particles.py:674-836 gather and the external fields (main.py:467-472): [F] gives the six fields of each particle (any
    function of the particles, of the time and of the rest of the simulation) *)
Definition bunch_gather (F : list mp -> mp -> field6) (s : bunch) : bunch :=
  {| b_q := b_q s; b_m := b_m s; b_injector := b_injector s;
     b_ptcl := map (fun a => {| px := px a; py := py a; pz := pz a; pm := pm a; pf := F (b_ptcl s) a; plevel := plevel a |}) (b_ptcl s) |}.
(** main.py:672-716 cross_deposit: the motions of the particles *)
Definition bunch_cross (dt : R) (s : bunch) : bunch :=
  bunch_push_x (0.5 * dt) 1 1 (-1) (bunch_push_x dt (-1) (-1) 1 (bunch_push_x (0.5 * dt) 1 1 (-1) s)).
(** main.py:455-519: one iteration as seen by the bunch (move_positions and move_momenta True; no particle enters or leaves the
    box; no elementary process). [cross]: cross-deposition. *)
Definition bunch_iter (cross : bool) (F : list mp -> mp -> field6) (time dt : R) (s : bunch) : res bunch :=
  bind (bunch_push_p (bunch_gather F s) (time + 0.5 * dt) dt) (fun s =>
  let s := bunch_push_x (0.5 * dt) 1 1 1 s in
  let s := if cross then bunch_cross dt s else s in
  Ok (bunch_push_x (0.5 * dt) 1 1 1 s)).
(** main.py:421-566: [N] iterations; [F n] gives the fields of iteration n; line 557: time += dt *)
Fixpoint bunch_run (cross : bool) (F : nat -> list mp -> mp -> field6) (N : nat) (time dt : R) (s : bunch) : res (bunch * R) :=
  match N with
  | O => Ok (s, time)
  | S n => bind (bunch_run cross F n time dt s) (fun '(s, time) =>
           bind (bunch_iter cross (F n) time dt s) (fun s => Ok (s, time + dt)))
  end.
End C.
