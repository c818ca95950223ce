(** lpa_utils/boosted_frame.py: BoostConverter. Exact arithmetic; [c] is the speed of light. Each
    method maps a list of lab quantities to the list of the converted ones. *)
From Verif Require Import Base.
From Coq Require Import Reals.
Open Scope R_scope.

Record converter := { gamma0 : R; beta0 : R }.
(** boosted_frame.py:17-28 __init__ *)
Definition boost_converter (g : R) : converter := {| gamma0 := g; beta0 := sqrt (1 - 1 / g ^ 2) |}.
(** boosted_frame.py:33-52 static_length *)
Definition static_length (b : converter) (l : list R) : list R := map (fun length => length / gamma0 b) l.
(** boosted_frame.py:54-78 copropag_length (beta_object is 1. by default) *)
Definition copropag_length (b : converter) (l : list R) (beta_object : R) : list R :=
  let convert_factor := 1 / (gamma0 b * (1 - beta0 b * beta_object)) in
  map (fun length => length * convert_factor) l.
(** boosted_frame.py:80-99 static_density *)
Definition static_density (b : converter) (l : list R) : list R := map (fun dens => dens * gamma0 b) l.
(** boosted_frame.py:101-125 copropag_density *)
Definition copropag_density (b : converter) (l : list R) (beta_object : R) : list R :=
  let convert_factor := gamma0 b * (1 - beta0 b * beta_object) in
  map (fun dens => dens * convert_factor) l.
(** boosted_frame.py:130-148 velocity *)
Definition velocity (c : R) (b : converter) (l : list R) : list R :=
  map (fun v => (v - c * beta0 b) / (1 - v * beta0 b / c)) l.
(** boosted_frame.py:150-172 longitudinal_momentum *)
Definition longitudinal_momentum (b : converter) (l : list R) : list R :=
  map (fun u_z => let g := sqrt (1 + u_z ^ 2) in gamma0 b * (u_z - g * beta0 b)) l.
(** boosted_frame.py:174-197 gamma *)
Definition gamma (b : converter) (l : list R) : list R :=
  map (fun g => let uz := sqrt (g ^ 2 - 1) in gamma0 b * (g - beta0 b * uz)) l.
(** boosted_frame.py:202-220 wavenumber *)
Definition wavenumber (b : converter) (l : list R) : list R := map (fun k => k / (gamma0 b * (1 + beta0 b))) l.
(** One element of the arrays x, y, z, ux, uy, uz, inv_gamma *)
Record ptcl := { px : R; py : R; pz : R; pux : R; puy : R; puz : R; pinv_gamma : R }.
(** boosted_frame.py:222-275 boost_particle_arrays, for one macroparticle (all operations are elementwise) *)
Definition boost_particle (c : R) (b : converter) (p : ptcl) : ptcl :=
  let uz_boost := gamma0 b * beta0 b in
  let t_boost := - uz_boost * pz p / c in
  let x_boost := px p in let y_boost := py p in let z_boost := gamma0 b * pz p in
  let gamma_lab := sqrt (1 + (pux p * pux p + puy p * puy p + puz p * puz p)) in
  let new_ux := pux p in let new_uy := puy p in
  let new_uz := gamma0 b * puz p - uz_boost * gamma_lab in
  let gamma_boost := sqrt (1 + (new_ux ^ 2 + new_uy ^ 2 + new_uz ^ 2)) in
  {| px := x_boost - t_boost * new_ux * c / gamma_boost;
     py := y_boost - t_boost * new_uy * c / gamma_boost;
     pz := z_boost - t_boost * new_uz * c / gamma_boost;
     pux := new_ux; puy := new_uy; puz := new_uz; pinv_gamma := 1 / gamma_boost |}.
Definition boost_particle_arrays (c : R) (b : converter) (l : list ptcl) : list ptcl := map (boost_particle c b) l.
(** boosted_frame.py:280-318 interaction_time; [None] stands for a wrong length of an unpacked list, which
    does not happen. *)
Definition interaction_time (c : R) (b : converter) (L_interact l_window v_window : R) : option R :=
  match static_length b [L_interact], copropag_length b [l_window] 1, velocity c b [v_window] with
  | [L_i], [l_w], [v_w] => let v_p := - beta0 b * c in Some ((L_i + l_w) / (v_w - v_p))
  | _, _, _ => None
  end.
