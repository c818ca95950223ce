(** Vocabulary of C08. *)
From Verif Require Import Base Step_Model Period_Model.
From Coq Require Import Reals.
Open Scope Z_scope.

(** Positions that take part in a grid operation. *)
Definition members (sn : snap) : list ptc :=
  flat_map sp_ptc (sn_species sn) ++ flat_map an_ptc (sn_ants sn).

(** All cells that a grid operation touches, for a local grid of [Nz] cells: the deposition
    writes only to rows [2+a .. 2+Nz-a) of its array (cells [a .. Nz-a)), the gathering reads
    only cells [a .. Nz-a) for the species. *)
Definition touches_within (sh : shape) (dz : R) (Nz a : Z) (e : event) : Prop :=
  match e with
  | EvDeposit _ sn => forall p, In p (members sn) ->
      forall i, In i (deposit_rows sh (z_cell dz (sn_gmin sn) (pz p))) -> 2 + a <= i < 2 + Nz - a
  | EvGather sn => forall p, In p (flat_map sp_ptc (sn_species sn)) ->
      forall i, In i (gather_cells sh (z_cell dz (sn_gmin sn) (pz p))) -> a <= i < Nz - a
  | _ => True
  end.

(** Longitudinal distance, in units of length, by which a position is outside of [lo,hi]
    relative to the lower edge of the grid. *)
Definition strays_at_most (T lo hi : R) (e : event) : Prop :=
  match e with
  | EvDeposit _ sn => forall p, In p (members sn) ->
      (lo - T <= pz p - sn_gmin sn <= hi + T)%R
  | EvGather sn => forall p, In p (flat_map sp_ptc (sn_species sn)) ->
      (lo - T <= pz p - sn_gmin sn <= hi + T)%R
  | _ => True
  end.

(** What is assumed of the parts of the loop that are not modelled, for a rank whose physical
    subdomain is [zmin+lo, zmin+hi] when the global origin is at [zmin]:
    after the particle exchange the particles are in the subdomain (this is C07), the antenna
    deposits only if it is in the subdomain, speeds never exceed [cl], and elementary processes
    create particles only where there are particles. *)
Definition env_ok (cl lo hi : R) (exch : Z -> R -> species -> species) (here : R -> ant -> bool)
    (kick : Z -> ptc -> R * R * R) (elem : Z -> species -> species) : Prop :=
  (forall it zmin sp p, In p (sp_ptc (exch it zmin sp)) ->
      (zmin + lo <= pz p <= zmin + hi /\ Rabs (vz p) <= cl)%R) /\
  (forall zmin a p, here zmin a = true -> In p (an_ptc a) -> (zmin + lo <= pz p <= zmin + hi)%R) /\
  (forall it p, (Rabs (snd (kick it p)) <= cl)%R) /\
  (forall it sp p, In p (sp_ptc (elem it sp)) ->
      exists q, In q (sp_ptc sp) /\ pz p = pz q /\ vz p = vz q).

(** Speed of the grid in the Galilean scheme. *)
Definition grid_speed (k : conf) : R := if k_gal k then k_vcom k else 0%R.

(** The moving window is as [set_moving_window] and earlier steps left it: last moved one step
    ago, and its continuous position ahead of the grid by less than a cell in the direction in
    which it moves relative to the grid. *)
Definition window_ok (k : conf) (vm : R) (s : state) : Prop :=
  match st_win s with
  | None => True
  | Some w => w_last w = (st_time s - k_dt k)%R /\ (Rabs (w_v w) <= vm)%R /\
      (if Rle_dec (grid_speed k) (w_v w)
       then (0 <= w_zmin w - st_zmin s < k_dz k)%R
       else (- k_dz k < w_zmin w - st_zmin s <= 0)%R)
  end.
