(** C08: the exchange period keeps grid operations inside the local grid (real arithmetic). *)
From Verif Require Import Base Decomp_Model Step_Model Step_Spec Period_Model Period_Spec
  Period_Proofs Period_Main Period_Witness.
From Coq Require Import Reals Lra.
Open Scope Z_scope.

(** With the automatic period, all deposition and gathering between exchanges, in any
    sequence of [step] calls, touches only cells of the local grid that are at least half the
    guard region away from its edges. *)
Theorem C08_grid_operations_stay_inside
  (k : conf) (exch : Z -> R -> species -> species) (here : R -> ant -> bool)
  (kick : Z -> ptc -> R * R * R) (laser : R -> ptc -> R * R) (elem : Z -> species -> species)
  Nz zmin0 zmax0 b rank size n_order ng st nd ni cl c N iz calls s s' sh :
  (0 < cl)%R -> (0 < k_dt k)%R ->
  init Nz zmin0 zmax0 b rank size n_order ng st nd ni (cl * k_dt k) None = Ok c ->
  ~ (b = Periodic /\ size = 1) -> 0 <= c_nguard c -> (0 < c_dz c)%R ->
  k_period k = c_period c -> k_dz k = c_dz c ->
  get_Nz_and_iz c true true false (Some rank) = Ok (N, iz) ->
  env_ok cl (IZR iz * c_dz c) (IZR (iz + N) * c_dz c) exch here kick elem ->
  (Rabs (grid_speed k) <= cl)%R ->
  window_ok k cl s ->
  st_gmin s = (st_zmin s + IZR (iz - c_nguard c) * c_dz c)%R ->
  (forall an p, In an (st_ants s) -> In p (an_ptc an) -> (Rabs (vz p) <= cl)%R) ->
  steps k exch here kick laser elem calls s = Ok s' ->
  exists N' iz', get_Nz_and_iz c true true true (Some rank) = Ok (N', iz') /\
  exists t, st_trace s' = st_trace s ++ t /\
            Forall (touches_within sh (c_dz c) N' (c_nguard c / 2)) t.
Proof. exact (C08_main k exch here kick laser elem Nz zmin0 zmax0 b rank size n_order ng st nd ni cl c N iz calls s s' sh). Qed.
Print Assumptions C08_grid_operations_stay_inside.

(** The hypotheses hold for a two-rank run with a window at the speed of light; the window
    condition is what [set_moving_window] establishes. *)
Example C08_hypotheses_met : exists c,
  init 100 0 100 Open 0 2 32 (Some 64) 0 0 None (1 * k_dt ck) None = Ok c /\
  0 <= c_nguard c /\ (0 < c_dz c)%R /\ k_period ck = c_period c /\ k_dz ck = c_dz c /\
  get_Nz_and_iz c true true false (Some 0) = Ok (82, -32) /\
  env_ok 1 (IZR (-32) * c_dz c) (IZR (-32 + 82) * c_dz c)
    (cexch (IZR (-32) * c_dz c) (IZR (-32 + 82) * c_dz c)) where_b wkick welem /\
  window_ok ck 1 cs /\ st_species cs <> [] /\
  st_gmin cs = (st_zmin cs + IZR (-32 - c_nguard c) * c_dz c)%R.
Proof.
  destruct c_init as (c & I & G & D & P & E). exists c. rewrite D, G, P.
  split; [exact I|]. split; [lia|]. split; [lra|]. split; [reflexivity|]. split; [reflexivity|].
  split; [exact E|]. split; [apply c_env|]. split; [apply window_start; simpl; [lra|rewrite Rabs_pos_eq; lra]|].
  split; [discriminate|]. simpl. lra.
Qed.

(** [set_moving_window] gives a window that satisfies [window_ok]. *)
Theorem C08_window_starts_ok k vm v s : (0 < k_dz k)%R -> (Rabs v <= vm)%R ->
  window_ok k vm (set_moving_window k v s).
Proof. exact (window_start k vm v s). Qed.
Print Assumptions C08_window_starts_ok.

(** The constructor rejects parameters for which one step already needs more cells than half
    the guard region minus three. *)
Theorem C08_constructor_rejects b size g cdt dz : (0 < cdt)%R -> (0 < dz)%R ->
  ~ (b = Periodic /\ size = 1) ->
  ((IZR g / 2 - 3) * dz < 2 * cdt)%R -> init_period b size g cdt dz None = Err ValueError.
Proof. exact (auto_period_rejects b size g cdt dz). Qed.
Print Assumptions C08_constructor_rejects.
Example C08_rejects_met : ((IZR 8 / 2 - 3) * 1 < 2 * 1)%R.
Proof. lra. Qed.

(** One periodic rank (no guard cells, exchange at every step): the rows written by the
    deposition exist as long as a particle and the grid move by less than 1.5 cells (linear) or
    half a cell (cubic) per step. *)
Theorem C08_single_periodic_partial
  (k : conf) (exch : Z -> R -> species -> species) (here : R -> ant -> bool)
  (kick : Z -> ptc -> R * R * R) (laser : R -> ptc -> R * R) (elem : Z -> species -> species)
  Nz cl calls s s' sh :
  (0 < cl)%R -> (0 < k_dt k)%R -> (0 < k_dz k)%R -> k_period k = 1 -> 0 <= Nz ->
  env_ok cl 0 (IZR Nz * k_dz k) exch here kick elem ->
  st_win s = None ->
  st_gmin s = st_zmin s ->
  (forall an p, In an (st_ants s) -> In p (an_ptc an) -> (Rabs (vz p) <= cl)%R) ->
  ((cl + Rabs (grid_speed k)) * k_dt k < match sh with Linear => 3 / 2 | Cubic => 1 / 2 end * k_dz k)%R ->
  steps k exch here kick laser elem calls s = Ok s' ->
  exists t, st_trace s' = st_trace s ++ t /\
    Forall (fun e => match e with
      | EvDeposit _ sn => forall p, In p (members sn) ->
          forall i, In i (deposit_rows sh (z_cell (k_dz k) (sn_gmin sn) (pz p))) -> 0 <= i < Nz + 4
      | _ => True end) t.
Proof. exact (C08_single k exch here kick laser elem Nz cl calls s s' sh). Qed.
Print Assumptions C08_single_periodic_partial.

(** Without that condition it fails for cubic shapes: one periodic rank with 4 cells, c*dt = dz,
    default options, one particle at z=3.6 with speed 0.99c: the charge of the next time is
    deposited in row 8 of an array of 8 rows (0..7). *)
Theorem C08_single_periodic_cubic_refuted :
  exists k exch here kick laser elem o s c s',
    env_ok 1 0 (IZR 4 * 1) exch here kick elem /\
    init 4 0 4 Periodic 0 1 16 None 16 0 None (1 * k_dt k) None = Ok c /\
    c_nguard c = 0 /\ c_period c = k_period k /\ c_dz c = k_dz k /\
    st_gmin s = st_zmin s /\ st_win s = None /\ st_ants s = [] /\
    (forall sp p, In sp (st_species s) -> In p (sp_ptc sp) -> (0 <= pz p < 4 /\ Rabs (vz p) < 1)%R) /\
    steps k exch here kick laser elem [(o, 1)] s = Ok s' /\
    exists sn p, In (EvDeposit rho_next sn) (st_trace s') /\ In p (members sn) /\
      In (4 + 4) (deposit_rows Cubic (z_cell (k_dz k) (sn_gmin sn) (pz p))).
Proof.
  destruct w_final as (c & s' & A & B & C & D & E & F).
  exists wk, wexch, where_b, wkick, wlaser, welem, wo, ws, c, s'.
  split; [exact w_env|]. repeat (split; [assumption || reflexivity|]).
  split; [|split; assumption].
  intros sp p [<-|[]] [<-|[]]. cbn. rewrite Rabs_pos_eq; lra.
Qed.
Print Assumptions C08_single_periodic_cubic_refuted.
