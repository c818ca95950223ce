(** A single periodic rank with c*dt = dz: the witness of C08_periodic_cubic_refuted. *)
From Verif Require Import Base Decomp_Model Step_Model Step_Spec Period_Model Period_Spec.
From Coq Require Import Reals Lra.
From Flocq Require Import Core.Core.
Open Scope Z_scope.

Definition wk : conf := {| k_size := 1; k_period := 1; k_cross := true; k_gal := false;
  k_vcom := 0; k_dt := 1; k_dz := 1; k_diags := []; k_checks := [] |}.
Definition wp : ptc := {| px := 0; py := 0; pz := 3.6; vx := 0; vy := 0; vz := 0.99 |}.
Definition wsp : species := {| sp_tracer := false; sp_ptc := [wp] |}.
Definition inside_b (p : ptc) (zmin : R) : bool :=
  if Rle_dec (zmin + 0) (pz p) then if Rle_dec (pz p) (zmin + 4 * 1) then
    if Rle_dec (Rabs (vz p)) 1 then true else false else false else false.
Definition wexch (it : Z) (zmin : R) (sp : species) : species :=
  {| sp_tracer := sp_tracer sp; sp_ptc := filter (fun p => inside_b p zmin) (sp_ptc sp) |}.
Definition where_b (zmin : R) (a : ant) : bool := match an_ptc a with [] => true | _ => false end.
Definition wkick (it : Z) (p : ptc) : R * R * R := (0, 0, 0.99)%R.
Definition wlaser (t : R) (p : ptc) : R * R := (0, 0)%R.
Definition welem (it : Z) (sp : species) : species := sp.
Definition wo : opts := {| o_cc := true; o_divE := false; o_true_rho := false; o_movex := true; o_movep := true |}.
Definition ws : state := {| st_it := 0; st_time := 0; st_zmin := 0; st_gmin := 0;
  st_species := [wsp]; st_ants := []; st_src := initial_src; st_win := None; st_trace := [] |}.

Lemma w_env : env_ok 1 0 (IZR 4 * 1) wexch where_b wkick welem.
Proof.
  split; [|split; [|split]].
  - intros it zmin sp p H. apply filter_In in H as [_ H]. unfold inside_b in H.
    repeat destruct Rle_dec; try discriminate. auto.
  - intros zmin a p H Hp. unfold where_b in H. destruct (an_ptc a); [contradiction|discriminate].
  - intros. simpl. rewrite Rabs_pos_eq; lra.
  - intros it sp p H. exists p. auto.
Qed.
Lemma w_exch : wexch 0 0 wsp = wsp.
Proof.
  unfold wexch, wsp. cbn [sp_tracer sp_ptc filter]. unfold inside_b, wp. cbn [pz vz].
  rewrite (Rabs_pos_eq 0.99) by lra. repeat (destruct Rle_dec; [|lra]). reflexivity.
Qed.

Definition last_rho (t : list event) : list (R * R) :=
  flat_map (fun e => match e with EvDeposit rho_next sn => map (fun p => (sn_gmin sn, pz p)) (members sn) | _ => [] end) t.

Lemma w_run exch : exch 0 0%R wsp = wsp ->
  exists s', steps wk exch where_b wkick wlaser welem [(wo, 1)] ws = Ok s' /\
  last_rho (st_trace s') = [(0, 3.6 + 0.5 * 1 * 1 * 0.99 + 0.5 * 1 * -1 * 0.99 + 1 * 1 * 0.99 + 0.5 * 1 * -1 * 0.99
                              + 0.5 * 1 * 1 * 0.99)]%R.
Proof.
  intros E. unfold steps, step. change (Z.to_nat 1) with 1%nat.
  cbn -[IZR Rplus Rmult Ropp Rdiv].
  rewrite E. cbn -[IZR Rplus Rmult Ropp Rdiv]. eexists. split; [reflexivity|].
  cbn -[IZR Rplus Rmult Ropp Rdiv]. reflexivity.
Qed.

Lemma In_last_rho t z : In z (last_rho t) ->
  exists sn p, In (EvDeposit rho_next sn) t /\ In p (members sn) /\ (sn_gmin sn, pz p) = z.
Proof.
  intros H. apply in_flat_map in H as (e & He & H).
  destruct e as [|f sn| | | | | |]; try contradiction. destruct f; try contradiction.
  apply in_map_iff in H as (p & E & Hp). eauto.
Qed.

Lemma w_final : exists c s',
  init 4 0 4 Periodic 0 1 16 None 16 0 None (1 * k_dt wk) None = Ok c /\
  c_nguard c = 0 /\ c_period c = k_period wk /\ c_dz c = k_dz wk /\
  steps wk wexch where_b wkick wlaser welem [(wo, 1)] ws = Ok s' /\
  exists sn p, In (EvDeposit rho_next sn) (st_trace s') /\ In p (members sn) /\
    In (4 + 4) (deposit_rows Cubic (z_cell (k_dz wk) (sn_gmin sn) (pz p))).
Proof.
  destruct (w_run wexch w_exch) as (s' & E & L).
  eexists. exists s'. split; [reflexivity|]. split; [reflexivity|]. split; [reflexivity|].
  split; [cbn; lra|]. split; [exact E|].
  destruct (In_last_rho (st_trace s') _ ltac:(rewrite L; left; reflexivity)) as (sn & p & A & B & C).
  exists sn, p. split; [exact A|]. split; [exact B|]. injection C as -> ->.
  unfold z_cell, deposit_rows. cbn [k_dz wk].
  match goal with |- context [Zceil ?x] => replace (Zceil x) with 5 end; [cbn; auto 6|].
  symmetry. apply Zceil_imp. simpl. split; lra.
Qed.

(** A run on two ranks with a moving window at the speed of light, for the non-vacuity example. *)
Definition ck : conf := {| k_size := 2; k_period := 14; k_cross := true; k_gal := false;
  k_vcom := 0; k_dt := 1; k_dz := 1; k_diags := []; k_checks := [] |}.
Definition cinside_b (lo hi : R) (p : ptc) (zmin : R) : bool :=
  if Rle_dec (zmin + lo) (pz p) then if Rle_dec (pz p) (zmin + hi) then
    if Rle_dec (Rabs (vz p)) 1 then true else false else false else false.
Definition cexch (lo hi : R) (it : Z) (zmin : R) (sp : species) : species :=
  {| sp_tracer := sp_tracer sp; sp_ptc := filter (fun p => cinside_b lo hi p zmin) (sp_ptc sp) |}.
Lemma c_env lo hi : env_ok 1 lo hi (cexch lo hi) where_b wkick welem.
Proof.
  split; [|split; [|split]].
  - intros it zmin sp p H. apply filter_In in H as [_ H]. unfold cinside_b in H.
    repeat destruct Rle_dec; try discriminate. auto.
  - intros zmin a p H Hp. unfold where_b in H. destruct (an_ptc a); [contradiction|discriminate].
  - intros. simpl. rewrite Rabs_pos_eq; lra.
  - intros it sp p H. exists p. auto.
Qed.
Definition cs : state := set_moving_window ck 1
  {| st_it := 0; st_time := 0; st_zmin := 0; st_gmin := IZR (-32 - 64) * 1;
  st_species := [wsp]; st_ants := []; st_src := initial_src; st_win := None; st_trace := [] |}.
Lemma c_init : exists c,
  init 100 0 100 Open 0 2 32 (Some 64) 0 0 None (1 * k_dt ck) None = Ok c /\
  c_nguard c = 64 /\ (c_dz c = 1)%R /\ c_period c = 14 /\
  get_Nz_and_iz c true true false (Some 0) = Ok (82, -32).
Proof.
  unfold init. cbn [init_nguard bind].
  assert (E : init_period Open 2 64 (1 * k_dt ck) ((100 - 0) / 100) None = Ok 14).
  { unfold init_period. replace (Ztrunc _) with 14; [reflexivity|].
    symmetry. cbn [k_dt ck].
    replace ((64 / 2 - 3) / (2 * (1 * 1) / ((100 - 0) / 100)))%R with (29 / 2)%R by field.
    rewrite Ztrunc_floor by lra. apply Zfloor_imp. simpl. lra. }
  rewrite E. cbn [bind]. eexists. split; [reflexivity|]. cbn. repeat split; lra.
Qed.
Lemma window_start k vm v s : (0 < k_dz k)%R -> (Rabs v <= vm)%R -> window_ok k vm (set_moving_window k v s).
Proof.
  intros Hz Hv. unfold window_ok, set_moving_window, set_win.
  cbn [st_win st_time st_zmin w_last w_v w_zmin]. split; [reflexivity|]. split; [exact Hv|].
  destruct Rle_dec; lra.
Qed.
