(** C104: the time declared in the output is the time of the values. *)
From Coq Require Import ZArith Reals List String Lra Lia.
From Verif Require Import Base Step_Model Cycle_Model Cycle_Spec Cycle_Proofs Timed_Spec Timed_Proofs.
Import ListNotations.
Open Scope R_scope.

(** Particles, charge density and density of each species: every iteration n that is due is in the output, with the values of the time n dt.
    Missing: several processes, a moving window, antennas, and forces. *)
Theorem C104_rho_particles_partial {P Q A W} (k : kernels P Q A W) (o : opts) (ps : R -> R -> R -> list P) (w : R -> W) d N n0 (s : st P Q A W) :
  free_motion k ps w -> o_move_x o = true -> at_time k ps w n0 s ->
  exists s' log, step k o [d] N s = Ok (s', [log]) /\
  (forall n, (n0 <= n < n0 + Z.of_nat N)%Z -> due d n = true -> exists v l, In (n, v, l) log) /\
  (forall n v l, In (n, v, l) log -> let t := IZR n * k_dt k in (n0 <= n)%Z /\
    (forall a, In (OField Frho a) l -> a = source k false (w t) (active k (ps t t t))) /\
    (forall nm a, In (ODensity nm a) l -> exists sps i p, dg_kind d = KDensity sps /\ In (nm, i) sps /\
       nth_error (ps t t t) i = Some p /\ a = source k false (w t) [p]) /\
    (forall i p, In (OPtcl i p) l -> nth_error (ps t t t) i = Some p)).
Proof.
  intros F M S. destruct (step_ok k o ps w F M d N n0 s S) as (s' & log & E & L & C). exists s', log. split; [exact E|]. split.
  - intros n Hn Hd. destruct (C n Hn Hd) as ([[m v] l] & Hx & E'). cbn in E'. subst m. exists v, l. exact Hx.
  - intros n v l Hx. destruct (L _ Hx) as [Hn G]. cbn [fst snd] in *. split; [exact Hn|]. split; [|split]; intros; exact (G _ H).
Qed.
Print Assumptions C104_rho_particles_partial.

(** The current: that of half a timestep before, corrected with the charge of the iteration and of the one before. *)
Theorem C104_J_half_step_before {P Q A W} (k : kernels P Q A W) (o : opts) (ps : R -> R -> R -> list P) (w : R -> W) d N n0 (s : st P Q A W) :
  free_motion k ps w -> o_move_x o = true -> at_time k ps w n0 s ->
  exists s' log, step k o [d] N s = Ok (s', [log]) /\
  forall n v l a, In (n, v, l) log -> In (OField FJ a) l -> n <> n0 ->
    let t := IZR n * k_dt k in let h := t - k_dt k / 2 in
    if o_cc o then corrected k ps w t a else a = source k true (w h) (active k (ps h h h)).
Proof.
  intros F M S. destruct (step_ok k o ps w F M d N n0 s S) as (s' & log & E & L & _). exists s', log. split; [exact E|].
  intros n v l a Hx Ha Hn. destruct (L _ Hx) as [_ G]. cbn [fst snd] in G. apply Z.eqb_neq in Hn. rewrite Hn in G. exact (G _ Ha).
Qed.
Print Assumptions C104_J_half_step_before.

(** ... except at the first iteration of a call of [step]: that of the declared time, without correction. *)
Theorem C104_J_first {P Q A W} (k : kernels P Q A W) (o : opts) (ps : R -> R -> R -> list P) (w : R -> W) d N n0 (s : st P Q A W) :
  free_motion k ps w -> o_move_x o = true -> at_time k ps w n0 s ->
  exists s' log, step k o [d] N s = Ok (s', [log]) /\
  forall v l a, In (n0, v, l) log -> In (OField FJ a) l -> let t := IZR n0 * k_dt k in a = source k true (w t) (active k (ps t t t)).
Proof.
  intros F M S. destruct (step_ok k o ps w F M d N n0 s S) as (s' & log & E & L & _). exists s', log. split; [exact E|].
  intros v l a Hx Ha. destruct (L _ Hx) as [_ G]. cbn [fst snd] in G. rewrite Z.eqb_refl in G. exact (G _ Ha).
Qed.
Print Assumptions C104_J_first.

(** One particle that moves at unit velocity along the three axes, on a grid that moves too; what it deposits is the distance of the sum of its coordinates
    to the grid. *)
Definition drift : kernels (R * R * R) unit R R := {|
  k_multi := false; k_filter := true; k_galilean := true; k_cross := true; k_window := false; k_period := 2; k_dt := 1;
  k_tracer := fun _ => false; k_init := fun _ ps => ps; k_exch := fun _ eb => eb; k_damp := fun _ eb => eb; k_T := fun eb => eb;
  k_exch_p := fun w _ ps => (w, ps); k_rank := fun _ q => q; k_zero := fun _ => 0; k_dep := fun _ w p a => a + (fst (fst p) + snd (fst p) + snd p - w);
  k_adep := fun _ _ _ a => a; k_reduce := fun _ a => a; k_add := fun _ _ a => a; k_fwd := fun _ a => a; k_filt := fun _ a => a;
  k_bwd := fun _ a => a; k_gather := fun _ _ p => p; k_ext := fun _ ps => ps; k_push_p := fun _ p => p;
  k_push_x := fun d fx fy fz p => (fst (fst p) + d * fx, snd (fst p) + d * fy, snd p + d * fz);
  k_ant_v := fun _ q => q; k_ant_x := fun _ _ _ _ q => q; k_shift := fun d w => w + d; k_elem := fun w _ ps => (w, ps);
  k_correct := fun j r0 r1 xy z => j + (r1 - r0) + (xy - z); k_pbwd := fun a => a; k_pfwd := fun a => a; k_push := fun _ eb _ _ _ => eb;
  k_zero_s := 0; k_divE := fun eb _ => eb; k_move := fun w _ ps => (w, ps, fun eb => eb, fun a => a, fun a => a); k_bound := fun _ _ eb => (eb, eb) |}.
Definition drift_st : st (R * R * R) unit R R := {| ptc := [(0, 0, 0)]; ants := []; env := 0; time := 0; it := 0;
  iEB := (0, 0); iJ := 0; irho := 0; sEB := (0, 0); src := {| aJ := 0; aprev := 0; anext := 0; axy := 0; az := 0 |};
  flg := {| aJ := false; aprev := false; anext := false; axy := false; az := false |} |}.
Definition moving (tx ty tz : R) : list (R * R * R) := [(tx, ty, tz)].
Definition grid (t : R) : R := t.
Definition uncorrected : opts := {| o_cc := false; o_divE := false; o_true_rho := false; o_move_x := true; o_move_p := true |}.
Definition every (kd : kind) : diagn := {| dg_sched := {| d_period := 1; d_min := 0; d_max := None |}; dg_kind := kd |}.

Example C104_met : free_motion drift moving grid /\ o_move_x uncorrected = true /\ at_time drift moving grid 0 drift_st /\
  due (every (KField [Frho])) 5 = true /\ source drift false (grid 5) (active drift (moving 5 5 5)) = 10 /\ corrected drift moving grid 1 5 /\
  (exists v l, snd (write drift (every (KPtcl [0%nat])) drift_st) = [(0%Z, v, l)] /\ In (OPtcl 0 (0, 0, 0)) l).
Proof.
  split; [constructor; try reflexivity; intros; try reflexivity; discriminate|]. split; [reflexivity|].
  split; [constructor; try reflexivity; cbn; unfold moving, grid; rewrite ?Rmult_0_l; reflexivity|].
  split; [reflexivity|]. split; [unfold source, spectral_source, active, grid; cbn; lra|].
  split; [|cbn; do 2 eexists; split; [reflexivity|]; left; reflexivity].
  eexists. split; [eexists; eexists; split; [reflexivity|intros _; split; reflexivity]|]. unfold spectral_source, active, grid, moving. cbn. lra.
Qed.

(** Hence the time in the file, iteration times timestep with a zero offset, is not that of the current: at iteration 1 the coordinates of the particle
    are 1, and the current is that of a particle at 1/2. *)
Theorem C104_J_refuted : exists (k : kernels (R * R * R) unit R R) o ps w d s s' log v l a,
  free_motion k ps w /\ o_move_x o = true /\ at_time k ps w 0 s /\ step k o [d] 2 s = Ok (s', [log]) /\
  In (1%Z, v, l) log /\ In (OField FJ a) l /\ k_dt k = 1 /\ a <> source k true (w 1) (active k (ps 1 1 1)) /\
  a = source k true (w (1/2)) (active k (ps (1/2) (1/2) (1/2))).
Proof.
  destruct C104_met as (F & M & S & _).
  destruct (C104_J_half_step_before drift uncorrected moving grid (every (KField [FJ])) 2 0 drift_st F M S) as (s' & log & E & J).
  assert (X : exists v a, In (1%Z, v, [OField FJ a]) log).
  { unfold step in E. cbn [drift k_multi andb] in E. cbv -[Rplus Rminus Rmult Rdiv IZR Ropp Rinv] in E. injection E as _ <-. do 2 eexists. right. left. reflexivity. }
  destruct X as (v & a & Hx). pose proof (J 1%Z v [OField FJ a] a Hx (or_introl eq_refl) ltac:(discriminate)) as Ha. cbn -[source active grid moving] in Ha.
  exists drift, uncorrected, moving, grid, (every (KField [FJ])), drift_st, s', log, v, [OField FJ a], a.
  split; [exact F|]. split; [exact M|]. split; [exact S|]. split; [exact E|]. split; [exact Hx|]. split; [left; reflexivity|]. split; [reflexivity|].
  rewrite Ha. unfold source, spectral_source, active, grid, moving. cbn. split; lra.
Qed.
Print Assumptions C104_J_refuted.
