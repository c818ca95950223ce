(** C75: diagnostics change neither the simulation nor each other. C76: splitting a run into several calls of [step]. *)
From Verif Require Import Base Step_Model Decomp_Model Mirror_Model Damp_Model Damp_Proofs Cycle_Model Cycle_Spec Cycle_Proofs.
From Coq Require Import Reals Lra String.
From Coquelicot Require Import Complex.
Import ListNotations.
Open Scope Z_scope.

(** The simulation after [step] is the same whatever the diagnostics (E, B, rho, J, particles, positions, clock: all of it). *)
Theorem C75_simulation {P Q A W} (k : kernels P Q A W) (o : opts) (ds : list diagn) (n : nat) (s : st P Q A W) :
  simulation (step k o ds n s) = simulation (step k o [] n s).
Proof. apply step_sim. Qed.
Print Assumptions C75_simulation.

(** What a diagnostic records is the same when it is alone. *)
Theorem C75_records {P Q A W} (k : kernels P Q A W) (o : opts) (ds : list diagn) (n : nat) (s : st P Q A W) i d :
  nth_error ds i = Some d -> records i (step k o ds n s) = records 0 (step k o [d] n s).
Proof. apply step_rec. Qed.
Print Assumptions C75_records.

(** Without antenna, the recorded rho is the sum of the recorded densities of the species that are not tracers. *)
Theorem C75_density {P Q A W} (k : kernels P Q A W) (o : opts) (plus : A -> A -> A) (zero : A) dr dd names n s s' logs :
  monoid plus zero -> linear_charge k plus zero -> keeps_species k -> k_period k = 1 -> (o_true_rho o = false \/ k_multi k = false) ->
  dg_kind dr = KField [Frho] -> dg_kind dd = KDensity names -> dg_sched dr = dg_sched dd ->
  ants s = [] -> map snd names = positions 0 (map (k_tracer k) (ptc s)) ->
  step k o [dr; dd] n s = Ok (s', logs) -> exists a b, logs = [a; b] /\ Forall2 (is_sum_of plus zero) a b.
Proof. intros. eapply step_sum; eassumption. Qed.
Print Assumptions C75_density.

(** A toy code: arrays are integers, a species is (is_tracer, its charge). *)
Definition toy (multi : bool) (correct : Z) : kernels (bool * Z) unit Z Z := {|
  k_multi := multi; k_filter := true; k_galilean := false; k_cross := false; k_window := false; k_period := 1; k_dt := 1%R;
  k_tracer := fst; k_init := fun _ ps => ps; k_exch := fun _ eb => eb; k_damp := fun _ eb => eb; k_T := fun eb => eb;
  k_exch_p := fun w _ ps => (w, ps); k_rank := fun _ q => q; k_zero := fun _ => 0; k_dep := fun _ _ p a => a + snd p;
  k_adep := fun _ _ _ a => a; k_reduce := fun _ a => a; k_add := fun _ _ a => 2 * a; k_fwd := fun _ a => 3 * a; k_filt := fun _ a => 5 * a;
  k_bwd := fun _ a => 7 * a; k_gather := fun _ _ p => p; k_ext := fun _ ps => ps; k_push_p := fun _ p => p; k_push_x := fun _ _ _ _ p => p;
  k_ant_v := fun _ q => q; k_ant_x := fun _ _ _ _ q => q; k_shift := fun _ w => w; k_elem := fun w _ ps => (w + 1, ps);
  k_correct := fun _ _ _ _ _ => correct; k_pbwd := fun a => a; k_pfwd := fun a => a; k_push := fun _ eb j _ _ => (fst eb + j, snd eb);
  k_zero_s := 0; k_divE := fun eb _ => eb; k_move := fun w _ ps => (w, ps, fun eb => eb, fun a => a, fun a => a); k_bound := fun _ _ eb => (eb, eb) |}.
Definition toy_st : st (bool * Z) unit Z Z := {| ptc := [(false, 2); (true, 10); (false, 3)]; ants := []; env := 0; time := 0%R; it := 4;
  iEB := (1, 1); iJ := 0; irho := 0; sEB := (0, 0); src := {| aJ := 0; aprev := 0; anext := 0; axy := 0; az := 0 |};
  flg := {| aJ := false; aprev := false; anext := false; axy := false; az := false |} |}.
Definition std : opts := {| o_cc := true; o_divE := false; o_true_rho := false; o_move_x := true; o_move_p := true |}.
Definition always : diag := {| d_period := 1; d_min := 0; d_max := None |}.
Definition d_rho := {| dg_sched := always; dg_kind := KField [Frho] |}.
Definition d_J := {| dg_sched := always; dg_kind := KField [FJ] |}.
Definition d_dens := {| dg_sched := always; dg_kind := KDensity [("a", 0%nat); ("c", 2%nat)]%string |}.

Example C75_met : monoid Z.add 0 /\ linear_charge (toy true 1) Z.add 0 /\ keeps_species (toy true 1) /\
  (exists s', step (toy true 1) std [d_rho; d_dens] 2 toy_st =
    Ok (s', [ [(4, 0, [OField Frho 1050]); (5, 1, [OField Frho 1050])];
              [(4, 0, [ODensity "a" 420; ODensity "c" 630]); (5, 1, [ODensity "a" 420; ODensity "c" 630])] ])) /\
  map snd [("a", 0%nat); ("c", 2%nat)]%string = positions 0 (map (k_tracer (toy true 1)) (ptc toy_st)).
Proof.
  split; [split; intros; lia|]. split; [split; intros; unfold additive; cbn [toy k_zero k_dep k_adep k_reduce k_add k_fwd k_filt k_bwd]; try split; intros; lia|].
  split; [split; intros; reflexivity|]. split; [|reflexivity].
  cbv -[Rplus Rmult Rdiv IZR Ropp Rinv]. eexists. reflexivity.
Qed.

(** Splitting a run does not change its result, if the operations on E and B at the start of a call do nothing after those of the
    end of an iteration, and if the call starts at an iteration with particle exchange. Missing: open boundaries (refuted below),
    other exchange periods, and the records of J at the first iteration of a call (refuted below). *)
Theorem C76_partial {P Q A W} (k : kernels P Q A W) (o : opts) n1 n2 (s s1 : st P Q A W) :
  n1 <> O -> seamless k -> simulation (step k o [] n1 s) = Ok s1 -> it s1 mod k_period k = 0 ->
  (k_window k = true -> k_init k (env s1) (ptc s1) = ptc s1) ->
  step k o [] (n1 + n2) s = step k o [] n2 s1.
Proof. apply step_split. Qed.
Print Assumptions C76_partial.

(** [step(0)] replaces E and B by their exchanged and damped values. *)
Theorem C76_step_0 {P Q A W} (k : kernels P Q A W) (o : opts) ds (s s' : st P Q A W) l :
  step k o ds 0 s = Ok (s', l) -> iEB s' = k_damp k (env s) (k_exch k (env s) (iEB s)).
Proof. apply step_0. Qed.
Print Assumptions C76_step_0.

Example C76_met : seamless (toy true 1) /\ (exists s1, simulation (step (toy true 1) std [] 1 toy_st) = Ok s1 /\ it s1 mod 1 = 0 /\ iEB s1 = (3, 1)).
Proof. split; [intros w t eb; split; reflexivity|]. cbv -[Rplus Rmult Rdiv IZR Ropp Rinv]. eexists. repeat split; reflexivity. Qed.

(** The records of J depend on how the run is split. *)
Theorem C76_J_refuted : exists (k : kernels (bool * Z) unit Z Z) o d s s1 r1 r2 r, seamless k /\ k_period k = 1 /\
  step k o [d] 1 s = Ok (s1, [r1]) /\ (exists s2, step k o [d] 1 s1 = Ok (s2, [r2])) /\
  (exists s2, step k o [d] 2 s = Ok (s2, [r])) /\ r <> r1 ++ r2.
Proof.
  exists (toy false 1), std, d_J, toy_st. do 4 eexists. split; [intros w t eb; split; reflexivity|]. split; [reflexivity|].
  split; [cbv -[Rplus Rmult Rdiv IZR Ropp Rinv]; reflexivity|]. split; [cbv -[Rplus Rmult Rdiv IZR Ropp Rinv]; eexists; reflexivity|].
  split; [cbv -[Rplus Rmult Rdiv IZR Ropp Rinv]; eexists; reflexivity|]. intros H. discriminate H.
Qed.
Print Assumptions C76_J_refuted.

(** A code whose transforms are exact, without particles, and with the damping of the open boundaries. *)
Definition open_k (c : comm) (Nz : Z) : kernels unit unit (@igrid C) unit :=
  let D := fun g => match damp_EB_open_boundary c Nz g with Ok g' => g' | Err _ => g end in
  let D2 := fun eb => (D (fst eb), D (snd eb)) in
  let z := {| ig_pml := false; ig_dz := 1%R; ig_arr := fun _ _ _ => RtoC 0 |} in {|
  k_multi := false; k_filter := false; k_galilean := false; k_cross := false; k_window := false; k_period := 1; k_dt := 1%R;
  k_tracer := fun _ => false; k_init := fun _ ps => ps; k_exch := fun _ eb => eb; k_damp := fun _ eb => D2 eb; k_T := fun eb => eb;
  k_exch_p := fun w _ ps => (w, ps); k_rank := fun _ q => q; k_zero := fun _ => z; k_dep := fun _ _ p a => a;
  k_adep := fun _ _ _ a => a; k_reduce := fun _ a => a; k_add := fun _ _ a => a; k_fwd := fun _ a => a; k_filt := fun _ a => a;
  k_bwd := fun _ a => a; k_gather := fun _ _ p => p; k_ext := fun _ ps => ps; k_push_p := fun _ p => p; k_push_x := fun _ _ _ _ p => p;
  k_ant_v := fun _ q => q; k_ant_x := fun _ _ _ _ q => q; k_shift := fun _ w => w; k_elem := fun w _ ps => (w, ps);
  k_correct := fun j _ _ _ _ => j; k_pbwd := fun a => a; k_pfwd := fun a => a; k_push := fun _ eb _ _ _ => eb;
  k_zero_s := z; k_divE := fun eb _ => eb; k_move := fun w _ ps => (w, ps, fun eb => eb, fun a => a, fun a => a);
  k_bound := fun _ _ eb => (D2 eb, D2 eb) |}.

(** With open boundaries, the fields depend on how the run is split: they are damped once more at every call. *)
Theorem C76_refuted : exists c Nz s s1 s2 s3,
  init 100 0 1 Open 0 1 32 None 31 4 None (1 / 200)%R None = Ok c /\
  step (open_k c Nz) std [] 1 s = Ok (s1, []) /\ step (open_k c Nz) std [] 1 s1 = Ok (s2, []) /\
  step (open_k c Nz) std [] 2 s = Ok (s3, []) /\
  ig_arr (fst (iEB s2)) Er 49 0 = RtoC (1 / 16) /\ ig_arr (fst (iEB s3)) Er 49 0 = RtoC (1 / 8).
Proof.
  unfold init. change (init_nguard Open 1 32 None 31) with (@Ok Z 32%Z). cbn [bind].
  unfold init_period. cbv zeta.
  match goal with |- context [Raux.Ztrunc ?x] => replace x with 13%R by field end. rewrite Raux.Ztrunc_IZR.
  eexists. exists 204.
  set (g := {| ig_pml := false; ig_dz := 1%R; ig_arr := fun _ _ _ => RtoC 1 |} : @igrid C).
  exists {| ptc := []; ants := []; env := tt; time := 0%R; it := 0; iEB := (g, g); iJ := g; irho := g; sEB := (g, g);
            src := {| aJ := g; aprev := g; anext := g; axy := g; az := g |};
            flg := {| aJ := false; aprev := false; anext := false; axy := false; az := false |} |}.
  do 3 eexists. split; [reflexivity|]. do 3 (split; [cbv -[Rplus Rmult Rdiv IZR Ropp Rinv damp_EB_open_boundary]; reflexivity|]).
  assert (E : generate_damp_array 32 4 16 49 = (1 / 2)%R).
  { destruct (F_sin 32 4 16 49 ltac:(lia) ltac:(lia)) as [-> _]. replace (IZR (49 - (32 + 16)) * PI / 4)%R with (PI / 4)%R by (cbn; field).
    rewrite sin_PI4.
    replace ((1 / sqrt 2) ^ 2)%R with (1 / (sqrt 2 * sqrt 2))%R by (field; apply Rgt_not_eq, sqrt_lt_R0; lra). rewrite sqrt_sqrt by lra. reflexivity. }
  split; cbn -[generate_damp_array Cmult RtoC]; rewrite !E; unfold Cmult, RtoC; cbn; f_equal; field.
Qed.
Print Assumptions C76_refuted.
