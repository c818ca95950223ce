(** C105: the display of the progress and the handling of errors. *)
From Coq Require Import ZArith Reals List String Lra Lia.
From Flocq Require Import Core.
From Verif Require Import Base Show_Model Show_Spec Show_Proofs.
Import ListNotations.
Open Scope R_scope.

(** With at least one iteration, the display changes nothing: same simulation, or same exception. *)
Theorem C105_transparent {S} (rnd : R -> R) (clk : nat -> R) show rank (pre : S -> res S) body post N s :
  N <> O -> result (step rnd clk show rank pre body post N s) = result (step rnd clk false rank pre body post N s).
Proof. apply transparent. Qed.
Print Assumptions C105_transparent.

(** What the first process shows: one line per iteration, then the summary. Missing: the last iteration is not in the summary (refuted below). *)
Theorem C105_shown_partial {S} (rnd : R -> R) (clk : nat -> R) (pre : S -> res S) body post N s s' out :
  N <> O -> rounding (Z.of_nat N) rnd -> step rnd clk true 0 pre body post N s = Ok (s', out) ->
  exists lines h m q ms, out = Compiling :: lines ++ [Summary h m q ms] /\ (length lines = N - 1)%nat /\
  (forall i l, nth_error lines i = Some l -> right_bar rnd clk (Z.of_nat N) (i + 1) l) /\
  (0 <= clk N - clk 0%nat -> shows (clk N - clk 0%nat) (h, m, q) /\ IZR ms <= 1000 * ((clk N - clk 0%nat) / INR N) < IZR ms + 1).
Proof.
  intros HN HR E. destruct (shown_ok rnd clk N HR pre body post s s' out HN E) as (ls & h & m & q & ms & -> & L & A & B).
  destruct ls as [|l0 ls]; [cbn in L; congruence|]. exists ls, h, m, q, ms. pose proof (A O l0 eq_refl) as A0. cbn in A0. subst l0.
  split; [reflexivity|]. split; [cbn in L; lia|]. split; [|exact B]. intros i l H. rewrite Nat.add_1_r. exact (A (Datatypes.S i) l H).
Qed.
Print Assumptions C105_shown_partial.

(** Both arithmetics meet the hypothesis on the rounding. *)
Theorem C105_roundings N : rounding N (fun x => x) /\ ((N <= 2 ^ 53)%Z -> rounding N (round radix2 (FLT_exp (-1074) 53) ZnearestE)).
Proof. split; [apply rounding_exact|apply rounding_binary64]. Qed.
Print Assumptions C105_roundings.

(** A run of 30 iterations of 2 seconds; the state counts the iterations. At iteration 25 the bar has 30 characters out of 35, and 10 seconds remain. *)
Definition counter (N : nat) : res (Z * list line) := step (fun x => x) (fun j => 2 * INR j) true 0 (fun s => Ok s) (fun _ s => Ok (s + 1)%Z) (fun s => Ok s) N 0%Z.
Lemma count_loop rnd clk : forall n i b s out, loop rnd clk false (fun _ s => Ok (s + 1)%Z) n i b s out = Ok ((s + Z.of_nat n)%Z, b, out).
Proof. induction n as [|n IH]; intros i b s out; cbn [loop]; [rewrite Z.add_0_r; reflexivity|]. cbn [bind]. rewrite IH. do 3 f_equal. lia. Qed.
Lemma counter_ok N : N <> O -> result (counter N) = Ok (Z.of_nat N).
Proof. intros HN. unfold counter. rewrite C105_transparent by exact HN. unfold step. cbn [andb bind]. rewrite count_loop. reflexivity. Qed.
Lemma counter_shown N s out : N <> O -> counter N = Ok (s, out) -> exists lines h m q ms, out = Compiling :: lines ++ [Summary h m q ms] /\ (length lines = N - 1)%nat /\
  (forall i l, nth_error lines i = Some l -> right_bar (fun x => x) (fun j => 2 * INR j) (Z.of_nat N) (i + 1) l) /\ (0 <= 2 * INR N - 2 * INR 0 -> shows (2 * INR N - 2 * INR 0) (h, m, q)).
Proof.
  intros HN E. destruct (C105_shown_partial _ _ _ _ _ _ _ _ _ HN (rounding_exact _) E) as (ls & h & m & q & ms & A & B & C & D).
  exists ls, h, m, q, ms. repeat split; try assumption; apply D; assumption.
Qed.
Example C105_met : (exists out, counter 30 = Ok (30%Z, out) /\
  exists lines h m q ms, out = Compiling :: lines ++ [Summary h m q ms] /\ shows 60 (h, m, q) /\
  exists full ms', nth_error lines 24 = Some (Bar full (35 - full) 26 30 (Some (0, 0, 10)%Z) ms') /\ full = 30%Z).
Proof.
  pose proof (counter_ok 30 ltac:(discriminate)) as X. pose proof (counter_shown 30) as G. destruct (counter 30) as [[s out]|]; [|discriminate X].
  specialize (G s out ltac:(discriminate) eq_refl). cbn [result] in X. injection X as ->. exists out. split; [reflexivity|].
  destruct G as (ls & h & m & q & ms & -> & L & A & B).
  do 5 eexists. split; [reflexivity|]. split.
  - assert (X : 2 * INR 30 - 2 * INR 0 = 60) by (rewrite !INR_IZR_INZ; change (Z.of_nat 30) with 30%Z; change (Z.of_nat 0) with 0%Z; lra). rewrite X in B. apply B. lra.
  - destruct (nth_error ls 24) as [l|] eqn:El; [|apply nth_error_None in El; rewrite L in El; cbn in El; lia].
    destruct (A _ _ El) as (full & blank & eta & ms' & -> & (F1 & F2 & F3) & _ & F4 & F5 & F6).
    assert (D : forall j, duration (fun j => 2 * INR j) j = 2) by (intros j; unfold duration; rewrite !plus_INR; cbn; lra).
    destruct eta as [x|]; [|lia]. destruct F5 as [_ F5]. destruct (F5 2 2 ltac:(lra)) as (t & T1 & T2); [intros j _; rewrite D; lra|].
    change (Z.of_nat 30 - Z.of_nat (24 + 1))%Z with 5%Z in T2. assert (Ht : t = 10) by lra. subst t. destruct x as [[h' m'] q']. unfold shows in T1. destruct T1 as (T1 & T3).
    assert (T : (3600 * h' + 60 * m' + q' = 10)%Z).
    { destruct T3 as [T3 T4]. apply le_IZR in T3. rewrite <- plus_IZR in T4. apply lt_IZR in T4. lia. }
    assert (F : full = 30%Z).
    { specialize (F4 (fun x => eq_refl)). change (Z.of_nat (24 + 1) + 1)%Z with 26%Z in F4. change (Z.of_nat 30) with 30%Z in F4. destruct F4 as [F4 F4']. assert (IZR full < 31) by lra. apply (lt_IZR full 31) in H. assert (29 < IZR full) by lra. apply (lt_IZR 29 full) in H0. lia. }
    exists full, ms'. split; [|exact F]. replace blank with (35 - full)%Z by lia. assert (h' = 0 /\ m' = 0 /\ q' = 10)%Z as (-> & -> & ->) by lia. reflexivity.
Qed.

(** [step(0)] with the display (the default) raises ZeroDivisionError on the first process, and returns without it and on the other processes. *)
Theorem C105_step_0_refuted {S} (rnd : R -> R) (clk : nat -> R) (pre : S -> res S) body post s s1 s2 :
  pre s = Ok s1 -> post s1 = Ok s2 -> step rnd clk true 0 pre body post 0 s = Err ZeroDivisionError /\
  step rnd clk false 0 pre body post 0 s = Ok (s2, []) /\ forall rank, rank <> 0%Z -> step rnd clk true rank pre body post 0 s = Ok (s2, []).
Proof.
  intros E1 E2. unfold step. rewrite E1. cbn. rewrite E2. split; [reflexivity|]. split; [reflexivity|]. intros rank Hr. apply Z.eqb_neq in Hr. rewrite Hr. reflexivity.
Qed.
Print Assumptions C105_step_0_refuted.

(** The total time and the time per iteration leave out the last iteration: a call of [step(1)] that takes T seconds shows 0 s and 0 ms, for every T. *)
Theorem C105_total_refuted (T : R) : exists clk : nat -> R, clk 2%nat - clk 0%nat = T /\ forall rnd (S : Type) (pre : S -> res S) body post s s' out,
  rounding 1 rnd -> step rnd clk true 0 pre body post 1 s = Ok (s', out) -> out = [Compiling; Summary 0 0 0 0].
Proof.
  exists (fun j => match j with 2%nat => T | _ => 0 end). split; [cbn; lra|]. intros rnd S pre body post s s' out HR E.
  destruct (C105_shown_partial _ _ _ _ _ _ _ _ _ (Nat.neq_succ_0 0) HR E) as (ls & h & m & q & ms & -> & L & _ & B).
  destruct ls; [|discriminate L]. cbn [app]. destruct B as [B1 B2]; [lra|]. unfold shows in B1. destruct B1 as (B1 & B3 & B4).
  assert (X : (3600 * h + 60 * m + q = 0)%Z) by (replace (0 - 0) with 0 in * by ring; apply le_IZR in B3; rewrite <- plus_IZR in B4; apply lt_IZR in B4; lia).
  assert (Y : ms = 0%Z).
  { cbn in B2. destruct B2 as [B2 B5]. replace (1000 * ((0 - 0) / 1)) with 0 in * by field. apply le_IZR in B2. rewrite <- plus_IZR in B5. apply lt_IZR in B5. lia. }
  assert (h = 0 /\ m = 0 /\ q = 0)%Z as (-> & -> & ->) by lia. rewrite Y. reflexivity.
Qed.
Print Assumptions C105_total_refuted.

(** Errors: where CUDA is installed, an exception reaches the caller as it is; a lack of GPU memory stops all the processes if there are several. *)
Theorem C105_errors {V} (size : Z) (f : outcome V) :
  catch_gpu_memory_error true size f = match f with Raise e => if (String.eqb e "OutOfMemoryError" && (1 <? size)%Z)%bool then Abort else Raise e | _ => f end.
Proof. destruct f as [v|e|]; cbn; try reflexivity. destruct (String.eqb e "OutOfMemoryError"); [|reflexivity]. unfold handle_cuda_memory_error. destruct (1 <? size)%Z; reflexivity. Qed.
Print Assumptions C105_errors.
(** Without CUDA, every exception of the ionization and of the Compton scattering (an interruption by the user, for instance) is replaced by a NameError. *)
Theorem C105_errors_refuted {V} (size : Z) (e : string) : catch_gpu_memory_error (V := V) false size (Raise e) = Raise "NameError" /\
  "KeyboardInterrupt"%string <> "NameError"%string.
Proof. split; [reflexivity|discriminate]. Qed.
Print Assumptions C105_errors_refuted.
