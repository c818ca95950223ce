(** C12, C13, C14: the PIC loop. *)
From Verif Require Import Base Step_Model Step_Spec Step_Proofs Step_Window Period_Witness.
From Coq Require Import Reals Lra Sorting.Sorted.
Open Scope Z_scope.

Section Loop.
Context (k : conf) (exch : Z -> R -> species -> species) (here : R -> ant -> bool)
  (kick : Z -> ptc -> R * R * R) (laser : R -> ptc -> R * R) (elem : Z -> species -> species).
Notation steps := (steps k exch here kick laser elem).

(** For any sequence of calls: the clock and the exact schedule of each diagnostic and
    checkpoint (checkpoints are tested after the iteration counter was incremented). *)
Theorem C12_schedule calls s s' : steps calls s = Ok s' ->
  st_it s' = st_it s + total calls /\
  st_time s' = (st_time s + IZR (total calls) * k_dt k)%R /\
  (forall i d, nth_error (k_diags k) i = Some d -> 1 <= d_period d ->
     exists log, diag_log i (st_trace s') = diag_log i (st_trace s) ++ log /\
                 is_schedule d (st_it s) (st_it s + total calls) log) /\
  (forall i d, nth_error (k_checks k) i = Some d -> 1 <= d_period d ->
     exists log, check_log i (st_trace s') = check_log i (st_trace s) ++ log /\
                 is_schedule d (st_it s + 1) (st_it s + total calls + 1) log).
Proof. exact (C12_main k exch here kick laser elem calls s s'). Qed.

(** Two splittings of the same number of iterations (with any options) give the same clock
    and the same output iterations. *)
Theorem C12_split_independent calls1 calls2 s s1 s2 :
  steps calls1 s = Ok s1 -> steps calls2 s = Ok s2 -> total calls1 = total calls2 ->
  st_it s1 = st_it s2 /\ st_time s1 = st_time s2 /\
  forall i, diag_log i (st_trace s1) = diag_log i (st_trace s2) /\
            check_log i (st_trace s1) = check_log i (st_trace s2).
Proof. exact (C12_split k exch here kick laser elem calls1 calls2 s s1 s2). Qed.

(** Several ranks: the only exception is the ValueError of the argument checks (for a call with
    correct_divE, or with both use_true_rho and correct_currents), for every starting state and
    every history; otherwise every correction and push is consistent. *)
Theorem C13_no_inconsistent_push calls s : 1 < k_size k ->
  match steps calls s with
  | Ok s' => exists t, st_trace s' = st_trace s ++ t /\ Forall consistent t
  | Err e => e = ValueError /\
      exists o N, In (o, N) calls /\ (o_divE o = true \/ o_true_rho o = true /\ o_cc o = true)
  end.
Proof. exact (C13_main k exch here kick laser elem calls s). Qed.

(** One rank: no assertion fails; the only possible exception is the AttributeError of
    [correct_divE] (see C37). *)
Theorem C13_single_rank calls s : k_size k <= 1 ->
  match steps calls s with
  | Ok _ => True
  | Err e => e = AttributeError /\ k_cross k = true /\ exists o N, In (o, N) calls /\ o_divE o = true
  end.
Proof. exact (C13_single k exch here kick laser elem calls s). Qed.
End Loop.
Print Assumptions C12_schedule.
Print Assumptions C12_split_independent.
Print Assumptions C13_no_inconsistent_push.
Print Assumptions C13_single_rank.

(** Inside the loop, after any sequence of calls with at least one iteration, whatever the other options (Galilean
    frame included): the simulation box is within one cell of the nominal position of the window, z0 + v t. *)
Theorem C15_run_follows k exch here kick laser elem v calls s s' : (0 < k_dz k)%R -> 1 <= total calls ->
  steps k exch here kick laser elem calls (set_moving_window k v s) = Ok s' ->
  (Rabs (st_zmin s + v * (st_time s' - st_time s) - st_zmin s') < k_dz k)%R.
Proof.
  intros D T H. destruct (steps_window k exch here kick laser elem _ D calls _ _ H (or_intror eq_refl)) as [[E _]|[W (w & W1 & W2)]]; [lia|].
  destruct W as (w' & W3 & W4 & W5 & W6). rewrite W1 in W3. injection W3 as <-. rewrite W6, W5 in W2. cbn in W2.
  replace (st_zmin s + v * (st_time s' - st_time s))%R with (st_zmin s + v * (st_time s' - k_dt k - (st_time s - k_dt k)))%R by ring.
  exact W2.
Qed.
Print Assumptions C15_run_follows.
Example C15_run_exists : (0 < k_dz wk)%R /\ exists s', steps wk wexch where_b wkick wlaser welem [(wo, 3)] (set_moving_window wk 2 ws) = Ok s'.
Proof.
  split; [cbn; lra|].
  pose proof (C13_single_rank wk wexch where_b wkick wlaser welem [(wo, 3)] (set_moving_window wk 2 ws) ltac:(simpl; lia)) as H.
  destruct (steps _ _ _ _ _ _ _ _) as [s'|e]; [eauto|].
  destruct H as (_ & _ & o & N & [Hin|[]] & Hbad). injection Hin as <- <-. discriminate.
Qed.

(** Cross-deposition: all positions and grid edges are restored; the two densities are
    deposited with the transverse positions half a step ahead and the longitudinal ones half
    a step behind the current ones, and conversely. *)
Theorem C14_cross_deposition_restores k mp s (f := (fun x : R => if mp : bool then x else 0)%R)
  (h := (0.5 * k_dt k)%R) (g := (if k_gal k then k_vcom k else 0)%R) :
  let s' := cross_deposit k mp s in
  st_species s' = st_species s /\ st_ants s' = st_ants s /\
  st_zmin s' = st_zmin s /\ st_gmin s' = st_gmin s /\
  exists a b, st_trace s' = st_trace s ++ [EvDeposit rho_next_xy a; EvDeposit rho_next_z b] /\
    moved_species (f h) (f (- h)%R) (depositors (st_species s)) (sn_species a) /\
    moved_ants h (- h)%R (filter an_here (st_ants s)) (sn_ants a) /\
    sn_gmin a = (st_gmin s - g * h)%R /\
    moved_species (f (- h)%R) (f h) (depositors (st_species s)) (sn_species b) /\
    moved_ants (- h)%R h (filter an_here (st_ants s)) (sn_ants b) /\
    sn_gmin b = (st_gmin s + g * h)%R.
Proof. exact (C14_final k mp s). Qed.
Print Assumptions C14_cross_deposition_restores.

(** A run of one iteration exists (one particle, default options), so the hypotheses of C12
    hold for it. *)
Example C12_run_exists : exists s',
  steps wk wexch where_b wkick wlaser welem [(wo, 1)] ws = Ok s' /\ total [(wo, 1)] = 1.
Proof. destruct w_final as (c & s' & _ & _ & _ & _ & H & _). exists s'. split; [exact H|reflexivity]. Qed.

(** Several ranks, correction switched on and off between calls: runs without exception. *)
Definition wo' := {| o_cc := false; o_divE := false; o_true_rho := true; o_movex := true; o_movep := true |}.
Example C13_run_exists : exists s',
  steps ck (fun _ _ sp => sp) where_b wkick wlaser welem [(wo, 1); (wo', 1); (wo, 1)] ws = Ok s'.
Proof.
  pose proof (C13_no_inconsistent_push ck (fun _ _ sp => sp) where_b wkick wlaser welem
    [(wo, 1); (wo', 1); (wo, 1)] ws ltac:(simpl; lia)) as H.
  destruct (steps _ _ _ _ _ _ _ _) as [s'|e]; [eauto|].
  destruct H as (_ & o & N & Hin & Hbad). exfalso. simpl in Hin.
  destruct Hin as [Hin|[Hin|[Hin|[]]]]; injection Hin as <- <-; simpl in Hbad; intuition discriminate.
Qed.
