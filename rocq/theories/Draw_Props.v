(** C109: ionization happens with the probability that has been computed. *)
From Coq Require Import ZArith Reals List Lia Lra.
From Flocq Require Import Core.
From Verif Require Import Base Sort_Model Ionize_Model Ionize_Spec Ionize_Proofs Ionize_Props Draw_Model Draw_Spec Draw_Proofs.
Import ListNotations.
Open Scope Z_scope.

(** On CPU: out of the 2^53 equally likely draws for an ion, the number of those that ionize it is the probability p times 2^53, rounded up; whatever the draws of the
    other ions. In particular an ion in zero field (p = 0) is never ionized. *)
Theorem C109_cpu : forall c tab level_start level_max Ntot batch_size ion per_level targets s st others ip,
  ready level_start level_max Ntot batch_size ion per_level targets s st ip -> (0 <= adk_prefactor tab (ionization_level s ip))%R ->
  exists n, exactly (2 ^ 53) (ionizes c tab level_start level_max Ntot batch_size ion per_level targets s st others ip false) n /\
  (probability c tab ion ip (ionization_level s ip) * IZR (2 ^ 53) <= IZR n < probability c tab ion ip (ionization_level s ip) * IZR (2 ^ 53) + 1)%R.
Proof.
  intros c tab level_start level_max Ntot batch_size ion per_level targets s st others ip R A.
  pose proof (C28_probability c tab ion ip (ionization_level s ip) A) as P. apply count_below; [reflexivity|lra|]. intros k.
  rewrite (ionizes_iff c tab level_start level_max Ntot batch_size ion per_level targets s st others ip false k R). reflexivity.
Qed.
Print Assumptions C109_cpu.

(** On GPU, with the generator of [cupy_rand], which is an assumption on the external libraries (see Draw_Model.v): at least 127 of the 2^32 equally likely draws ionize the ion as soon as its probability is not zero, however small it is: the probability is never below 2.9e-8. *)
Theorem C109_gpu_floor : forall c tab level_start level_max Ntot batch_size ion per_level targets s st others ip,
  ready level_start level_max Ntot batch_size ion per_level targets s st ip -> (0 < probability c tab ion ip (ionization_level s ip))%R ->
  at_least (2 ^ 32) (ionizes c tab level_start level_max Ntot batch_size ion per_level targets s st others ip true) 127.
Proof.
  intros c tab level_start level_max Ntot batch_size ion per_level targets s st others ip R P.
  exists (map (fun i => 2 ^ 32 - 127 + i) (range 127)). split; [|split].
  - apply FinFun.Injective_map_NoDup; [intros a b E; lia|apply NoDup_range].
  - intros k I. apply in_map_iff in I. destruct I as (i & <- & I). apply in_range in I. split; [lia|].
    apply (ionizes_iff c tab level_start level_max Ntot batch_size ion per_level targets s st others ip true _ R). cbn [random_draw]. rewrite zero by lia. exact P.
  - reflexivity.
Qed.
Print Assumptions C109_gpu_floor.

(** On CPU and GPU: an ion whose probability is zero, as in zero field, is not ionized by any draw. *)
Theorem C109_zero : forall c tab level_start level_max Ntot batch_size ion per_level targets s st others ip use_cuda k,
  ready level_start level_max Ntot batch_size ion per_level targets s st ip -> probability c tab ion ip (ionization_level s ip) = 0%R -> 0 <= k ->
  ~ ionizes c tab level_start level_max Ntot batch_size ion per_level targets s st others ip use_cuda k.
Proof.
  intros c tab level_start level_max Ntot batch_size ion per_level targets s st others ip use_cuda k R P K I.
  apply (ionizes_iff c tab level_start level_max Ntot batch_size ion per_level targets s st others ip use_cuda k R) in I. rewrite P in I. pose proof (draw_nonneg use_cuda k K). lra.
Qed.
Print Assumptions C109_zero.

(** Both cases are met by an ion in a weak field, with a probability of at most 10^-12: on GPU it is ionized more than 29000 times too often. *)
Definition weak : adk := {| adk_prefactor := fun _ => / IZR (10 ^ 12); adk_power := fun _ => 0; adk_exp_prefactor := fun _ => 0 |}%R.
Definition ion1 (_ : Z) : ptc := {| x := 0; y := 0; z := 0; ux := 0; uy := 0; uz := 0; inv_gamma := 1; w := 1; Ex := 1; Ey := 0; Ez := 0; Bx := 0; By := 0; Bz := 0 |}%R.
Definition s1 : istate := {| ionized_from := fun _ => -1; n_ionized := fun _ _ => 0; ionization_level := fun _ => 0; w_times_level := fun _ => 0%R |}.
Example C109_met : forall st, sizes_ok st -> ready 0 1 1 10 ion1 false [0%nat] s1 st 0 /\ (0 <= adk_prefactor weak (ionization_level s1 0))%R /\
  (0 < probability 1 weak ion1 0 (ionization_level s1 0) <= / IZR (10 ^ 12))%R /\ (29000 * / IZR (10 ^ 12) < 127 / IZR (2 ^ 32))%R.
Proof.
  intros st Hs. assert (W : (0 < / IZR (10 ^ 12))%R) by (apply Rinv_0_lt_compat, IZR_lt; reflexivity).
  split; [|split; [apply Rlt_le, W|split]].
  - split; [lia|]. split; [intros i Hi; cbn; lia|]. split; [intros i Hi; cbn; lra|]. split; [exact Hs|]. split; [reflexivity|]. cbn. lia.
  - assert (E : probability 1 weak ion1 0 (ionization_level s1 0) = (1 - exp (- / IZR (10 ^ 12)))%R).
    { unfold probability. cbv zeta. rewrite (proj2 (C28_amplitude _ _ _ _ _ _ _ _ _)). rewrite <- E2_rest. unfold E2_on_particle. cbn [ion1 ux uy uz Ex Ey Ez Bx By Bz weak adk_prefactor adk_power adk_exp_prefactor].
      replace (1 + 0 ^ 2 + 0 ^ 2 + 0 ^ 2)%R with 1%R by ring. rewrite sqrt_1. match goal with |- context [sqrt ?a] => replace a with 1%R by ring end. rewrite sqrt_1.
      unfold get_ionization_probability. destruct (Req_EM_T 1 0) as [F|_]; [lra|]. cbv zeta. unfold Rpower. rewrite ln_1, Rmult_0_r. unfold Rdiv. rewrite Rmult_0_l, exp_0. f_equal. f_equal. f_equal. field. lra. }
    rewrite E. pose proof (exp_ineq1 (- / IZR (10 ^ 12)) ltac:(lra)) as X. split; [|lra].
    assert (exp (- / IZR (10 ^ 12)) < exp 0)%R by (apply exp_increasing; lra). rewrite exp_0 in H. lra.
  - lra.
Qed.

(** The claim of C109_cpu is thus false on GPU, under the same assumption: no count close to the probability times 2^32 is the number of the draws that ionize. *)
Theorem C109_gpu_refuted : exists c tab level_start level_max Ntot batch_size ion per_level targets s st others ip,
  ready level_start level_max Ntot batch_size ion per_level targets s st ip /\ (0 <= adk_prefactor tab (ionization_level s ip))%R /\
  ~ exists n, exactly (2 ^ 32) (ionizes c tab level_start level_max Ntot batch_size ion per_level targets s st others ip true) n /\
    (probability c tab ion ip (ionization_level s ip) * IZR (2 ^ 32) <= IZR n < probability c tab ion ip (ionization_level s ip) * IZR (2 ^ 32) + 1)%R.
Proof.
  exists 1%R, weak, 0, 1, 1, 10, ion1, false, [0%nat], s1, ex_st, (fun _ => 0%R), 0.
  destruct (C109_met ex_st) as (R & A & P & Q); [apply C27_C28_met|].
  split; [exact R|]. split; [exact A|]. intros (n & (l & N & I & L) & U).
  destruct (C109_gpu_floor 1%R weak 0 1 1 10 ion1 false [0%nat] s1 ex_st (fun _ => 0%R) 0 R (proj1 P)) as (l' & N' & I' & L').
  assert (Le : (length l' <= length l)%nat) by (apply NoDup_incl_length; [exact N'|intros k K; apply I, I', K]).
  assert (G : 127 <= n) by lia. apply IZR_le in G. revert P U. generalize (probability 1 weak ion1 0 (ionization_level s1 0)). intros p P U.
  assert (B : (p * IZR (2 ^ 32) <= / IZR (10 ^ 12) * IZR (2 ^ 32))%R) by (apply Rmult_le_compat_r; [apply IZR_le; lia|lra]). lra.
Qed.
Print Assumptions C109_gpu_refuted.

(** The hypotheses of C109_zero are met by the same ion without field. *)
Definition ion0 (_ : Z) : ptc := {| x := 0; y := 0; z := 0; ux := 0; uy := 0; uz := 0; inv_gamma := 1; w := 1; Ex := 0; Ey := 0; Ez := 0; Bx := 0; By := 0; Bz := 0 |}%R.
Example C109_zero_met : forall st, sizes_ok st -> ready 0 1 1 10 ion0 false [0%nat] s1 st 0 /\ probability 1 weak ion0 0 (ionization_level s1 0) = 0%R.
Proof.
  intros st Hs. split.
  - split; [lia|]. split; [intros i Hi; cbn; lia|]. split; [intros i Hi; cbn; lra|]. split; [exact Hs|]. split; [reflexivity|]. cbn. lia.
  - unfold probability. cbv zeta. rewrite (proj2 (C28_amplitude _ _ _ _ _ _ _ _ _)). rewrite <- E2_rest. unfold E2_on_particle. cbn [ion0 ux uy uz Ex Ey Ez Bx By Bz].
    match goal with |- context [get_ionization_probability (sqrt ?a)] => replace a with 0%R by ring end. rewrite sqrt_0. unfold get_ionization_probability. destruct (Req_EM_T 0 0) as [_|F]; [reflexivity|lra].
Qed.
