(** C106: runs with a fixed seed. C75: a diagnostic that subsamples changes the simulation. *)
From Coq Require Import ZArith Reals List Lia Lra.
From Verif Require Import Base Seed_Model Seed_Spec Seed_Proofs.
Import ListNotations.
Open Scope Z_scope.

(** After set_random_seed the run and its output depend on nothing else, whatever has been drawn before. Missing: Compton scattering on CPU (refuted below). *)
Theorem C106_reproducible_partial {S Out} (L : library) cuda cupy rank seed (prog : list (@op L S Out)) s w1 w2 :
  no_compiled_draws cuda prog -> (cuda = true -> cupy = true) ->
  results (run L cuda prog s (set_random_seed L cupy rank seed w1)) = results (run L cuda prog s (set_random_seed L cupy rank seed w2)).
Proof. apply reproducible. Qed.
Print Assumptions C106_reproducible_partial.

(** A toy library: numpy's state counts the draws since the seed; the numbers drawn are that count. *)
Fixpoint count (n : nat) (g : Z) : list R := match n with O => [] | Datatypes.S n => IZR g :: count n (g + 1) end.
Definition toy : library := {| G := Z; seed_np := fun s => 1000 * s; draws := fun _ n g => (count n g, g + Z.of_nat n); randint := fun n g => (g mod n, g + 1);
  H := Z; seed_cp := fun s => 1000 * s; draws_cp := fun _ n g => (count n g, g + Z.of_nat n); T := Z; X := Z; xoroshiro := fun s i => s + i |}.
Definition sum (l : list R) : R := fold_right Rplus 0%R l.
Definition ions : @op toy R R := Ionize toy (fun _ => 2%nat) (fun s l => (s + sum l)%R).
Definition compton : @op toy R R := Scatter toy (fun s t => ((s + IZR t)%R, t + 1)) (fun s x => (s + IZR (x 0%Z))%R).
Definition output (b : bool) : @op toy R R := Select toy (fun _ => 1%nat) b (fun s l => (s + sum l)%R).
Definition before (t : Z) : world toy := {| np := t : G toy; cp := 0 : H toy; nb := t : T toy |}.
Example C106_met : no_compiled_draws false [output true; ions] /\ results (run toy false [output true; ions] 0%R (set_random_seed toy false 0 0 (before 7))) = (3%R, [0%R]) /\
  no_compiled_draws true [ions; compton].
Proof.
  split; [intros _ cpu gpu [E|[E|[]]]; discriminate E|]. split; [|intros E; discriminate E].
  unfold results. cbn. unfold sum. cbn. f_equal; [lra|]. f_equal. lra.
Qed.

(** Diagnostics without subsampling do not change the simulation. *)
Theorem C106_diagnostics {S Out} (L : library) cuda (prog : list (@op L S Out)) s w : (forall p, In p prog -> subsamples p = false) ->
  sim L (run L cuda prog s w) = sim L (run L cuda (without_diags prog) s w).
Proof. intros H. apply (run_diags L cuda prog (start L s w) (start L s w) H). split; reflexivity. Qed.
Print Assumptions C106_diagnostics.

(** With subsampling they do: the diagnostic takes numbers from the generator of the simulation. *)
Theorem C75_subsampling_refuted : exists (L : library) (prog : list (@op L R R)) s w seed,
  sim L (run L false prog s (set_random_seed L false 0 seed w)) <> sim L (run L false (without_diags prog) s (set_random_seed L false 0 seed w)).
Proof.
  exists toy, [output true; ions], 0%R, (before 0), 0. cbn. unfold sum. cbn. lra.
Qed.
Print Assumptions C75_subsampling_refuted.

(** Compton scattering on CPU is not reproducible: set_random_seed does not reach the generators of compiled functions. *)
Theorem C106_compton_refuted : exists (L : library) (prog : list (@op L R R)) s w1 w2, forall cupy rank seed,
  results (run L false prog s (set_random_seed L cupy rank seed w1)) <> results (run L false prog s (set_random_seed L cupy rank seed w2)).
Proof.
  exists toy, [compton], 0%R, (before 1), (before 2). intros cupy rank seed E. apply (f_equal fst) in E. cbn in E. lra.
Qed.
Print Assumptions C106_compton_refuted.

(** On GPU each call of the scattering draws one of 256 seeds: among any 257 calls of a run two use the same random states for all the electrons. *)
Theorem C106_states_refuted {S Out} (L : library) (prog : list (@op L S Out)) s w : (forall n g, 0 < n -> 0 <= fst (randint L n g) < n) -> (256 < scatterings prog)%nat ->
  exists i j x, (i < j)%nat /\ nth_error (used L (run L true prog s w)) i = Some x /\ nth_error (used L (run L true prog s w)) j = Some x.
Proof. intros LAW. apply repeated, LAW. Qed.
Print Assumptions C106_states_refuted.
Example C106_states_met : (forall n g, 0 < n -> 0 <= fst (randint toy n g) < n) /\ (256 < scatterings (repeat compton 257))%nat.
Proof. split; [intros n g Hn; apply Z.mod_pos_bound, Hn|]. vm_compute. lia. Qed.

(** On CPU, injections, bunches and ionizations use the numbers that numpy delivers one after the other, none twice and none left out; so do ionizations on GPU with cupy. *)
Theorem C106_fresh (u v : nat -> R) {Out} (prog : list (@op (streams u v) (list R) Out)) w : Forall notes prog ->
  exists n, sim (streams u v) (run (streams u v) false prog [] w) = map u (seq (np (streams u v) w) n).
Proof. intros F. destruct (notes_run u v prog (start (streams u v) [] w) F) as (n & _ & E). exists n. exact E. Qed.
Print Assumptions C106_fresh.
Theorem C106_fresh_gpu (u v : nat -> R) {Out} (prog : list (@op (streams u v) (list R) Out)) w : Forall notes_gpu prog ->
  exists n, sim (streams u v) (run (streams u v) true prog [] w) = map v (seq (cp (streams u v) w) n).
Proof. intros F. destruct (notes_gpu_run u v prog (start (streams u v) [] w) F) as (n & _ & E). exists n. exact E. Qed.
Print Assumptions C106_fresh_gpu.
Example C106_fresh_met (u v : nat -> R) : let L := streams u v in let p : @op L (list R) R := Ionize L (fun _ => 2%nat) (fun s l => s ++ l) in
  Forall notes [Bunch L 1 false (fun s l => s ++ concat l); p; p] /\
  sim L (run L false [Bunch L 1 false (fun s l => s ++ concat l); p; p] [] (set_random_seed L false 0 3 {| np := 0%nat : G L; cp := 0%nat : H L; nb := tt : T L |})) =
    [u 3; u 4; u 5; u 6; u 7; u 8; u 9; u 10; u 11]%nat.
Proof. split; [repeat constructor|reflexivity]. Qed.

(** Two seeds do not mean two sets of random numbers: process r of the run with the seed n + 1 draws the numbers of process r + 1 of the run with the seed n. *)
Theorem C106_overlap {S Out} (L : library) cuda cupy rank seed (prog : list (@op L S Out)) s w :
  results (run L cuda prog s (set_random_seed L cupy rank (seed + 1) w)) = results (run L cuda prog s (set_random_seed L cupy (rank + 1) seed w)).
Proof. unfold set_random_seed. replace (seed + 1 + rank) with (seed + (rank + 1)) by ring. reflexivity. Qed.
Print Assumptions C106_overlap.
