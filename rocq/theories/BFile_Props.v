(** C89: the files of the back-transformed particle diagnostic. *)
From Coq Require Import Reals String Lra Lia ZArith Permutation.
From Verif Require Import Base Pdiag_Model BFile_Model BFile_Spec BFile_Proofs.
Import ListNotations.
Open Scope R_scope.
Open Scope list_scope.

(** Whatever the particles that are caught on the ranks at each iteration: the diagnostic raises no exception; in the file of each snapshot and
    species, all the records list the same particles in the same order, in SI units; these are the chosen particles of all the ranks, each of them once,
    up to the last iteration that is a multiple of the period. *)
Theorem C89_aligned e c junk d caught its : diag_ok d -> (forall i k, List.length (caught i k) = b_ranks d) ->
  exists g g', init d (fun _ _ => None) = Ok g /\ run e c junk d caught its g = Ok g' /\
  forall k, In k (keys d) -> exists P, choice_of (b_select d) P (flat_map (all_caught caught k) (on_disk (b_period d) its)) /\
    file_holds e c (b_species d (snd k)) (quantities d (snd k)) (k_file (g' k)) P.
Proof.
  intros OK L. destruct (run_fresh e c junk d caught OK L its) as [g [g' [E [E' H]]]]. exists g, g'. split; [exact E|]. split; [exact E'|].
  intros k Hk. eapply inv_file. apply H; exact Hk.
Qed.
Print Assumptions C89_aligned.
Definition ex_part (i : Z) (u : R) : lab := {| l_x := 0; l_y := 0; l_z := 0; l_ux := 0; l_uy := 0; l_uz := u; l_w := 1; l_level := 0; l_id := i |}.
Definition ex_diag : bdiag := {| b_ranks := 2; b_snaps := [0; 1]%nat; b_names := ["electrons"]%string;
  b_species := fun _ => {| sp_q := -1; sp_m := 1; sp_tracked := true; sp_ionizable := false |};
  b_data := ["position"; "momentum"; "weighting"]%string; b_select := Some [("uz"%string, (Some 1, None))]; b_period := 10 |}.
Definition ex_caught (i : Z) (k : key) : list (option (list lab)) := [Some [ex_part i 2; ex_part (100 + i) 0]; None].
Lemma ex_nodup : NoDup ["x"; "y"; "z"; "ux"; "uy"; "uz"; "w"; "id"]%string.
Proof. repeat (constructor; [simpl; intuition discriminate|]). constructor. Qed.
Example C89_met : diag_ok ex_diag /\ (forall i k, List.length (ex_caught i k) = b_ranks ex_diag) /\
  chosen (b_select ex_diag) (ex_part 3 2) /\ ~ chosen (b_select ex_diag) (ex_part 3 0) /\
  on_disk 10 [7; 8; 9; 10; 11; 12]%Z = [7; 8; 9; 10]%Z.
Proof.
  split.
  { split; [simpl; lia|]. split; [simpl; constructor; [intros []|constructor]|]. split; [simpl; constructor; [simpl; intros [X|[]]; discriminate|constructor; [intros []|constructor]]|].
    split; [simpl; lia|]. intros n Hn. change (quantities ex_diag n) with ["x"; "y"; "z"; "ux"; "uy"; "uz"; "w"; "id"]%string. split; [discriminate|].
    split; [exact ex_nodup|]. split.
    - intros q Hq. simpl in Hq. unfold has. simpl. intuition (subst; auto 10).
    - intros rules r E Hr. inversion E; subst. destruct Hr as [<-|[]]. left. simpl. tauto. }
  split; [reflexivity|]. split.
  { intros q lo hi [H|[]]. inversion H; subst. split; [intros b Eb; inversion Eb; subst; unfold raw; simpl; lra|discriminate]. }
  split; [|reflexivity].
  intros H. destruct (H "uz"%string (Some 1) None (or_introl eq_refl)) as [H1 _]. specialize (H1 1 eq_refl). unfold raw in H1. simpl in H1. lra.
Qed.

(** What a slice holds: for each quantity of the species, the values in SI units for the particles that satisfy all the rules (that are about the momentum in
    units of m*c); a rule with a bound on a quantity that the slice does not have is a KeyError. *)
Theorem C89_selection e c select s l : (forall rules r, select = Some rules -> In r rules -> has s (fst r)) ->
  exists d f, extract_slice e c select s l = Ok d /\ (forall p, f p = true <-> chosen select p) /\
    forall q, has s q -> dget d q = Ok (map (si e c s q) (filter f l)).
Proof.
  intros H. exists (cols (si e c s) (keysof s) (filter (test select) l)), (test select). split; [apply extract_cols; exact H|]. split; [apply test_chosen|].
  intros q Hq. apply cols_get, has_keys, Hq.
Qed.
Print Assumptions C89_selection.
Theorem C89_bad_rule e c s l rules q lo hi : In (q, (lo, hi)) rules -> ~ has s q -> lo <> None \/ hi <> None -> extract_slice e c (Some rules) s l = Err KeyError.
Proof. intros H M N. exact (extract_missing e c s l rules (q, (lo, hi)) H M N). Qed.
Print Assumptions C89_bad_rule.
Example C89_rules_met : has {| sp_q := -1; sp_m := 1; sp_tracked := false; sp_ionizable := false |} "uz" /\
  ~ has {| sp_q := -1; sp_m := 1; sp_tracked := false; sp_ionizable := false |} "gamma".
Proof. split; [left; simpl; tauto|]. intros [H|[[H _]|[H _]]]; simpl in H; intuition discriminate. Qed.

(** A quantity that cannot be written (the fields, the Lorentz factor...) is refused when the diagnostic is created. *)
Theorem C89_invalid d files k q : In k (keys d) -> In q (quantities d (snd k)) -> ~ In q (map fst record_of) -> init d files = Err ValueError.
Proof. intros Hk Hq N. apply (init_bad d files k q Hk Hq). apply not_record; exact N. Qed.
Print Assumptions C89_invalid.
Definition small (tracked : bool) (data : list string) : bdiag := {| b_ranks := 1; b_snaps := [0]%nat; b_names := ["electrons"]%string;
  b_species := fun _ => {| sp_q := -1; sp_m := 1; sp_tracked := tracked; sp_ionizable := false |}; b_data := data; b_select := None; b_period := 10 |}.
Example C89_invalid_met : In (0%nat, "electrons"%string) (keys (small false ["position"; "gamma"]%string)) /\
  In "gamma"%string (quantities (small false ["position"; "gamma"]%string) "electrons") /\ ~ In "gamma"%string (map fst record_of).
Proof. split; [left; reflexivity|]. split; [simpl; tauto|]. simpl. intuition discriminate. Qed.

(** "id" given for a species that is not tracked: accepted when the diagnostic is created, an exception in the middle of the run. *)
Theorem C89_untracked_refuted : exists d caught, b_data d = ["position"; "momentum"; "weighting"; "id"]%string /\
  (forall i k, List.length (caught i k) = b_ranks d) /\
  forall e c junk, exists g, init d (fun _ _ => None) = Ok g /\ run e c junk d caught [0%Z] g = Err KeyError.
Proof.
  exists (small false ["position"; "momentum"; "weighting"; "id"]%string), (fun i _ => [Some [ex_part i 0]]). split; [reflexivity|]. split; [reflexivity|].
  intros e c junk. set (d := small false _). set (ca := fun (i : Z) (_ : key) => [Some [ex_part i 0]]).
  assert (H : match init d (fun _ _ => None) with Ok g => run e c junk d ca [0%Z] g = Err KeyError | Err _ => False end)
    by (lazy -[Rlt_dec Rmult IZR]; reflexivity).
  destruct (init d _) as [g|]; [|contradiction]. exists g. split; [reflexivity|exact H].
Qed.
Print Assumptions C89_untracked_refuted.

(** "id" given for a species that is tracked (whose id is written anyway): the identities are in the file twice, and no longer aligned with the other
    columns. *)
Theorem C89_duplicate_refuted : exists d caught, b_data d = ["position"; "momentum"; "weighting"; "id"]%string /\
  (forall i k, List.length (caught i k) = b_ranks d) /\
  forall e c junk, exists g g', init d (fun _ _ => None) = Ok g /\ run e c junk d caught [9; 10]%Z g = Ok g' /\
    k_file (g' (0%nat, "electrons"%string)) "position/x"%string = Some [VF 0; VF 0] /\
    k_file (g' (0%nat, "electrons"%string)) "id"%string = Some [VU 9; VU 10; VU 9; VU 10]%Z.
Proof.
  exists (small true ["position"; "momentum"; "weighting"; "id"]%string), (fun i _ => [Some [ex_part i 0]]). split; [reflexivity|]. split; [reflexivity|].
  intros e c junk. set (d := small true _). set (ca := fun (i : Z) (_ : key) => [Some [ex_part i 0]]).
  assert (H : match init d (fun _ _ => None) with Ok g => match run e c junk d ca [9; 10]%Z g with
    | Ok g' => k_file (g' (0%nat, "electrons"%string)) "position/x"%string = Some [VF 0; VF 0] /\
               k_file (g' (0%nat, "electrons"%string)) "id"%string = Some [VU 9; VU 10; VU 9; VU 10]%Z
    | Err _ => False end | Err _ => False end) by (lazy -[Rlt_dec Rmult IZR]; split; reflexivity).
  destruct (init d _) as [g|]; [|contradiction]. destruct (run e c junk d ca _ g) as [g'|] eqn:E'; [|contradiction].
  exists g, g'. split; [reflexivity|]. split; [exact E'|exact H].
Qed.
Print Assumptions C89_duplicate_refuted.

(** A run that stops after the iterations [its1], and is restarted for the iterations [its2] (from that of a checkpoint): the files hold, aligned, what was
    flushed during the first run and what was flushed during the second. *)
Theorem C89_restart e c junk d caught its1 its2 : diag_ok d -> (forall i k, List.length (caught i k) = b_ranks d) ->
  exists g, restart e c junk d caught its1 its2 = Ok g /\
  forall k, In k (keys d) ->
    exists P, choice_of (b_select d) P (flat_map (all_caught caught k) (on_disk (b_period d) its1 ++ on_disk (b_period d) its2)) /\
      file_holds e c (b_species d (snd k)) (quantities d (snd k)) (k_file (g k)) P.
Proof.
  intros OK L. destruct (restart_inv e c junk d caught OK L its1 its2) as [g [E H]]. exists g. split; [exact E|].
  intros k Hk. eapply inv_file. apply H; exact Hk.
Qed.
Print Assumptions C89_restart.

(** Consequence: a checkpoint does not fix the content of the files. With a period of 10: a run that stops right after the checkpoint of iteration 25 and is
    restarted from it loses the particles of the iterations 21 to 24; a run that goes on until iteration 32, then is restarted from the checkpoint of iteration
    25, has twice those of the iterations 25 to 30. *)
Definition zseq (a n : nat) : list Z := map Z.of_nat (seq a n).
Theorem C89_restart_refuted : exists d caught, diag_ok d /\ (forall i k, List.length (caught i k) = b_ranks d) /\ In (0%nat, "electrons"%string) (keys d) /\
  (forall i, caught i (0%nat, "electrons"%string) = [Some [ex_part i 0]]) /\ forall e c junk,
  (exists g a, restart e c junk d caught (zseq 0 25) (zseq 25 16) = Ok g /\ k_file (g (0%nat, "electrons"%string)) "id"%string = Some a /\ In (VU 20) a /\ In (VU 25) a /\ ~ In (VU 22) a) /\
  (exists g a, restart e c junk d caught (zseq 0 33) (zseq 25 16) = Ok g /\ k_file (g (0%nat, "electrons"%string)) "id"%string = Some a /\ ~ NoDup a).
Proof.
  set (d := small true ["position"; "momentum"; "weighting"]%string). set (ca := fun (i : Z) (_ : key) => [Some [ex_part i 0]]).
  assert (OK : diag_ok d).
  { split; [simpl; lia|]. split; [simpl; constructor; [intros []|constructor]|]. split; [simpl; constructor; [intros []|constructor]|].
    split; [simpl; lia|]. intros n Hn. change (quantities d n) with ["x"; "y"; "z"; "ux"; "uy"; "uz"; "w"; "id"]%string. split; [discriminate|].
    split; [exact ex_nodup|]. split; [|discriminate]. intros q Hq. simpl in Hq. unfold has. simpl. intuition (subst; auto 10). }
  assert (L : forall i k, List.length (ca i k) = b_ranks d) by reflexivity.
  assert (K : In (0%nat, "electrons"%string) (keys d)) by (left; reflexivity).
  assert (Q : In "id"%string (quantities d "electrons")) by (simpl; tauto).
  assert (G : forall e c junk its1 its2, exists g a, restart e c junk d ca its1 its2 = Ok g /\ k_file (g (0%nat, "electrons"%string)) "id"%string = Some a /\
    Permutation a (map VU (on_disk 10 its1 ++ on_disk 10 its2))).
  { intros e c junk its1 its2. destruct (C89_restart e c junk d ca its1 its2 OK L) as [g [E H]]. destruct (H _ K) as [P [[f [Hf Pm]] Hh]].
    exists g, (map (si e c (b_species d "electrons") "id") P). split; [exact E|]. split; [apply Hh; [exact Q|simpl; tauto]|].
    rewrite Pm. change (b_period d) with 10%Z. generalize (on_disk 10 its1 ++ on_disk 10 its2). intros its.
    assert (T : forall p, f p = true) by (intros p; apply Hf; exact I). clear -T.
    induction its as [|i its IH]; simpl; [constructor|]. rewrite T. simpl. apply perm_skip, IH. }
  exists d, ca. split; [exact OK|]. split; [exact L|]. split; [exact K|]. split; [reflexivity|]. intros e c junk. split.
  - destruct (G e c junk (zseq 0 25) (zseq 25 16)) as [g [a [E [Ea Pm]]]]. exists g, a. split; [exact E|]. split; [exact Ea|].
    split; [apply (Permutation_in _ (Permutation_sym Pm)); apply in_map, mem_in; vm_compute; reflexivity|].
    split; [apply (Permutation_in _ (Permutation_sym Pm)); apply in_map, mem_in; vm_compute; reflexivity|].
    intros H. apply (Permutation_in _ Pm) in H. apply in_map_iff in H. destruct H as [i [Ei Hi]]. inversion Ei; subst. apply in_mem in Hi. revert Hi. vm_compute. discriminate.
  - destruct (G e c junk (zseq 0 33) (zseq 25 16)) as [g [a [E [Ea Pm]]]]. exists g, a. split; [exact E|]. split; [exact Ea|].
    intros N. apply (Permutation_NoDup Pm) in N. apply NoDup_map_inv in N.
    change (on_disk 10 (zseq 0 33)) with (zseq 0 31) in N. change (zseq 0 31) with (zseq 0 30 ++ [30%Z]) in N. rewrite <- app_assoc in N.
    apply NoDup_remove_2 in N. apply N. apply mem_in. vm_compute. reflexivity.
Qed.
Print Assumptions C89_restart_refuted.
