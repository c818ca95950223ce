From Coq Require Import ZArith Reals List Lia.
From Verif Require Import Base Seed_Model Seed_Spec.
Import ListNotations.
Open Scope Z_scope.

Section P.
Context (L : library) {S Out : Type}.
Notation op := (@op L S Out).
Notation st := (run_st L (S := S) (Out := Out)).
Definition same (cuda : bool) (a b : st) : Prop :=
  sim L a = sim L b /\ outs L a = outs L b /\ np L (wld L a) = np L (wld L b) /\ (cuda = true -> cp L (wld L a) = cp L (wld L b)).
Ltac draw := cbv zeta; repeat (match goal with |- context [draws L ?d ?n ?g] => destruct (draws L d n g) | |- context [draws_cp L ?d ?n ?g] => destruct (draws_cp L d n g) | |- context [randint L ?n ?g] => destruct (randint L n g) end; cbn beta iota).
Lemma exec_same cuda a b (p : op) : same cuda a b -> (cuda = false -> forall cpu gpu, p <> Scatter L cpu gpu) -> same cuda (exec L cuda a p) (exec L cuda b p).
Proof.
  intros (A & B & C & D) H. destruct p as [n kept f|n sp f|n f|cpu gpu|n b0 o|f]; cbn [exec].
  - unfold generate. rewrite A, C. draw. repeat split; cbn; try assumption; reflexivity.
  - unfold gaussian. rewrite A, C. destruct sp; draw; repeat split; cbn; try assumption; reflexivity.
  - unfold ionize. destruct cuda.
    + rewrite A, (D eq_refl). draw. repeat split; cbn; try assumption; reflexivity.
    + rewrite A, C. draw. repeat split; cbn; try assumption; try reflexivity; discriminate.
  - destruct cuda; [|exfalso; exact (H eq_refl cpu gpu eq_refl)]. unfold scatter. rewrite A, C. draw. repeat split; cbn; try assumption; reflexivity.
  - unfold selection. destruct b0; rewrite A, ?C, B; draw; repeat split; cbn; try assumption; reflexivity.
  - repeat split; cbn; try assumption. rewrite A. reflexivity.
Qed.
Lemma run_same cuda : forall (prog : list op) a b, same cuda a b -> no_compiled_draws cuda prog -> same cuda (fold_left (exec L cuda) prog a) (fold_left (exec L cuda) prog b).
Proof.
  induction prog as [|p prog IH]; intros a b H N; [exact H|]. cbn [fold_left]. apply IH.
  - apply exec_same; [exact H|]. intros E cpu gpu ->. apply (N E cpu gpu). left. reflexivity.
  - intros E cpu gpu I. apply (N E cpu gpu). right. exact I.
Qed.
Lemma reproducible cuda cupy rank seed (prog : list op) s w1 w2 : no_compiled_draws cuda prog -> (cuda = true -> cupy = true) ->
  results (run L cuda prog s (set_random_seed L cupy rank seed w1)) = results (run L cuda prog s (set_random_seed L cupy rank seed w2)).
Proof.
  intros N C. unfold results, run. destruct (run_same cuda prog (start L s (set_random_seed L cupy rank seed w1)) (start L s (set_random_seed L cupy rank seed w2))) as (A & B & _).
  - repeat split. intros E. cbn. rewrite (C E). reflexivity.
  - exact N.
  - rewrite A, B. reflexivity.
Qed.

(** diagnostics without subsampling *)
Definition alike (a b : st) : Prop := sim L a = sim L b /\ wld L a = wld L b.
Lemma exec_alike cuda a b (p : op) : alike a b -> alike (exec L cuda a p) (exec L cuda b p).
Proof.
  intros [A B]. destruct p as [n kept f|n sp f|n f|cpu gpu|n b0 o|f]; cbn [exec]; rewrite A, B.
  - destruct (generate _ _ _ _ _ _); split; reflexivity.
  - destruct (gaussian _ _ _ _ _ _); split; reflexivity.
  - destruct (ionize _ _ _ _ _ _); split; reflexivity.
  - destruct (scatter _ _ _ _ _ _) as [[? ?] ?]; split; reflexivity.
  - destruct (selection _ _ _ _ _ _); split; reflexivity.
  - split; reflexivity.
Qed.
Lemma run_diags cuda : forall (prog : list op) a b, (forall p, In p prog -> subsamples p = false) -> alike a b ->
  alike (fold_left (exec L cuda) prog a) (fold_left (exec L cuda) (without_diags prog) b).
Proof.
  induction prog as [|p prog IH]; intros a b H E; [exact E|]. cbn [fold_left without_diags filter]. destruct (is_diag p) eqn:D; cbn [negb].
  - apply IH; [intros q Hq; apply H; right; exact Hq|]. destruct p as [| | | |n b0 o|]; try discriminate D. pose proof (H _ (or_introl eq_refl)) as X. cbn in X. subst b0. exact E.
  - cbn [fold_left]. apply IH; [intros q Hq; apply H; right; exact Hq|]. apply exec_alike, E.
Qed.

(** the states of the GPU scatterings *)
Definition few (u : list (Z -> X L)) (seeds : list Z) : Prop := u = map (xoroshiro L) seeds /\ forall z, In z seeds -> 0 <= z < 256.
Lemma used_exec a (p : op) : (forall cpu gpu, p <> Scatter L cpu gpu) -> used L (exec L true a p) = used L a.
Proof.
  intros N. destruct p as [n kept f|n sp f|n f|cpu gpu|n b0 o|f]; cbn [exec].
  - destruct (generate _ _ _ _ _ _). reflexivity.
  - destruct (gaussian _ _ _ _ _ _). reflexivity.
  - destruct (ionize _ _ _ _ _ _). reflexivity.
  - exfalso. exact (N cpu gpu eq_refl).
  - destruct (selection _ _ _ _ _ _). reflexivity.
  - reflexivity.
Qed.
Lemma run_used (LAW : forall n g, 0 < n -> 0 <= fst (randint L n g) < n) : forall (prog : list op) a seeds, few (used L a) seeds ->
  exists seeds', few (used L (fold_left (exec L true) prog a)) seeds' /\ length seeds' = (length seeds + scatterings prog)%nat.
Proof.
  induction prog as [|p prog IH]; intros a seeds H; cbn [fold_left]; [exists seeds; split; [exact H|unfold scatterings; cbn; lia]|].
  destruct p as [n kept f|n sp f|n f|cpu gpu|n b0 o|f].
  4:{ destruct (IH (exec L true a (Scatter L cpu gpu)) (seeds ++ [fst (randint L 256 (np L (wld L a)))])) as (s' & F & E).
      - cbn [exec]. unfold scatter. destruct (randint L 256 (np L (wld L a))) as [sd g] eqn:Er. cbn [used fst]. destruct H as [H1 H2]. split; [cbn [used]; rewrite map_app, H1; reflexivity|].
        pose proof (LAW 256 (np L (wld L a)) ltac:(lia)) as LW. rewrite Er in LW. cbn [fst] in LW.
        intros z Hz. apply in_app_iff in Hz. destruct Hz as [Hz|[<-|[]]]; [apply H2, Hz|exact LW].
      - exists s'. split; [exact F|]. rewrite E, app_length. unfold scatterings. cbn. lia. }
  all: apply IH; rewrite used_exec; [exact H|intros; discriminate].
Qed.
Lemma pigeons : forall l : list Z, (forall z, In z l -> 0 <= z < 256) -> (256 < length l)%nat -> exists i j z, (i < j)%nat /\ nth_error l i = Some z /\ nth_error l j = Some z.
Proof.
  intros l H N. assert (D : ~ NoDup l).
  { intros D. pose proof (NoDup_incl_length D (l' := range 256)) as I. assert (incl l (range 256)).
    { intros z Hz. specialize (H z Hz). unfold range, zrange. apply in_map_iff. exists (Z.to_nat z). split; [lia|]. apply in_seq. lia. }
    specialize (I H0). unfold range, zrange in I. rewrite map_length, seq_length in I. lia. }
  clear H N. induction l as [|a l IH]; [exfalso; apply D; constructor|]. destruct (in_dec Z.eq_dec a l) as [Ha|Ha].
  - apply In_nth_error in Ha. destruct Ha as [j Hj]. exists 0%nat, (Datatypes.S j), a. split; [lia|]. split; [reflexivity|exact Hj].
  - destruct IH as (i & j & z & I & A & B); [intros E; apply D; constructor; assumption|]. exists (Datatypes.S i), (Datatypes.S j), z. split; [lia|]. split; assumption.
Qed.
Lemma repeated (LAW : forall n g, 0 < n -> 0 <= fst (randint L n g) < n) (prog : list op) s w : (256 < scatterings prog)%nat ->
  exists i j x, (i < j)%nat /\ nth_error (used L (run L true prog s w)) i = Some x /\ nth_error (used L (run L true prog s w)) j = Some x.
Proof.
  intros N. destruct (run_used LAW prog (start L s w) []) as (seeds & [U V] & E); [split; [reflexivity|intros z []]|].
  destruct (pigeons seeds V) as (i & j & z & I & A & B); [rewrite E; exact N|]. unfold run. rewrite U.
  exists i, j, (xoroshiro L z). split; [exact I|]. split; apply map_nth_error; assumption.
Qed.
End P.

Section Streams.
Context (u v : nat -> R) {Out : Type}.
Notation L := (streams u v).
Lemma seq_split g n m : map u (seq g n) ++ map u (seq (g + n) m) = map u (seq g (n + m)).
Proof. rewrite seq_app, map_app. reflexivity. Qed.
Lemma notes_np cuda (p : @op L (list R) Out) (r : run_st L) : notes p -> cuda = false ->
  exists n, np L (wld L (exec L cuda r p)) = (np L (wld L r) + n)%nat /\ sim L (exec L cuda r p) = sim L r ++ map u (seq (np L (wld L r)) n).
Proof.
  intros N ->. destruct N as [n kept|n b|n|]; cbn -[seq map].
  - eexists. rewrite !seq_split, <- !Nat.add_assoc. split; reflexivity. 
  - destruct b; cbn -[seq map]; rewrite ?app_nil_r, ?app_nil_l.
    + exists (n + (n + (n + (n + (n + n)))))%nat. split; [lia|]. rewrite <- !seq_split, ?Nat.add_assoc. reflexivity.
    + exists (n + (n + (n + (n + n))))%nat. split; [lia|]. rewrite <- !seq_split, ?Nat.add_assoc. reflexivity.
  - eexists. split; reflexivity.
  - exists 0%nat. split; [lia|]. cbn. rewrite app_nil_r. reflexivity.
Qed.
Lemma notes_run : forall (prog : list (@op L (list R) Out)) (r : run_st L), Forall notes prog ->
  exists n, np L (wld L (fold_left (exec L false) prog r)) = (np L (wld L r) + n)%nat /\ sim L (fold_left (exec L false) prog r) = sim L r ++ map u (seq (np L (wld L r)) n).
Proof.
  induction prog as [|p prog IH]; intros r F; cbn [fold_left].
  - exists 0%nat. split; [lia|]. cbn. rewrite app_nil_r. reflexivity.
  - inversion F as [|? ? Hp Hr]; subst. destruct (notes_np false p r Hp eq_refl) as (n & A & B). destruct (IH (exec L false r p) Hr) as (m & C & D).
    exists (n + m)%nat. split; [rewrite C, A; lia|]. rewrite D, B, A, <- app_assoc, seq_split. reflexivity.
Qed.
Lemma notes_gpu_run : forall (prog : list (@op L (list R) Out)) (r : run_st L), Forall notes_gpu prog ->
  exists n, cp L (wld L (fold_left (exec L true) prog r)) = (cp L (wld L r) + n)%nat /\ sim L (fold_left (exec L true) prog r) = sim L r ++ map v (seq (cp L (wld L r)) n).
Proof.
  induction prog as [|p prog IH]; intros r F; cbn [fold_left].
  - exists 0%nat. split; [lia|]. cbn. rewrite app_nil_r. reflexivity.
  - inversion F as [|? ? Hp Hr]; subst.
    assert (exists n, cp L (wld L (exec L true r p)) = (cp L (wld L r) + n)%nat /\ sim L (exec L true r p) = sim L r ++ map v (seq (cp L (wld L r)) n)) as (n & A & B).
    { destruct Hp as [n|]; cbn -[seq map]; [eexists; split; reflexivity|]. exists 0%nat. split; [lia|]. cbn. rewrite app_nil_r. reflexivity. }
    destruct (IH (exec L true r p) Hr) as (m & C & D).
    exists (n + m)%nat. split; [rewrite C, A; lia|]. rewrite D, B, A, <- app_assoc, seq_app, map_app. reflexivity.
Qed.
End Streams.
