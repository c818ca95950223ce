(** Lemmas for C99. *)
From Coq Require Import Reals Lra FunctionalExtensionality.
From Coquelicot Require Import Complex.
From Verif Require Import Base Decomp_Proofs Chunk_Model Chunk_Proofs Push_Model Shape_Model Gather_Model GPart_Model GPart_Spec.

(** ** Interleavings *)
Lemma il_filter ps l : interleaved ps l ->
  (forall k p, nth_error ps k = Some p -> Forall (fun x => thr x = k) p) ->
  forall k p, nth_error ps k = Some p -> filter (fun x => (thr x =? k)%nat) l = p.
Proof.
  induction 1 as [ps H|ps1 a p0 ps2 l H IH]; intros Ht k p Hk.
  - apply nth_error_In in Hk. rewrite Forall_forall in H. exact (H p Hk).
  - assert (Ha : thr a = length ps1 /\ Forall (fun x => thr x = length ps1) p0).
    { specialize (Ht (length ps1) (a :: p0)). rewrite nth_error_app2, Nat.sub_diag in Ht by lia.
      specialize (Ht eq_refl). inversion Ht; auto. }
    assert (Ht' : forall k p, nth_error (ps1 ++ p0 :: ps2) k = Some p -> Forall (fun x => thr x = k) p).
    { intros k' p' Hk'. destruct (Nat.eq_dec k' (length ps1)) as [->|Hne].
      - rewrite nth_error_app2, Nat.sub_diag in Hk' by lia. cbn in Hk'. injection Hk' as <-. tauto.
      - apply Ht. destruct (Nat.lt_ge_cases k' (length ps1)).
        + rewrite nth_error_app1 in * by lia. exact Hk'.
        + rewrite nth_error_app2 in * by lia. destruct (k' - length ps1)%nat eqn:E; [lia|]. exact Hk'. }
    cbn [filter]. destruct (Nat.eqb_spec (thr a) k) as [E|E].
    + assert (k = length ps1) as -> by (destruct Ha; congruence).
      rewrite nth_error_app2, Nat.sub_diag in Hk by lia. cbn in Hk. injection Hk as <-. f_equal.
      apply IH; [exact Ht'|]. rewrite nth_error_app2, Nat.sub_diag by lia. reflexivity.
    + apply IH; [exact Ht'|]. assert (k <> length ps1) by (destruct Ha; congruence).
      destruct (Nat.lt_ge_cases k (length ps1)).
      * rewrite nth_error_app1 in * by lia. exact Hk.
      * rewrite nth_error_app2 in * by lia. destruct (k - length ps1)%nat eqn:E'; [lia|]. exact Hk.
Qed.

Lemma il_in {A} (ps : list (list A)) l : interleaved ps l -> forall x, In x l -> exists p, In p ps /\ In x p.
Proof.
  induction 1 as [|ps1 a p0 ps2 l H IH]; intros x Hx; [contradiction|]. destruct Hx as [<-|Hx].
  - exists (a :: p0). split; [apply in_or_app; right; left; reflexivity|left; reflexivity].
  - destruct (IH x Hx) as (p & Hp & Hxp). apply in_app_or in Hp. destruct Hp as [Hp|[<-|Hp]].
    + exists p. split; [apply in_or_app; left|]; assumption.
    + exists (a :: p0). split; [apply in_or_app; right; left; reflexivity|right; assumption].
    + exists p. split; [apply in_or_app; right; right|]; assumption.
Qed.

Lemma il_nil {A} (ps : list (list A)) l : interleaved ps l -> interleaved ([] :: ps) l.
Proof.
  induction 1 as [ps H|ps1 a p ps2 l H IH].
  - constructor. constructor; auto.
  - apply (il_step ([] :: ps1) a p ps2 l). exact IH.
Qed.
Lemma il_concat {A} (ps : list (list A)) : interleaved ps (concat ps).
Proof.
  induction ps as [|p ps IH]; [constructor; constructor|]. cbn [concat].
  induction p as [|a p IHp]; cbn [app]; [apply il_nil, IH|]. apply (il_step [] a p ps). exact IHp.
Qed.

Lemma nth_programs body parts : forall n k,
  nth_error (map (fun '(t, ids) => thread_program body t ids) (combine (seq n (length parts)) parts)) k
  = option_map (thread_program body (n + k)) (nth_error parts k).
Proof.
  induction parts as [|ids parts IH]; intros n k; [destruct k; reflexivity|].
  cbn [length seq combine map]. destruct k as [|k]; [cbn; rewrite Nat.add_0_r; reflexivity|].
  cbn [nth_error]. rewrite IH. replace (S n + k)%nat with (n + S k)%nat by lia. reflexivity.
Qed.
Lemma in_program body t ids x : In x (thread_program body t ids) -> thr x = t /\ In (ptcl x) ids.
Proof.
  unfold thread_program. intros H. apply in_flat_map in H. destruct H as (i & Hi & H).
  apply in_map_iff in H. destruct H as (s & <- & _). auto.
Qed.

(** ** One thread *)
Definition run_body (body : list stmt) (s : mp * locals) : mp * locals := fold_left (fun s st => st s) body s.
Definition effect (body : list stmt) (f : mp -> mp) : Prop := forall p l, fst (run_body body (p, l)) = f p.

Lemma one_particle t i body : forall a loc,
  let st := fold_left exec_stmt (map (fun s => {| thr := t; ptcl := i; what := s |}) body) (a, loc) in
  (fst st i, snd st t) = run_body body (a i, loc t) /\ (forall j, j <> i -> fst st j = a j).
Proof.
  induction body as [|s body IH]; intros a loc; [cbn; auto|]. cbn [map fold_left run_body].
  assert (E : exec_stmt (a, loc) {| thr := t; ptcl := i; what := s |}
    = (fun j => if (j =? i)%Z then fst (s (a i, loc t)) else a j, fun u => if (u =? t)%nat then snd (s (a i, loc t)) else loc u)) by reflexivity.
  rewrite E. clear E.
  specialize (IH (fun j => if (j =? i)%Z then fst (s (a i, loc t)) else a j) (fun u => if (u =? t)%nat then snd (s (a i, loc t)) else loc u)).
  cbn beta zeta in *. rewrite Z.eqb_refl, Nat.eqb_refl in IH. destruct IH as [H1 H2]. split.
  - cbn beta in H1. rewrite H1. rewrite <- surjective_pairing. reflexivity.
  - intros j Hj. rewrite H2 by exact Hj. cbn beta. destruct (Z.eqb_spec j i); [contradiction|reflexivity].
Qed.

Lemma one_thread body f t ids : effect body f -> NoDup ids -> forall a loc,
  let st := fold_left exec_stmt (thread_program body t ids) (a, loc) in
  (forall i, In i ids -> fst st i = f (a i)) /\ (forall i, ~ In i ids -> fst st i = a i).
Proof.
  intros He. induction ids as [|i ids IH]; intros Hn a loc; [cbn; split; [contradiction|auto]|].
  inversion_clear Hn as [|? ? Hi Hn']. cbn zeta. unfold thread_program. cbn [flat_map]. rewrite fold_left_app.
  destruct (one_particle t i body a loc) as [H1 H2].
  destruct (fold_left exec_stmt (map _ body) (a, loc)) as [a1 loc1]. cbn [fst snd] in H1, H2.
  destruct (IH Hn' a1 loc1) as [G1 G2]. fold (thread_program body t ids).
  assert (Hf : a1 i = f (a i)) by (rewrite <- (He (a i) (loc t)), <- H1; reflexivity).
  split.
  - intros j [<-|Hj].
    + rewrite G2 by exact Hi. exact Hf.
    + rewrite G1 by exact Hj. rewrite H2; [reflexivity|]. intros ->. contradiction.
  - intros j Hj. rewrite G2 by (intros H; apply Hj; right; exact H). apply H2. intros ->. apply Hj; left; reflexivity.
Qed.

(** A thread whose particles belong to it only does not see the others. *)
Lemma own_view k ids l : Forall (fun x => thr x = k <-> In (ptcl x) ids) l -> forall a loc a2 loc2,
  (forall i, In i ids -> a i = a2 i) -> loc k = loc2 k ->
  forall i, In i ids -> fst (fold_left exec_stmt l (a, loc)) i
    = fst (fold_left exec_stmt (filter (fun x => (thr x =? k)%nat) l) (a2, loc2)) i.
Proof.
  induction 1 as [|x l Hx Hl IH]; intros a loc a2 loc2 Ha Hloc; [exact Ha|].
  cbn [fold_left filter]. destruct (Nat.eqb_spec (thr x) k) as [E|E].
  - cbn [fold_left]. unfold exec_stmt at 2 4. cbn [fst snd].
    assert (E1 : a (ptcl x) = a2 (ptcl x)) by (apply Ha, Hx, E).
    assert (E2 : loc (thr x) = loc2 (thr x)) by (rewrite E; exact Hloc). rewrite E1, E2.
    apply IH.
    + intros i Hi. cbn beta. destruct (i =? ptcl x)%Z; [reflexivity|apply Ha, Hi].
    + cbn beta. rewrite E, Nat.eqb_refl. reflexivity.
  - unfold exec_stmt at 2. cbn [fst snd]. apply IH.
    + intros i Hi. cbn beta. destruct (Z.eqb_spec i (ptcl x)) as [->|]; [exfalso; apply E, Hx, Hi|apply Ha, Hi].
    + cbn beta. destruct (Nat.eqb_spec k (thr x)) as [E'|]; [congruence|exact Hloc].
Qed.

Lemma nodup_concat {A} (parts : list (list A)) : NoDup (concat parts) -> forall k k' p p' x,
  nth_error parts k = Some p -> nth_error parts k' = Some p' -> In x p -> In x p' -> k = k'.
Proof.
  induction parts as [|q parts IH]; intros Hn k k' p p' x Hk Hk' Hp Hp'; [destruct k; discriminate|].
  cbn [concat] in Hn.
  assert (Hd : forall r j, nth_error parts j = Some r -> In x r -> In x q -> False).
  { intros r j Hj Hr Hq. assert (In x (concat parts)) by (apply in_concat; exists r; split; [eapply nth_error_In; eauto|exact Hr]).
    clear - Hn H Hq. induction q as [|y q IHq]; [contradiction|]. cbn [app] in Hn. inversion_clear Hn.
    destruct Hq as [<-|Hq]; [apply H0, in_or_app; right; assumption|auto]. }
  destruct k as [|k], k' as [|k']; cbn in Hk, Hk'; [reflexivity| | |].
  - injection Hk as ->. exfalso; eapply Hd; eauto.
  - injection Hk' as ->. exfalso; eapply Hd; eauto.
  - f_equal. eapply IH; eauto. clear - Hn. induction q; [exact Hn|]. cbn [app] in Hn. inversion_clear Hn. auto.
Qed.
Lemma nodup_part {A} (parts : list (list A)) p : NoDup (concat parts) -> In p parts -> NoDup p.
Proof.
  induction parts as [|q parts IH]; intros Hn Hp; [contradiction|]. cbn [concat] in Hn. destruct Hp as [<-|Hp].
  - clear - Hn. induction q as [|a q IHq]; [constructor|]. cbn [app] in Hn. inversion_clear Hn. constructor; [|auto].
    intros Hin. apply H, in_or_app. left; exact Hin.
  - apply IH; [|exact Hp]. clear - Hn. induction q; [exact Hn|]. cbn [app] in Hn. inversion_clear Hn. auto.
Qed.

Lemma parallel_effect parts body f a a' : effect body f -> NoDup (concat parts) -> parallel parts body a a' ->
  (forall i, In i (concat parts) -> a' i = f (a i)) /\ (forall i, ~ In i (concat parts) -> a' i = a i).
Proof.
  intros He Hn (l & l0 & Hl & ->).
  assert (Hall : forall x, In x l -> exists p, nth_error parts (thr x) = Some p /\ In (ptcl x) p).
  { intros x Hx. destruct (il_in _ _ Hl x Hx) as (pr & Hpr & Hin). apply In_nth_error in Hpr. destruct Hpr as (k & Hk).
    rewrite nth_programs in Hk. destruct (nth_error parts k) as [p|] eqn:E; [|discriminate].
    cbn in Hk. injection Hk as <-. apply in_program in Hin. destruct Hin as [-> Hin]. exists p. auto. }
  split.
  - intros i Hi. apply in_concat in Hi. destruct Hi as (p & Hp & Hi). apply In_nth_error in Hp. destruct Hp as (k & Hk).
    rewrite (own_view k p l) with (a2 := a) (loc2 := l0); auto.
    + rewrite (il_filter _ _ Hl) with (p := thread_program body k p).
      * apply one_thread; auto. eapply nodup_part; [exact Hn|eapply nth_error_In; eauto].
      * intros j pr Hj. rewrite nth_programs in Hj. destruct (nth_error parts j); [|discriminate].
        cbn in Hj. injection Hj as <-. apply Forall_forall. intros x Hx. apply in_program in Hx. tauto.
      * rewrite nth_programs, Hk. reflexivity.
    + apply Forall_forall. intros x Hx. destruct (Hall x Hx) as (p' & Hp' & Hin). split.
      * intros E. rewrite E, Hk in Hp'. injection Hp' as ->. exact Hin.
      * intros E. eapply nodup_concat; eauto.
  - intros i Hi.
    assert (G : forall l a loc, (forall x, In x l -> ptcl x <> i) -> fst (fold_left exec_stmt l (a, loc)) i = a i).
    { clear. induction l as [|x l IH]; intros a loc H; [reflexivity|]. cbn [fold_left].
      unfold exec_stmt at 2. cbn [fst snd]. rewrite IH by (intros y Hy; apply H; right; exact Hy). cbn beta.
      destruct (Z.eqb_spec i (ptcl x)) as [E|]; [exfalso; apply (H x); [left; reflexivity|auto]|reflexivity]. }
    apply G. intros x Hx <-. destruct (Hall x Hx) as (p & Hp & Hin). apply Hi, in_concat. exists p.
    split; [eapply nth_error_In; eauto|exact Hin].
Qed.

(** ** The divisions of the particles *)
Lemma gpu_parts_range n T : (0 <= n < 2 ^ 52)%Z -> (1 <= T)%Z -> concat (gpu_parts n T) = range n.
Proof.
  intros Hn HT. unfold gpu_parts.
  assert (E : forall l, concat (map (fun i => if (i <? n)%Z then [i] else []) l) = executed n l).
  { induction l as [|i l IH]; [reflexivity|]. cbn [map concat]. rewrite IH. unfold executed. cbn [filter].
    destruct (i <? n)%Z; reflexivity. }
  rewrite E. destruct (bpg_covers n T) as [B1 B2]; try lia.
  destruct (cuda_tpb_bpg_1d n T) as [b t] eqn:Eb. assert (t = T) as -> by (unfold cuda_tpb_bpg_1d in Eb; congruence).
  cbn [fst] in *. rewrite threads_range by lia. apply executed_range. lia.
Qed.
Lemma chunk_parts_range n k : (0 <= n < 2 ^ 52)%Z -> (1 <= k <= 2 ^ 52)%Z -> concat (chunk_parts n k) = range n.
Proof.
  intros Hn Hk. unfold chunk_parts. rewrite <- flat_map_concat_map.
  apply (chunk_main n k); try lia.
Qed.
Lemma each_of parts n body f a a' : effect body f -> Permutation (concat parts) (range n) -> parallel parts body a a' ->
  each n (fun p p' => p' = f p) a a'.
Proof.
  intros He Hp H. destruct (parallel_effect parts body f a a' He) as [H1 H2]; [|exact H|].
  - apply (Permutation_NoDup (l := range n)); [symmetry; exact Hp|apply NoDup_range].
  - split; intros i Hi; [apply H1|apply H2].
    + apply (Permutation_in _ (Permutation_sym Hp)), in_range. exact Hi.
    + intros H'. apply Hi, in_range, (Permutation_in _ Hp). exact H'.
Qed.
Lemma launched_each b n T gpu cpu f a a' : (0 <= n < 2 ^ 52)%Z -> (1 <= T)%Z -> effect gpu f -> effect cpu f ->
  launched b n T gpu cpu a a' -> each n (fun p p' => p' = f p) a a'.
Proof.
  intros Hn HT Hg Hc. destruct b; cbn [launched].
  - apply each_of; [exact Hg|]. rewrite gpu_parts_range by assumption. reflexivity.
  - intros (parts & Hp & H). eapply each_of; eauto.
Qed.
Lemma gathered_each b s gpu cpu f a a' : sized b s -> effect gpu f -> effect cpu f ->
  gathered b s gpu cpu a a' -> each (s_N s) (fun p p' => p' = f p) a a'.
Proof.
  intros [Hn Hb] Hg Hc. unfold gathered.
  assert (HT : (1 <= gather_tpb (s_shape s))%Z) by (destruct (s_shape s); cbn; lia).
  assert (HL : launched b (s_N s) (gather_tpb (s_shape s)) gpu cpu a a' -> each (s_N s) (fun p p' => p' = f p) a a')
    by (apply launched_each; assumption).
  destruct b as [|k]; [exact HL|]. destruct (s_shape s); try exact HL.
  apply each_of; [exact Hc|]. rewrite chunk_parts_range by assumption. reflexivity.
Qed.
Lemma each_comp n f g a a1 a' : each n (fun p p' => p' = f p) a a1 -> each n (fun p p' => p' = g p) a1 a' ->
  each n (fun p p' => p' = g (f p)) a a'.
Proof.
  intros [A1 A2] [B1 B2]. split; intros i Hi; [rewrite B1, A1 by assumption; reflexivity|rewrite B2, A2 by assumption; reflexivity].
Qed.

(** ** The bodies *)
Open Scope R_scope.
Section Bodies.
Variables c e : R.
Definition apply_fields (F : mp -> (R * R * R) * (R * R * R)) (p : mp) : mp :=
  set_pf p {| Ex := fst (fst (fst (F p))); Ey := snd (fst (fst (F p))); Ez := snd (fst (F p));
              Bx := fst (fst (snd (F p))); By := snd (fst (snd (F p))); Bz := snd (snd (F p)) |}.

Lemma eff_push_x_gpu dt x y z : effect (push_x_gpu c dt x y z) (push_x c dt x y z).
Proof. intros p l. destruct p as [x0 y0 z0 [u1 u2 u3 g] f0 lev]. unfold run_body, push_x_gpu, push_x, write, assign, set_x, set_y, set_z.
  cbn [fold_left fst snd l_ig set_l_ig px py pz pm pf plevel ux uy uz ig]. f_equal; ring. Qed.
Lemma eff_push_x_cpu dt x y z : effect (push_x_cpu c dt x y z) (push_x c dt x y z).
Proof. intros p l. destruct p, pm. reflexivity. Qed.
Lemma eff_vay ec bc :
  effect (vay ec bc) (fun p => set_pm p (push_p_vay (pm p) (pf p) (ec p) (bc p))).
Proof.
  intros p l. unfold run_body, vay. cbn [fold_left]. unfold write, assign. cbn [fst snd l_new set_l_new].
  generalize (push_p_vay (pm p) (pf p) (ec p) (bc p)). intros r. destruct r. destruct p. reflexivity.
Qed.
(** A guarded body: all or nothing when the body does not change the condition. *)
Definition keeps_go (s : stmt) : Prop := forall st, l_go (snd (s st)) = l_go (snd st).
Lemma guarded_body body : Forall keeps_go body -> forall st,
  run_body (map guarded body) st = if l_go (snd st) then run_body body st else st.
Proof.
  induction 1 as [|s body Hs Hb IH]; intros st; [cbn; destruct (l_go (snd st)); reflexivity|].
  cbn [map run_body fold_left]. change (run_body (map guarded body) (guarded s st) = if l_go (snd st) then run_body body (s st) else st).
  rewrite IH. unfold guarded. destruct (l_go (snd st)) eqn:E; [rewrite Hs, E; reflexivity|rewrite E; reflexivity].
Qed.
Lemma vay_keeps ec bc : Forall keeps_go (vay ec bc).
Proof. repeat constructor; intros st; reflexivity. Qed.
Lemma eff_push_p q m dt : effect (push_p_body c q m dt) (push_p_numba c q m dt).
Proof.
  intros p l. unfold push_p_body. rewrite (eff_vay _ _).
  unfold push_p_numba. replace (0.5 * q * dt / m) with (1 / 2 * q * dt / m) by (f_equal; f_equal; f_equal; lra). reflexivity.
Qed.
Lemma eff_guard go body f : Forall keeps_go body -> effect body f ->
  effect (assign (fun a l => set_l_go l (go a)) :: map guarded body) (fun p => if go p : bool then f p else p).
Proof.
  intros Hk Hf p l. cbn [run_body fold_left].
  change (fst (run_body (map guarded body) (p, set_l_go l (go p))) = if go p then f p else p).
  rewrite guarded_body by exact Hk. cbn [snd l_go set_l_go]. destruct (go p); [apply Hf|reflexivity].
Qed.
Lemma eff_plane zp q m dt : effect (push_p_after_plane_body c zp q m dt) (push_p_after_plane_numba c zp q m dt).
Proof.
  intros p l. unfold push_p_after_plane_body.
  rewrite (eff_guard (fun a => if Rlt_dec zp (pz a) then true else false) _ _ (vay_keeps _ _) (eff_push_p q m dt)).
  unfold push_p_after_plane_numba. destruct (Rlt_dec zp (pz p)); reflexivity.
Qed.
Lemma half x : 0.5 * x = 1 / 2 * x. Proof. lra. Qed.
Lemma eff_ioniz_gpu m dt : effect (push_p_ioniz_gpu c e m dt) (push_p_ioniz_numba c e m dt).
Proof.
  intros p l. unfold push_p_ioniz_gpu.
  rewrite (eff_guard (fun a => negb (plevel a =? 0)%Z) _ _ (vay_keeps _ _) (eff_vay _ _)).
  unfold push_p_ioniz_numba. destruct (plevel p =? 0)%Z; cbn [negb]; [reflexivity|].
  do 2 f_equal; unfold Rdiv; [ring|lra].
Qed.
Lemma eff_ioniz_cpu m dt : effect (push_p_ioniz_cpu c e m dt) (push_p_ioniz_numba c e m dt).
Proof.
  intros p l. unfold push_p_ioniz_cpu.
  rewrite (eff_guard (fun a => negb (plevel a =? 0)%Z) _ _ (vay_keeps _ _) (eff_vay _ _)).
  unfold push_p_ioniz_numba. destruct (plevel p =? 0)%Z; cbn [negb]; [reflexivity|].
  do 2 f_equal. unfold Rdiv; lra.
Qed.
Lemma eff_erase : effect erase_eb (apply_fields (fun _ => ((0, 0, 0), (0, 0, 0)))).
Proof. intros p l. destruct p. reflexivity. Qed.

Definition two_modes_of sh g rm E0 E1 B0 B1 (p : mp) :=
  (gather_field sh g rm [E0; E1] (px p) (py p) (pz p), gather_field sh g rm [B0; B1] (px p) (py p) (pz p)).
Lemma run_cons s body st : run_body (s :: body) st = run_body body (s st).
Proof. reflexivity. Qed.
Ltac stp := match goal with |- context [run_body (?s :: ?b) ?st] => rewrite (run_cons s b st);
  let r := eval cbv beta iota zeta delta [write assign conversion fst snd Fr_ Ft_ Fz_ rj_ cos_ sin_ px py pz pm pf plevel set_l_F set_l_go set_l_cyl
    l_cyl l_F l_go l_ig l_new set_Ex set_Ey set_Ez set_Bx set_By set_Bz set_pf Ex Ey Ez Bx By Bz] in (s st) in change (s st) with r end.
Lemma eff_two_modes sh g rm E0 E1 B0 B1 : effect (gather_two_modes sh g rm E0 E1 B0 B1) (apply_fields (two_modes_of sh g rm E0 E1 B0 B1)).
Proof.
  intros p l. destruct p as [x y z mo f lev], f as [ex ey ez bx by_ bz], l as [l1 l2 l3 l4 l5].
  unfold apply_fields, two_modes_of, gather_field. cbn [px py pz].
  unfold gather_two_modes. cbv zeta. stp. destruct (cylindrical x y) as [[rj co] si].
  stp. match goal with |- context [run_body _ (_, {| l_ig := _; l_go := _; l_cyl := _; l_F := ?F; l_new := _ |})] => set (FE := F) end.
  destruct FE as [[a1 a2] a3] eqn:HE. stp. stp. stp. stp.
  match goal with |- context [run_body _ (_, {| l_ig := _; l_go := _; l_cyl := _; l_F := ?F; l_new := _ |})] => set (FB := F) end.
  destruct FB as [[b1 b2] b3] eqn:HB. stp. stp. stp. cbn [cart fst snd run_body fold_left]. reflexivity.
Qed.

Lemma exptheta_pow gpu m l : exptheta gpu m l = Cpow_nat (cos_ l, - sin_ l) m.
Proof.
  destruct gpu; [|reflexivity]. unfold exptheta. generalize (cos_ l, - sin_ l). intros z.
  assert (G : forall n w, fold_left (fun ex (_ : unit) => Cmult ex z) (repeat tt n) w = Cmult (Cpow_nat z n) w).
  { induction n as [|n IH]; intros w; cbn [repeat fold_left Cpow_nat]; [rewrite Cmult_1_l; reflexivity|].
    rewrite IH, !Cmult_assoc, (Cmult_comm z). rewrite <- !Cmult_assoc. f_equal. apply Cmult_comm. }
  rewrite G, Cmult_1_r. reflexivity.
Qed.
Definition add_mode_of sh g rm m E B (p : mp) : (R * R * R) * (R * R * R) :=
  let '(rj, co, si) := cylindrical (px p) (py p) in
  let one fld old := if Rlt_dec rj rm then vadd old (cart co si (shape_mode sh g rj (pz p) (Cpow_nat (co, - si) m) m fld (0, 0, 0))) else old in
  (one E (fst (fields_of p)), one B (snd (fields_of p))).
Lemma eff_one_mode gpu sh g rm m E B : effect (gather_one_mode gpu sh g rm m E B) (apply_fields (add_mode_of sh g rm m E B)).
Proof.
  intros p l. unfold gather_one_mode. cbn [app run_body fold_left].
  match goal with |- context [map guarded ?b] => set (body := b) end.
  assert (Hk : Forall keeps_go body) by (repeat constructor; intros st; reflexivity).
  match goal with |- fst (fold_left ?f _ ?st) = _ => change (fst (run_body (map guarded body) st) = apply_fields (add_mode_of sh g rm m E B) p) end.
  rewrite guarded_body by exact Hk. unfold conversion, assign. cbn [fst snd].
  cbn [set_l_go set_l_cyl l_go l_cyl]. unfold apply_fields, add_mode_of, rj_. cbn [l_cyl set_l_cyl].
  destruct (cylindrical (px p) (py p)) as [[rj co] si] eqn:Ec. cbn [fst snd].
  destruct (Rlt_dec rj rm) as [Hr|Hr].
  - subst body. destruct p as [x y z mo f lev], f as [ex ey ez bx by_ bz], l as [l1 l2 l3 l4 l5].
    cbn [px py pz pm pf plevel fields_of vadd fst snd] in *. unfold set_l_go, set_l_cyl. cbn [l_ig l_go l_cyl l_F l_new].
    stp. rewrite exptheta_pow. cbn [cos_ sin_ l_cyl fst snd].
    destruct (shape_mode sh g rj z (Cpow_nat (co, - si) m) m E (0, 0, 0)) as [[a1 a2] a3]. do 4 stp.
    rewrite exptheta_pow. cbn [cos_ sin_ l_cyl fst snd].
    destruct (shape_mode sh g rj z (Cpow_nat (co, - si) m) m B (0, 0, 0)) as [[b1 b2] b3]. do 3 stp. reflexivity.
  - cbn [fst snd]. destruct p as [x y z mo f lev]. destruct f. reflexivity.
Qed.

(** ** The calls *)
Definition one (s : species) (o : op) (p : mp) : mp :=
  match o with
  | Gather g rm fs => apply_fields (fun p => gather (s_q s) (s_shape s) g rm (map fst fs) (map snd fs) (px p) (py p) (pz p) (fields_of p)) p
  | PushP dt =>
    if Req_EM_T (s_q s) 0 then p else
    match s_plane s, s_ionizer s with
    | Some _, true => p
    | None, true => push_p_ioniz_numba c e (s_m s) dt p
    | Some zp, false => push_p_after_plane_numba c zp (s_q s) (s_m s) dt p
    | None, false => push_p_numba c (s_q s) (s_m s) dt p
    end
  | PushX dt xp yp zp => push_x c dt xp yp zp p
  end.
Lemma apply_same p : apply_fields fields_of p = p.
Proof. destruct p as [x y z mo f lev], f. reflexivity. Qed.

(** The modes one after the other. *)
Fixpoint add_modes sh g rm m fs (p : mp) : mp :=
  match fs with
  | [] => p
  | (E, B) :: fs => add_modes sh g rm (S m) fs (apply_fields (add_mode_of sh g rm m E B) p)
  end.
Lemma gather_modes_each b s g rm : sized b s -> forall m fs a a',
  gather_modes b s g rm m fs a a' -> each (s_N s) (fun p p' => p' = add_modes (s_shape s) g rm m fs p) a a'.
Proof.
  intros Hs m fs a a' H. induction H as [m a|m E B fs a a1 a' H1 H2 IH]; cbn [add_modes].
  - split; reflexivity.
  - apply (each_comp _ _ _ _ a1); [|exact IH]. eapply gathered_each; [exact Hs| | |exact H1]; apply eff_one_mode.
Qed.
Definition modes_fold (sh : shape) g rm rj co si z :=
  fun '(m, acc) fld => (S m, if Rlt_dec rj rm then vadd acc (cart co si (shape_mode sh g rj z (Cpow_nat (co, - si) m) m fld (0, 0, 0))) else acc).
Lemma add_modes_eq sh g rm rj co si : forall fs m p, cylindrical (px p) (py p) = (rj, co, si) ->
  add_modes sh g rm m fs p = apply_fields (fun p =>
    (snd (fold_left (modes_fold sh g rm rj co si (pz p)) (map fst fs) (m, fst (fields_of p))),
     snd (fold_left (modes_fold sh g rm rj co si (pz p)) (map snd fs) (m, snd (fields_of p))))) p.
Proof.
  induction fs as [|[E B] fs IH]; intros m p Hp; cbn [add_modes map fold_left fst snd].
  - destruct p as [x y z mo f lev], f. reflexivity.
  - rewrite IH by (destruct p; exact Hp). unfold apply_fields, add_mode_of, set_pf. cbv beta. rewrite Hp.
    destruct p as [x y z mo f lev], f as [ex ey ez bx by_ bz].
    unfold fields_of. cbn [px py pz pf pm plevel fst snd Ex Ey Ez Bx By Bz modes_fold].
    destruct (Rlt_dec rj rm); [|reflexivity].
    destruct (vadd (ex, ey, ez) _) as [[a1 a2] a3]. destruct (vadd (bx, by_, bz) _) as [[b1 b2] b3]. reflexivity.
Qed.
Lemma gather_generic sh g rm fs x y z : (forall a b, fs <> [a; b]) ->
  gather_field sh g rm fs x y z = let '(rj, co, si) := cylindrical x y in snd (fold_left (modes_fold sh g rm rj co si z) fs (0%nat, (0, 0, 0))).
Proof.
  intros H. unfold gather_field. destruct (cylindrical x y) as [[rj co] si].
  destruct fs as [|f0 [|f1 [|f2 fs]]]; try reflexivity. exfalso. exact (H f0 f1 eq_refl).
Qed.

Lemma call_each b s o a a' : sized b s -> call c e b s o a a' -> each (s_N s) (fun p p' => p' = one s o p) a a'.
Proof.
  intros Hs. destruct o as [g rm fs|dt|dt xp yp zp]; cbn [call one].
  - unfold gather_on, gather. destruct (Req_EM_T (s_q s) 0) as [Hq|Hq].
    { intros ->. split; intros i _; [|reflexivity]. symmetry. apply apply_same. }
    assert (G : (exists a1, launched b (s_N s) (gather_tpb (s_shape s)) erase_eb erase_eb a a1 /\ gather_modes b s g rm 0 fs a1 a') ->
      (forall f h, fs <> [f; h]) ->
      each (s_N s) (fun p p' => p' = apply_fields (fun p => (gather_field (s_shape s) g rm (map fst fs) (px p) (py p) (pz p),
        gather_field (s_shape s) g rm (map snd fs) (px p) (py p) (pz p))) p) a a').
    { intros (a1 & H1 & H2) Hne.
      assert (E1 : each (s_N s) (fun p p' => p' = apply_fields (fun _ => ((0, 0, 0), (0, 0, 0))) p) a a1).
      { eapply launched_each; [apply Hs| |apply eff_erase|apply eff_erase|exact H1]. destruct (s_shape s); cbn; lia. }
      assert (E2 := gather_modes_each b s g rm Hs _ _ _ _ H2).
      destruct (each_comp _ _ _ _ _ _ E1 E2) as [K1 K2]. split; [|exact K2].
      intros i Hi. rewrite (K1 i Hi). destruct (cylindrical (px (a i)) (py (a i))) as [[rj co] si] eqn:Ec.
      rewrite (add_modes_eq _ _ _ rj co si) by exact Ec.
      unfold apply_fields at 1 3. unfold apply_fields. cbn [pz px py set_pf fields_of pf fst snd Ex Ey Ez Bx By Bz].
      rewrite !gather_generic, Ec.
      - reflexivity.
      - intros f h E. destruct fs as [|f1 [|f2 [|f3 fs]]]; try discriminate. exact (Hne f1 f2 eq_refl).
      - intros f h E. destruct fs as [|f1 [|f2 [|f3 fs]]]; try discriminate. exact (Hne f1 f2 eq_refl). }
    destruct fs as [|[E0 B0] [|[E1 B1] [|f2 fs]]].
    + intros H. apply G; [exact H|discriminate].
    + intros H. apply G; [exact H|discriminate].
    + intros H. apply (gathered_each b s _ _ _ a a' Hs (eff_two_modes _ _ _ _ _ _ _) (eff_two_modes _ _ _ _ _ _ _) H).
    + intros H. apply G; [exact H|discriminate].
  - unfold push_p_on. destruct (Req_EM_T (s_q s) 0) as [Hq|Hq]; [intros ->; split; reflexivity|].
    destruct Hs as [Hn _].
    destruct (s_plane s) as [zp|], (s_ionizer s); [contradiction| | |]; intros H.
    + eapply launched_each; [exact Hn| |apply eff_plane|apply eff_plane|exact H]; lia.
    + eapply launched_each; [exact Hn| |apply eff_ioniz_gpu|apply eff_ioniz_cpu|exact H]; lia.
    + eapply launched_each; [exact Hn| |apply eff_push_p|apply eff_push_p|exact H]; lia.
  - intros H. destruct Hs as [Hn _]. eapply launched_each; [exact Hn| |apply eff_push_x_gpu|apply eff_push_x_cpu|exact H]; lia.
Qed.

Lemma gather_main b s g rm fs a a' : sized b s -> gather_on b s g rm fs a a' -> each (s_N s) (gathers s g rm fs) a a'.
Proof.
  intros Hs H. destruct (call_each b s (Gather g rm fs) a a' Hs H) as [H1 H2]. split; [|exact H2].
  intros i Hi. rewrite (H1 i Hi). unfold one, gathers, apply_fields.
  destruct (a i) as [x y z mo f lev]. cbn [set_pf px py pz pm pf plevel].
  destruct (gather _ _ _ _ _ _ _ _ _ _) as [[[e1 e2] e3] [[b1 b2] b3]]. repeat split.
Qed.
Lemma push_p_main b s dt a a' : sized b s -> push_p_on c e b s dt a a' -> each (s_N s) (pushes c e s dt) a a'.
Proof.
  intros Hs H. destruct (call_each b s (PushP dt) a a' Hs H) as [H1 H2]. split; [|exact H2].
  intros i Hi. unfold pushes, push_p. cbn [q m z_plane ionizer ptcls]. rewrite (H1 i Hi). cbn [one].
  unfold push_p_on in H. destruct (Req_EM_T (s_q s) 0) as [Hq|Hq]; [reflexivity|].
  destruct (s_plane s), (s_ionizer s); try reflexivity. contradiction.
Qed.
Lemma push_x_main b s dt xp yp zp a a' : sized b s -> push_x_on c b s dt xp yp zp a a' ->
  each (s_N s) (fun p p' => p' = push_x c dt xp yp zp p) a a'.
Proof. intros Hs H. exact (call_each b s (PushX dt xp yp zp) a a' Hs H). Qed.

Lemma run_each b s os a a' : sized b s -> run c e b s os a a' ->
  each (s_N s) (fun p p' => p' = fold_left (fun p o => one s o p) os p) a a'.
Proof.
  intros Hs H. induction H as [a|o os a a1 a' H1 H2 IH]; [split; reflexivity|]. cbn [fold_left].
  exact (each_comp _ (one s o) (fun p => fold_left (fun p o => one s o p) os p) _ a1 _ (call_each b s o a a1 Hs H1) IH).
Qed.
Lemma backend_main b1 b2 s os a a1 a2 : sized b1 s -> sized b2 s -> run c e b1 s os a a1 -> run c e b2 s os a a2 -> a1 = a2.
Proof.
  intros S1 S2 R1 R2. destruct (run_each _ _ _ _ _ S1 R1) as [A1 A2]. destruct (run_each _ _ _ _ _ S2 R2) as [B1 B2].
  apply functional_extensionality. intros i.
  assert (D : (0 <= i < s_N s)%Z \/ ~ (0 <= i < s_N s)%Z) by lia. destruct D as [D|D].
  - rewrite A1, B1 by exact D. reflexivity.
  - rewrite A2, B2 by exact D. reflexivity.
Qed.
Lemma alone_main b1 b2 s n os a a1 u u1 i j : sized b1 s -> sized b2 (with_N s n) ->
  run c e b1 s os a a1 -> run c e b2 (with_N s n) os u u1 ->
  (0 <= i < s_N s)%Z -> (0 <= j < n)%Z -> u j = a i -> u1 j = a1 i.
Proof.
  intros S1 S2 R1 R2 Hi Hj E. destruct (run_each _ _ _ _ _ S1 R1) as [A1 _]. destruct (run_each _ _ _ _ _ S2 R2) as [B1 _].
  rewrite (A1 i Hi), (B1 j) by exact Hj. rewrite E. reflexivity.
Qed.

(** ** Executions exist *)
Lemma parallel_exists parts body a : exists a', parallel parts body a a'.
Proof.
  eexists. exists (concat (map (fun '(t, ids) => thread_program body t ids) (combine (seq 0 (length parts)) parts))),
    (fun _ => {| l_ig := 0; l_go := false; l_cyl := (0, 0, 0); l_F := (0, 0, 0); l_new := {| ux := 0; uy := 0; uz := 0; ig := 0 |} |}).
  split; [apply il_concat|reflexivity].
Qed.
Lemma launched_exists b n T gpu cpu a : exists a', launched b n T gpu cpu a a'.
Proof.
  destruct b; cbn [launched]; [apply parallel_exists|]. destruct (parallel_exists [range n] cpu a) as [a' H].
  exists a', [range n]. split; [|exact H]. unfold prange_parts. cbn. rewrite app_nil_r. reflexivity.
Qed.
Lemma gathered_exists b s gpu cpu a : exists a', gathered b s gpu cpu a a'.
Proof. unfold gathered. destruct b, (s_shape s); try apply launched_exists; apply parallel_exists. Qed.
Lemma modes_exist b s g rm fs : forall m a, exists a', gather_modes b s g rm m fs a a'.
Proof.
  induction fs as [|[E B] fs IH]; intros m a; [eexists; constructor|].
  destruct (gathered_exists b s (gather_one_mode true (s_shape s) g rm m E B) (gather_one_mode false (s_shape s) g rm m E B) a) as [a1 H1].
  destruct (IH (S m) a1) as [a' H2]. exists a'. econstructor; eassumption.
Qed.
Lemma call_exists b s o a : (s_plane s = None \/ s_ionizer s = false) -> exists a', call c e b s o a a'.
Proof.
  intros Hc. destruct o as [g rm fs|dt|dt xp yp zp]; cbn [call].
  - unfold gather_on. destruct (Req_EM_T (s_q s) 0); [eexists; reflexivity|].
    assert (G : exists a' a1, launched b (s_N s) (gather_tpb (s_shape s)) erase_eb erase_eb a a1 /\ gather_modes b s g rm 0 fs a1 a').
    { destruct (launched_exists b (s_N s) (gather_tpb (s_shape s)) erase_eb erase_eb a) as [a1 H1].
      destruct (modes_exist b s g rm fs 0 a1) as [a' H2]. exists a', a1. auto. }
    destruct fs as [|[E0 B0] [|[E1 B1] [|f2 fs]]]; try exact G. apply gathered_exists.
  - unfold push_p_on. destruct (Req_EM_T (s_q s) 0); [eexists; reflexivity|].
    destruct (s_plane s), (s_ionizer s); try apply launched_exists. destruct Hc; discriminate.
  - apply launched_exists.
Qed.
Lemma run_exists b s os : (s_plane s = None \/ s_ionizer s = false) -> forall a, exists a', run c e b s os a a'.
Proof.
  intros Hc. induction os as [|o os IH]; intros a; [eexists; constructor|].
  destruct (call_exists b s o a Hc) as [a1 H1]. destruct (IH a1) as [a' H2]. exists a'. econstructor; eassumption.
Qed.
End Bodies.
