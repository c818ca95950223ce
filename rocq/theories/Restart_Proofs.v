From Verif Require Import Base Store_Model Store_Proofs Store_Props Restart_Model Restart_Spec.
From Coq Require Import Reals List Lra Lia.
From Coquelicot Require Import Complex.
From Flocq Require Import Core.Raux Core.Generic_fmt Core.Round_NE.
Open Scope R_scope.

Lemma mp_back cc ee m p : 0 < cc -> 0 < ee -> 0 <= m -> m_ig p = 1 / sqrt (1 + m_ux p ^ 2 + m_uy p ^ 2 + m_uz p ^ 2) -> of_file cc ee m (to_file cc ee m p) = p.
Proof.
  intros Hc He Hm G. assert (S : (if Rlt_dec 0 m then m * cc else 1) = (if Req_EM_T m 0 then 1 else m * cc) /\ (if Req_EM_T m 0 then 1 else m * cc) <> 0).
  { destruct (Req_EM_T m 0) as [E|E].
    - destruct (Rlt_dec 0 m); [lra|]. split; [reflexivity|lra].
    - destruct (Rlt_dec 0 m) as [P|P]; [|exfalso; apply E; lra]. split; [reflexivity|]. apply Rgt_not_eq, Rmult_lt_0_compat; assumption. }
  destruct S as [S N]. unfold of_file, to_file. rewrite S. set (s := if Req_EM_T m 0 then 1 else m * cc) in *. clearbody s.
  cbn [q_x q_y q_z q_px q_py q_pz q_w q_id q_charge].
  replace (m_ux p * s / s) with (m_ux p) by (field; exact N). replace (m_uy p * s / s) with (m_uy p) by (field; exact N). replace (m_uz p * s / s) with (m_uz p) by (field; exact N).
  rewrite <- G. replace (option_map (fun c => ZnearestE (c / ee)) (option_map (fun l => ee * IZR l) (m_lev p))) with (m_lev p); [destruct p; reflexivity|].
  destruct (m_lev p) as [l|]; [|reflexivity]. cbn [option_map]. replace (ee * IZR l / ee) with (IZR l) by (field; lra). rewrite Zrnd_IZR by apply valid_rnd_N. reflexivity.
Qed.

Section Run.
Context (cc ee : R) (Nm : Z) (dt : R) (st : Z -> rstate) (nf ns : nat).
Context (WF : forall it, state_ok nf ns (st it)).
Definition data_at (it : Z) (a : nat) : list dataset :=
  map (fun fl => write_dataset Nm fl empty_dataset) (firstn a (r_fields (st it))) ++ map (fun _ => empty_dataset) (skipn a (r_fields (st it))).
Definition conv (sp : R * list mp) : R * list fmp := let '(m, ps) := sp in (m, map (to_file cc ee m) ps).
Definition pfile (it : Z) (a b : nat) : file :=
  {| f_it := it; f_time := IZR it * dt; f_zmin := r_zmin (st it); f_data := data_at it a; f_sp := map conv (firstn b (r_species (st it))) |}.
Lemma set_nth_app {A} (l1 : list A) x y l2 : set_nth (l1 ++ x :: l2) (length l1) y = l1 ++ y :: l2.
Proof. induction l1; cbn; [reflexivity|]. rewrite IHl1. reflexivity. Qed.
Lemma nth_app_mid {A} (l1 : list A) x l2 d : nth (length l1) (l1 ++ x :: l2) d = x.
Proof. induction l1; cbn; [reflexivity|]. exact IHl1. Qed.
Lemma skipn_nth {A} (l : list A) a d : (a < length l)%nat -> skipn a l = nth a l d :: skipn (S a) l.
Proof. revert a. induction l as [|x l IH]; intros [|a] H; cbn in *; try lia; [reflexivity|]. rewrite (IH a) by lia. destruct l; reflexivity. Qed.
Lemma firstn_S_nth {A} (l : list A) a d : (a < length l)%nat -> firstn (S a) l = firstn a l ++ [nth a l d].
Proof. revert a. induction l as [|x l IH]; intros [|a] H; cbn in *; try lia; [reflexivity|]. rewrite <- (IH a) by lia. reflexivity. Qed.
Lemma data_step it a : (a < nf)%nat ->
  set_nth (data_at it a) a (write_dataset Nm (nth a (r_fields (st it)) (fun _ _ _ => RtoC 0)) (nth a (data_at it a) empty_dataset)) = data_at it (S a).
Proof.
  intros H. destruct (WF it) as (L & _ & _). unfold data_at. rewrite (skipn_nth (r_fields (st it)) a (fun _ _ _ => RtoC 0)) by lia. cbn [map].
  set (l1 := map (fun fl => write_dataset Nm fl empty_dataset) (firstn a (r_fields (st it)))).
  assert (E : length l1 = a) by (unfold l1; rewrite map_length, firstn_length; lia).
  assert (S1 : forall x y l2, set_nth (l1 ++ x :: l2) a y = l1 ++ y :: l2) by (rewrite <- E; apply set_nth_app).
  assert (S2 : forall x l2 d, nth a (l1 ++ x :: l2) d = x) by (rewrite <- E; intros; apply nth_app_mid).
  rewrite S1, S2, (firstn_S_nth (r_fields (st it)) a (fun _ _ _ => RtoC 0)) by lia.
  rewrite map_app. cbn [map]. fold l1. rewrite <- app_assoc. cbn [app]. reflexivity.
Qed.
Definition fresh (it : Z) (d : disk) : Prop := forall f, In f d -> f_it f <> it.
Lemma update_last it g f d : fresh it d -> f_it f = it -> update it g (d ++ [f]) = d ++ [g f].
Proof.
  intros F E. unfold update. rewrite map_app. cbn [map]. rewrite E, Z.eqb_refl. f_equal. rewrite <- (map_id d) at 2. apply map_ext_in. intros x Hx.
  destruct (Z.eqb_spec (f_it x) it) as [X|X]; [|reflexivity]. exfalso. exact (F x Hx X).
Qed.
Lemma run_fields it d : fresh it d -> forall n a, (a + n <= nf)%nat ->
  fold_left (exec cc ee Nm dt st) (map (Field it) (seq a n)) (d ++ [pfile it a 0]) = d ++ [pfile it (a + n) 0].
Proof.
  intros F. induction n as [|n IH]; intros a H; cbn [seq map fold_left]; [rewrite Nat.add_0_r; reflexivity|].
  cbn [exec]. rewrite update_last by (exact F || reflexivity). replace (a + S n)%nat with (S a + n)%nat by lia. rewrite <- IH by lia. f_equal. f_equal. f_equal.
  unfold pfile. cbn [f_it f_time f_zmin f_data f_sp]. rewrite data_step by lia. reflexivity.
Qed.
Lemma run_species it d : fresh it d -> forall n b, (b + n <= ns)%nat ->
  fold_left (exec cc ee Nm dt st) (map (Species it) (seq b n)) (d ++ [pfile it nf b]) = d ++ [pfile it nf (b + n)].
Proof.
  intros F. induction n as [|n IH]; intros b H; cbn [seq map fold_left]; [rewrite Nat.add_0_r; reflexivity|].
  cbn [exec]. rewrite update_last by (exact F || reflexivity). replace (b + S n)%nat with (S b + n)%nat by lia. rewrite <- IH by lia. f_equal. f_equal. f_equal.
  unfold pfile. cbn [f_it f_time f_zmin f_data f_sp]. f_equal. destruct (WF it) as (_ & L & _). rewrite (firstn_S_nth _ b (0, [])) by lia. rewrite map_app. reflexivity.
Qed.
Lemma firstn_map_seq {A} (f : nat -> A) n : forall s t, firstn t (map f (seq s n)) = map f (seq s (Nat.min t n)).
Proof. induction n as [|n IH]; intros s [|t]; cbn; try reflexivity. rewrite IH. reflexivity. Qed.
(** After t >= 1 operations of a checkpoint *)
Lemma run_ckpt it d t : fresh it d -> (1 <= t)%nat ->
  fold_left (exec cc ee Nm dt st) (firstn t (ckpt_ops nf ns it)) d = d ++ [pfile it (Nat.min (t - 1) nf) (Nat.min (t - 1 - nf) ns)].
Proof.
  intros F Ht. destruct t as [|t]; [lia|]. cbn [Nat.sub]. rewrite Nat.sub_0_r. unfold ckpt_ops. cbn [firstn fold_left]. rewrite firstn_app, map_length, seq_length, !firstn_map_seq, fold_left_app.
  replace (exec cc ee Nm dt st d (Create it)) with (d ++ [pfile it 0 0]).
  2:{ cbn [exec]. unfold pfile, data_at. cbn [firstn map skipn app]. reflexivity. }
  rewrite run_fields by (exact F || lia). cbn [Nat.add]. destruct (Nat.le_gt_cases nf t) as [C|C].
  - rewrite (Nat.min_r t nf) by lia. apply (run_species it d F (Nat.min (t - nf) ns) 0). lia.
  - replace (t - nf)%nat with 0%nat by lia. reflexivity.
Qed.
Definition L := (1 + nf + ns)%nat.
Lemma ops_length it : length (ckpt_ops nf ns it) = L.
Proof. unfold ckpt_ops, L. cbn. rewrite app_length, !map_length, !seq_length. reflexivity. Qed.
Fixpoint files (its : list Z) (j : nat) : disk :=
  match its, j with
  | [], _ | _, O => []
  | it :: its, _ => pfile it (Nat.min (j - 1) nf) (Nat.min (j - 1 - nf) ns) :: files its (j - L)
  end.
Lemma run_from : forall its d j, NoDup its -> (forall it, In it its -> fresh it d) ->
  fold_left (exec cc ee Nm dt st) (firstn j (flat_map (ckpt_ops nf ns) its)) d = d ++ files its j.
Proof.
  induction its as [|it its IH]; intros d j N F.
  - cbn [flat_map]. rewrite firstn_nil. cbn. rewrite app_nil_r. reflexivity.
  - inversion N as [|x l N1 N2]; subst. destruct j as [|j]; [cbn; rewrite app_nil_r; reflexivity|].
    cbn [flat_map files]. rewrite firstn_app, fold_left_app, ops_length. set (j1 := S j). rewrite run_ckpt by (apply F; left; reflexivity) || (unfold j1; lia).
    rewrite IH; [rewrite <- app_assoc; reflexivity|exact N2|]. intros y Hy f Hf. apply in_app_or in Hf as [Hf|[<-|[]]]; [exact (F y (or_intror Hy) f Hf)|]. cbn. intros ->. contradiction.
Qed.
Lemma run_files its j : NoDup its -> run_disk cc ee Nm dt nf ns its st j = files its j.
Proof. intros N. unfold run_disk. rewrite run_from; [reflexivity|exact N|]. intros it _ f []. Qed.
(** The files: all but the last one are complete *)
Lemma files_in : forall its j f, In f (files its j) -> exists it a b, In it its /\ f = pfile it a b /\ (a <= nf)%nat /\ (b <= ns)%nat /\ (0 < b -> a = nf)%nat.
Proof.
  induction its as [|it its IH]; intros j f H; [destruct j; destruct H|]. destruct j as [|j]; [destruct H|]. cbn [files In] in H. destruct H as [<-|H].
  - exists it. do 2 eexists. split; [left; reflexivity|]. split; [reflexivity|]. lia.
  - destruct (IH _ f H) as (i & a & b & I & R). exists i, a, b. split; [right; exact I|exact R].
Qed.
Lemma files_its : forall its j, NoDup its -> exists n, map f_it (files its j) = firstn n its.
Proof.
  induction its as [|it its IH]; intros j N; [exists 0%nat; destruct j; reflexivity|]. destruct j as [|j]; [exists 0%nat; reflexivity|].
  inversion N; subst. destruct (IH (S j - L)%nat H2) as [n E]. exists (S n). cbn [files map firstn]. rewrite E. reflexivity.
Qed.
Lemma files_find : forall its j it, NoDup its -> match find (fun f => (f_it f =? it)%Z) (files its j) with Some f => In f (files its j) /\ f_it f = it | None => ~ In it (map f_it (files its j)) end.
Proof.
  intros its j it _. destruct (find _ _) as [f|] eqn:E.
  - apply find_some in E as [I X]. apply Z.eqb_eq in X. auto.
  - intros I. apply in_map_iff in I as (f & X & I). apply (find_none _ _ E) in I. apply Z.eqb_neq in I. contradiction.
Qed.
(** Loading a complete file gives the saved state *)
Lemma load_complete Nr it : ordinary (st it) -> 0 < cc -> 0 < ee ->
  same_state Nm Nr it dt (st it) {| n_it := it; n_time := f_time (pfile it nf ns); n_zmin := f_zmin (pfile it nf ns);
            n_fields := map (fun ds => fun m => load_field ds Nr m 1) (firstn nf (f_data (pfile it nf ns)));
            n_species := map (fun '(m, ps) => map (of_file cc ee m) ps) (firstn ns (f_sp (pfile it nf ns))) |}.
Proof.
  intros O Hc He. destruct (WF it) as (LF & LS & M0). unfold same_state. cbn [n_it n_time n_zmin n_fields n_species pfile f_time f_zmin f_data f_sp].
  do 3 (split; [reflexivity|]). split.
  - unfold data_at. rewrite (firstn_all2 (n := nf) (r_fields (st it))), (skipn_all2 (n := nf)) by lia. cbn [map]. rewrite app_nil_r.
    rewrite firstn_all2 by (rewrite map_length; lia). rewrite map_map. clear LF. induction M0 as [|fl l H M IH]; [constructor|]. cbn [map]. constructor; [|exact IH].
    intros m iz ir Hm Hr. apply (C55_fields Nm Nr fl empty_dataset 1 H m iz ir Hm Hr).
  - rewrite (firstn_all2 (n := ns) (r_species (st it))) by lia. rewrite firstn_all2 by (rewrite map_length; lia). rewrite map_map. clear LS. unfold ordinary in O.
    induction O as [|[m ps] l [H P] M IH]; [reflexivity|]. cbn [map conv snd]. rewrite IH. f_equal. rewrite map_map. cbn [fst snd] in H, P. clear - H P Hc He.
    induction P as [|p ps G P IH]; [reflexivity|]. cbn [map]. rewrite IH, mp_back by assumption. reflexivity.
Qed.
(** A file with all its species is complete (at least one species) *)
Lemma restart_rank_ok Nr its j iteration r : NoDup its -> (0 < ns)%nat -> (forall it, In it its -> ordinary (st it)) -> 0 < cc -> 0 < ee ->
  restart_rank cc ee Nr nf ns iteration (files its j) = Ok r ->
  exists it, In it its /\ it = (match iteration with Some i => i | None => last (map f_it (files its j)) 0%Z end) /\ same_state Nm Nr it dt (st it) r.
Proof.
  intros N Hs O Hc He. unfold restart_rank. set (d := files its j). assert (FI := files_in its j). assert (FF := fun it => files_find its j it N). fold d in FI, FF.
  destruct d as [|f0 d']; [discriminate|]. set (it := match iteration with Some i => i | None => _ end). destruct (negb _); [discriminate|].
  unfold find_file. specialize (FF it). destruct (find _ _) as [f|]; [|discriminate]. cbn [bind]. destruct FF as [I X].
  destruct (FI f I) as (i & a & b & Ii & E & Ha & Hb & Hab). subst f. cbn in X. subst i. cbn [pfile f_sp f_data]. rewrite map_length, firstn_length. destruct (WF it) as (LF & LS & _).
  destruct (Nat.ltb_spec (Nat.min b (length (r_species (st it)))) ns) as [C|C]; [discriminate|]. destruct (_ <? nf)%nat; [discriminate|].
  assert (b = ns) by lia. assert (a = nf) by lia. subst a b. intros H. injection H as <-. exists it. split; [exact Ii|]. split; [reflexivity|].
  apply load_complete; auto.
Qed.
(** ... and a completed checkpoint can be loaded *)
Lemma files_complete : forall its j k, (S k * L <= j)%nat -> (k < length its)%nat -> In (pfile (nth k its 0%Z) nf ns) (files its j).
Proof.
  induction its as [|it its IH]; intros j k H1 H2; [cbn in H2; lia|]. destruct j as [|j]; [unfold L in *; lia|]. cbn [files]. destruct k as [|k].
  - left. cbn [nth]. f_equal; unfold L in *; lia.
  - right. cbn [nth]. apply IH; [unfold L in *; lia|cbn in H2; lia].
Qed.
Lemma files_first its j : (L <= j)%nat -> its <> [] -> exists d', files its j = pfile (nth 0 its 0%Z) nf ns :: d'.
Proof. intros H1 H2. destruct its as [|it its]; [congruence|]. destruct j as [|j]; [unfold L in *; lia|]. cbn [files nth]. eexists. f_equal. f_equal; unfold L in *; lia. Qed.
Lemma find_unique (d : disk) f : In f d -> NoDup (map f_it d) -> find (fun g => (f_it g =? f_it f)%Z) d = Some f.
Proof.
  induction d as [|g d IH]; intros I N; [destruct I|]. cbn [find]. cbn [map] in N. inversion N as [|x l N1 N2]; subst. destruct I as [->|I]; [rewrite Z.eqb_refl; reflexivity|].
  destruct (Z.eqb_spec (f_it g) (f_it f)) as [E|E]; [|apply IH; assumption]. exfalso. apply N1. rewrite E. apply in_map. exact I.
Qed.
Lemma NoDup_firstn {A} (l : list A) n : NoDup l -> NoDup (firstn n l).
Proof.
  revert n. induction l as [|x l IH]; intros [|n] H; cbn; try constructor; inversion H as [|y k N1 N2]; subst.
  - intros I. apply N1. rewrite <- (firstn_skipn n l). apply in_or_app. left. exact I.
  - apply IH. exact N2.
Qed.
Lemma restart_complete Nr its j k : NoDup its -> (S k * L <= j)%nat -> (k < length its)%nat -> (forall it, In it its -> ordinary (st it)) -> 0 < cc -> 0 < ee ->
  exists r, restart_rank cc ee Nr nf ns (Some (nth k its 0%Z)) (files its j) = Ok r /\ same_state Nm Nr (nth k its 0%Z) dt (st (nth k its 0%Z)) r.
Proof.
  intros N H1 H2 O Hc He. destruct (files_first its j) as [d' E]; [unfold L in *; lia|intros ->; cbn in H2; lia|]. unfold restart_rank. rewrite E. cbn [pfile f_sp].
  destruct (WF (nth 0 its 0%Z)) as (_ & LS0 & _). rewrite map_length, firstn_length, LS0, Nat.min_id, Nat.eqb_refl. cbn [negb].
  set (it := nth k its 0%Z). unfold find_file. assert (I := files_complete its j k H1 H2). rewrite E in I.
  assert (ND : NoDup (map f_it (files its j))) by (destruct (files_its its j N) as [n ->]; apply NoDup_firstn; exact N). rewrite E in ND.
  rewrite (find_unique _ _ I ND : find (fun f => (f_it f =? it)%Z) _ = _). cbn [bind]. fold it. unfold pfile at 1 2. cbn [f_sp f_data]. destruct (WF it) as (LF & LS & _).
  rewrite map_length, firstn_length, LS, Nat.min_id, Nat.ltb_irrefl. unfold data_at at 1. rewrite app_length, !map_length, firstn_length, skipn_length, LF, Nat.min_id, Nat.sub_diag, Nat.add_0_r, Nat.ltb_irrefl.
  eexists. split; [reflexivity|]. apply load_complete; auto. apply O. apply nth_In. exact H2.
Qed.
Lemma files_last : forall its n, (0 < n <= length its)%nat -> last (map f_it (files its (n * L))) 0%Z = nth (n - 1) its 0%Z.
Proof.
  induction its as [|it its IH]; intros n H; [cbn in H; lia|]. destruct n as [|n]; [lia|]. assert (LP : (S n * L = S (nf + ns + n * L))%nat) by (unfold L; lia). rewrite LP. cbn [files map].
  replace (S (nf + ns + n * L) - L)%nat with (n * L)%nat by (unfold L; lia). replace (S n - 1)%nat with n by lia. destruct n as [|n].
  - cbn [Nat.mul]. destruct its; reflexivity.
  - assert (X := IH (S n) ltac:(cbn in H; lia)). cbn [Nat.sub] in X. rewrite Nat.sub_0_r in X. cbn [nth]. rewrite <- X.
    destruct (map f_it (files its (S n * L))) as [|y l] eqn:E; [|reflexivity]. exfalso. destruct its as [|i2 its]; [cbn in H; lia|]. rewrite (ltac:(unfold L; lia) : (S n * L = S (nf + ns + n * L))%nat) in E. discriminate.
Qed.
End Run.
Lemma its_nodup period n : (0 < period)%Z -> NoDup (ckpt_its period n).
Proof. intros H. unfold ckpt_its. apply FinFun.Injective_map_NoDup; [intros i j E; nia|apply seq_NoDup]. Qed.
Lemma its_length period n : length (ckpt_its period n) = n.
Proof. unfold ckpt_its. rewrite map_length, seq_length. reflexivity. Qed.
Lemma its_nth period n k : (k < n)%nat -> nth k (ckpt_its period n) 0%Z = (Z.of_nat (S k) * period)%Z.
Proof. intros H. unfold ckpt_its. rewrite (nth_indep _ _ (Z.of_nat 0 * period)%Z) by (rewrite map_length, seq_length; exact H). rewrite (map_nth (fun k => Z.of_nat k * period)%Z), seq_nth by exact H. reflexivity. Qed.
Lemma all_ok_forall {A B} (f : A -> res B) : forall l r, all_ok (map f l) = Ok r -> Forall2 (fun x y => f x = Ok y) l r.
Proof.
  induction l as [|x l IH]; intros r H; cbn in H; [injection H as <-; constructor|]. destruct (f x) as [a|] eqn:E; [|discriminate]. cbn in H. destruct (all_ok (map f l)) as [s|]; [|discriminate].
  injection H as <-. constructor; [exact E|]. apply IH. reflexivity.
Qed.
Lemma all_ok_exists {A B} (f : A -> res B) (P : A -> B -> Prop) : forall l, (forall x, In x l -> exists y, f x = Ok y /\ P x y) -> exists r, all_ok (map f l) = Ok r /\ Forall2 P l r.
Proof.
  induction l as [|x l IH]; intros H; [exists []; split; [reflexivity|constructor]|]. destruct (H x (or_introl eq_refl)) as (y & E & Py). destruct IH as (r & Er & F); [intros z Hz; apply H; right; exact Hz|].
  exists (y :: r). cbn. rewrite E. cbn. rewrite Er. split; [reflexivity|constructor; assumption].
Qed.
Lemma Forall2_weaken {A B} (P Q : A -> B -> Prop) : (forall x y, P x y -> Q x y) -> forall l r, Forall2 P l r -> Forall2 Q l r.
Proof. intros H l r F. induction F; constructor; auto. Qed.
Lemma latest_is cc ee Nr nf ns it d : last (map f_it d) 0%Z = it -> restart_rank cc ee Nr nf ns None d = restart_rank cc ee Nr nf ns (Some it) d.
Proof. intros <-. unfold restart_rank. destruct d; reflexivity. Qed.
Lemma partial_last cc ee Nm dt st nf ns : forall its k, (k < length its)%nat ->
  last (map f_it (files cc ee Nm dt st nf ns its (k * L nf ns + 1))) 0%Z = nth k its 0%Z /\ In (pfile cc ee Nm dt st (nth k its 0%Z) 0 0) (files cc ee Nm dt st nf ns its (k * L nf ns + 1)).
Proof.
  induction its as [|it its IH]; intros k H; [cbn in H; lia|]. destruct k as [|k].
  - change (0 * L nf ns + 1)%nat with 1%nat. cbn [files nth map]. replace (1 - L nf ns)%nat with 0%nat by (unfold L; lia). replace (files cc ee Nm dt st nf ns its 0) with (@nil file) by (destruct its; reflexivity).
    split; [reflexivity|left; reflexivity].
  - replace (S k * L nf ns + 1)%nat with (S (nf + ns + (k * L nf ns + 1)))%nat by (unfold L; lia). cbn [files nth map].
    replace (S (nf + ns + (k * L nf ns + 1)) - L nf ns)%nat with (k * L nf ns + 1)%nat by (unfold L; lia). destruct (IH k ltac:(cbn in H; lia)) as [E I]. split; [|right; exact I].
    rewrite <- E. destruct (map f_it (files cc ee Nm dt st nf ns its (k * L nf ns + 1))) eqn:X; [|reflexivity]. apply map_eq_nil in X. rewrite X in I. destruct I.
Qed.
