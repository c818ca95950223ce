From Coq Require Import ZArith Reals List String Lra Lia.
From Verif Require Import Base Pdiag_Model Pdiag_Spec Pdiag_Proofs Pfile_Model Pfile_Spec.
Import ListNotations.
Open Scope R_scope.
Open Scope list_scope.

Lemma path_eqb_eq a b : path_eqb a b = true <-> a = b.
Proof.
  destruct a as [a1 [a2|]], b as [b1 [b2|]]; unfold path_eqb; cbn; rewrite ?andb_true_r, ?andb_false_r, ?andb_true_iff, ?String.eqb_eq; split; intros H; try discriminate H.
  - destruct H as [-> ->]. reflexivity.
  - injection H as -> ->. split; reflexivity.
  - rewrite H. reflexivity.
  - injection H as ->. reflexivity.
Qed.
Lemma path_refl a : path_eqb a a = true. Proof. apply path_eqb_eq. reflexivity. Qed.
Lemma path_neq a b : a <> b -> path_eqb a b = false.
Proof. intros H. destruct (path_eqb a b) eqn:E; [|reflexivity]. apply path_eqb_eq in E. contradiction. Qed.
Lemma inside_other a b : fst a <> fst b -> inside a b = false.
Proof.
  intros H. unfold inside. rewrite path_neq by (intros ->; apply H; reflexivity). cbn. destruct (snd b); [reflexivity|]. apply String.eqb_neq. exact H.
Qed.
Lemma inside_comp a r x : a <> (r, Some x) -> inside a (r, Some x) = false.
Proof. intros H. unfold inside. rewrite path_neq by exact H. reflexivity. Qed.

(** ** Attributes *)
Lemma set_attrs_nodes p l : forall t, nodes (set_attrs p l t) = nodes t.
Proof. induction l as [|a l IH]; intros t; cbn; [reflexivity|]. unfold set_attrs in IH. rewrite IH. reflexivity. Qed.
Lemma set_attrs_other p l p' k : p' <> p -> forall t, attrs (set_attrs p l t) p' k = attrs t p' k.
Proof. intros H. induction l as [|a l IH]; intros t; cbn; [reflexivity|]. unfold set_attrs in IH. rewrite IH. cbn. rewrite path_neq by exact H. reflexivity. Qed.
Lemma set_attrs_notin p l p' k : ~ In k (map fst l) -> forall t, attrs (set_attrs p l t) p' k = attrs t p' k.
Proof.
  induction l as [|a l IH]; intros H t; cbn; [reflexivity|]. unfold set_attrs in IH. rewrite IH by (intros X; apply H; right; exact X). cbn.
  destruct (path_eqb p' p); [|reflexivity]. cbn. destruct (String.eqb k (fst a)) eqn:E; [|reflexivity]. apply String.eqb_eq in E. subst k. destruct H. left. reflexivity.
Qed.
Lemma set_attrs_in p l k v : NoDup (map fst l) -> In (k, v) l -> forall t, attrs (set_attrs p l t) p k = Some v.
Proof.
  induction l as [|a l IH]; intros N H t; [destruct H|]. cbn. inversion N as [|? ? N1 N2]; subst. destruct H as [-> | H].
  - unfold set_attrs in *. change (fold_left (set_attr p) l (set_attr p t (k, v))) with (set_attrs p l (set_attr p t (k, v))). rewrite set_attrs_notin by exact N1.
    cbn. rewrite path_refl, String.eqb_refl. reflexivity.
  - unfold set_attrs in IH. apply IH; assumption.
Qed.

(** ** Records *)
Definition rec_attrs (t : tree) (r : string) : Prop :=
  exists d mw wp, setup_openpmd_record r = Ok d /\ In (r, (mw, wp)) weighting_dict /\ attrs t (r, None) "unitDimension"%string = Some (AVec (map IZR d)) /\
  attrs t (r, None) "timeOffset"%string = Some (ANum 0) /\ attrs t (r, None) "macroWeighted"%string = Some (ANum mw) /\ attrs t (r, None) "weightingPower"%string = Some (ANum (IZR wp)).
Definition recs : list string := ["position"; "momentum"; "E"; "B"; "weighting"; "gamma"; "id"; "charge"; "mass"; "positionOffset"]%string.
Definition rec_keys : list string := ["unitDimension"; "timeOffset"; "macroWeighted"; "weightingPower"]%string.
Lemma species_record_ok r t : In r recs -> exists t', species_record (r, None) r t = Ok t' /\ nodes t' = nodes t /\ rec_attrs t' r /\
  (forall p k, p <> (r, None) \/ ~ In k rec_keys -> attrs t' p k = attrs t p k).
Proof.
  intros H.
  assert (K : exists d mw wp, setup_openpmd_record r = Ok d /\ find (fun a => String.eqb (fst a) r) weighting_dict = Some (r, (mw, wp)) /\ In (r, (mw, wp)) weighting_dict).
  { cbn in H. repeat destruct H as [<- | H]; try contradiction; do 3 eexists; (split; [reflexivity|]); (split; [reflexivity|]); unfold weighting_dict; cbn [In]; repeat (first [left; reflexivity | right]). }
  destruct K as (d & mw & wp & E1 & E2 & I). unfold species_record. rewrite E1, E2. cbn [bind].
  eexists. split; [reflexivity|]. split; [apply set_attrs_nodes|].
  assert (N : NoDup (map fst [("unitDimension", AVec (map IZR d)); ("timeOffset", ANum 0); ("macroWeighted", ANum mw); ("weightingPower", ANum (IZR wp))]%string)).
  { cbn. repeat constructor; cbn; intros X; repeat destruct X as [X | X]; try discriminate X; contradiction. }
  split.
  - exists d, mw, wp. split; [exact E1|]. split; [exact I|]. repeat split; (apply set_attrs_in; [exact N|cbn [In]; repeat (first [left; reflexivity | right])]).
  - intros p k [X | X]; [apply set_attrs_other; exact X|apply set_attrs_notin; exact X].
Qed.
Lemma rec_attrs_same t t' r : (forall k, attrs t' (r, None) k = attrs t (r, None) k) -> rec_attrs t r -> rec_attrs t' r.
Proof. intros H (d & mw & wp & A & B & C). exists d, mw, wp. rewrite !H. auto. Qed.

(** ** One dataset *)
Definition dset_ok (t : tree) (p : path) (l : list val) : Prop := nodes t p = Some (Dataset l) /\ attrs t p "unitSI"%string = Some (ANum 1).
Definition same (t t' : tree) (p : path) : Prop := nodes t' p = nodes t p /\ forall k, attrs t' p k = attrs t p k.
Lemma same_trans a b c p : same a b p -> same b c p -> same a c p.
Proof. intros [A B] [C D]. split; [congruence|]. intros k. rewrite D, B. reflexivity. Qed.
Lemma component_same p t p' : p' <> p -> same t (species_component p t) p'.
Proof. intros H. split; [unfold species_component; rewrite set_attrs_nodes; reflexivity|]. intros k. apply set_attrs_other. exact H. Qed.
Lemma get_dataset_row e c s comm junk (sel : pt * R -> bool) prs q req pth f : In (q, (req, pth, f)) (row e (momentum_unit (sp_m s) c)) -> available s q ->
  (comm = true \/ List.length prs = 1%nat) ->
  get_dataset e c s comm junk (map (map fst) prs) (map (map sel) prs) q = Ok (map (fun a => f (fst a)) (filter sel (List.concat prs))).
Proof.
  intros H A Cm.
  pose proof (write_dataset_row e c s comm junk sel prs {| dset := fun _ => None; constv := fun _ => None; dims := fun _ => None |} q req pth f H A Cm) as W.
  unfold Pdiag_Model.write_dataset in W. unfold get_dataset.
  destruct (foldM _ (combine (map (map sel) prs) (map (map fst) prs)) []) as [arrays|ex]; cbn [bind] in *; [|discriminate W].
  injection W as W. f_equal. pose proof (f_equal (fun h => h pth) W) as W'. unfold upd in W'. cbn in W'. rewrite String.eqb_refl in W'. injection W' as W'. exact W'.
Qed.
Lemma sel_count (sel : pt * R -> bool) prs : list_sum (map (fun b => List.length (filter (fun b : bool => b) b)) (map (map sel) prs)) = List.length (filter sel (List.concat prs)).
Proof. induction prs as [|l prs IH]; cbn; [reflexivity|]. rewrite filter_app, app_length, <- IH, count_true. reflexivity. Qed.
Lemma write_dataset_ok e c s comm junk (sel : pt * R -> bool) prs q req pth f t r x :
  In (q, (req, pth, f)) (row e (momentum_unit (sp_m s) c)) -> available s q -> (comm = true \/ List.length prs = 1%nat) ->
  (x <> None -> ~ is_dataset t (r, None)) ->
  exists t', write_dataset e c s comm junk (map (map fst) prs) (map (map sel) prs) t (r, x) q = Ok t' /\
    dset_ok t' (r, x) (map (fun a => f (fst a)) (filter sel (List.concat prs))) /\
    (forall p, fst p <> r -> same t t' p) /\ (x <> None -> nodes t' (r, None) = Some Group /\ forall p, p <> (r, x) -> p <> (r, None) -> same t t' p).
Proof.
  intros H A Cm U. unfold write_dataset. rewrite sel_count, (get_dataset_row e c s comm junk sel prs q req pth f H A Cm).
  set (t1 := match nodes t (r, x) with Some _ => del (r, x) t | None => t end).
  set (vs := map (fun a => f (fst a)) (filter sel (List.concat prs))).
  assert (N1 : nodes t1 (r, x) = None).
  { unfold t1. destruct (nodes t (r, x)) eqn:E; [|exact E]. cbn. unfold inside. rewrite path_refl. reflexivity. }
  assert (S1 : forall p, fst p <> r -> same t t1 p).
  { intros p P. unfold t1. destruct (nodes t (r, x)); [|split; reflexivity]. split; cbn; [|intros k]; rewrite (inside_other p (r, x)) by exact P; reflexivity. }
  assert (S1' : x <> None -> forall p, p <> (r, x) -> same t t1 p).
  { intros X p P. destruct x as [x|]; [|congruence]. unfold t1. destruct (nodes t (r, Some x)); [|split; reflexivity]. split; cbn; [|intros k]; rewrite inside_comp by exact P; reflexivity. }
  assert (L : exists t2, parents (r, x) t1 = Ok t2 /\ (forall p, fst p <> r -> same t t2 p) /\ (x <> None -> nodes t2 (r, None) = Some Group /\ forall p, p <> (r, x) -> p <> (r, None) -> same t t2 p)).
  { unfold parents. cbn [fst snd]. destruct x as [x|].
    - destruct (S1' ltac:(discriminate) (r, None) ltac:(discriminate)) as [Nr _]. destruct (nodes t1 (r, None)) as [[d|]|] eqn:E.
      + destruct (U ltac:(discriminate)). exists d. symmetry. exact Nr.
      + exists t1. split; [reflexivity|]. split; [exact S1|]. intros _. split; [exact E|]. intros p P _. apply S1'; [discriminate|exact P].
      + eexists. split; [reflexivity|]. split.
        * intros p P. apply (same_trans _ t1); [apply S1; exact P|]. split; cbn; [|intros k]; rewrite path_neq by (intros ->; apply P; reflexivity); reflexivity.
        * intros _. split; [cbn; rewrite path_refl; reflexivity|]. intros p P P'. apply (same_trans _ t1); [apply S1'; [discriminate|exact P]|]. split; cbn; [|intros k]; rewrite path_neq by exact P'; reflexivity.
    - exists t1. split; [reflexivity|]. split; [exact S1|]. congruence. }
  destruct L as (t2 & E2 & S2 & S2'). unfold create_dataset. rewrite N1, E2. cbn [bind]. unfold fill, species_component.
  rewrite set_attrs_nodes. cbn [link nodes]. rewrite path_refl. unfold vs. rewrite repeat_length, map_length, Nat.eqb_refl.
  eexists. split; [reflexivity|]. split; [|split].
  - split; cbn [nodes attrs]; [rewrite path_refl; reflexivity|]. apply set_attrs_in; [cbn; repeat constructor; intros []|left; reflexivity].
  - intros p P. apply (same_trans _ t2); [apply S2; exact P|]. assert (Q : p <> (r, x)) by (intros ->; apply P; reflexivity). split; cbn [nodes attrs].
    + rewrite path_neq by exact Q. rewrite ?set_attrs_nodes. cbn. rewrite ?path_neq by exact Q. reflexivity.
    + intros k. rewrite set_attrs_other by exact Q. cbn. rewrite ?path_neq by exact Q. reflexivity.
  - intros X. destruct (S2' X) as [G S3]. split.
    + cbn [nodes]. assert (Q : (r, None) <> (r, x)) by (intros Q; injection Q as <-; congruence). rewrite path_neq by exact Q. rewrite ?set_attrs_nodes. cbn. rewrite ?path_neq by exact Q. exact G.
    + intros p Q Q'. apply (same_trans _ t2); [apply S3; assumption|]. split; cbn [nodes attrs].
      * rewrite path_neq by exact Q. rewrite ?set_attrs_nodes. cbn. rewrite ?path_neq by exact Q. reflexivity.
      * intros k. rewrite set_attrs_other by exact Q. cbn. rewrite ?path_neq by exact Q. reflexivity.
Qed.

(** ** The loop over the quantities *)
Definition prow (e mc : R) : list (string * (string * option string * (pt -> val))) :=
  combine ["x"; "y"; "z"; "ux"; "uy"; "uz"; "Ex"; "Ey"; "Ez"; "Bx"; "By"; "Bz"; "w"; "gamma"; "id"; "charge"]%string (described e mc).
Lemma prow_row e mc q r x f : In (q, (r, x, f)) (prow e mc) -> exists pth, In (q, (r, pth, f)) (row e mc).
Proof.
  intros H. unfold prow, described in H. cbn [combine In] in H. unfold row, documented. cbn [combine In].
  repeat destruct H as [H | H]; try contradiction; injection H as <- <- <- <-; eexists; repeat (first [left; reflexivity | right]).
Qed.
Lemma row_prow e mc q r pth f : In (q, (r, pth, f)) (row e mc) -> exists x, In (q, (r, x, f)) (prow e mc).
Proof.
  intros H. unfold row, documented in H. cbn [combine In] in H. unfold prow, described. cbn [combine In].
  repeat destruct H as [H | H]; try contradiction; injection H as <- <- <- <-; eexists; repeat (first [left; reflexivity | right]).
Qed.
Lemma prow_described e mc r x f : In (r, x, f) (described e mc) -> exists q, In (q, (r, x, f)) (prow e mc).
Proof. intros H. unfold described in H. cbn [In] in H. unfold prow, described. cbn [combine In]. repeat destruct H as [H | H]; try contradiction; injection H as <- <- <-; eexists; repeat (first [left; reflexivity | right]). Qed.
Lemma prow_path e mc q r x f q' f' : In (q, (r, x, f)) (prow e mc) -> In (q', (r, x, f')) (prow e mc) -> q = q' /\ f = f'.
Proof.
  intros H K. unfold prow, described in *. cbn [combine In] in *.
  repeat destruct H as [H | H]; try contradiction; injection H as <- <- <- <-; repeat destruct K as [K | K]; try contradiction; try discriminate K; injection K as <- <-; split; reflexivity.
Qed.
Lemma prow_kind e mc q r x f q' x' f' : In (q, (r, x, f)) (prow e mc) -> In (q', (r, x', f')) (prow e mc) -> (x = None <-> x' = None).
Proof.
  intros H K. unfold prow, described in *. cbn [combine In] in *.
  repeat destruct H as [H | H]; try contradiction; injection H as <- <- <- <-; repeat destruct K as [K | K]; try contradiction; try discriminate K; injection K as <- <- <-; split; intros; try discriminate; reflexivity.
Qed.
Lemma prow_quantity e mc q r x f r' x' f' : In (q, (r, x, f)) (prow e mc) -> In (q, (r', x', f')) (prow e mc) -> r = r' /\ x = x' /\ f = f'.
Proof.
  intros H K. unfold prow, described in *. cbn [combine In] in *.
  repeat destruct H as [H | H]; try contradiction; injection H as <- <- <- <-; repeat destruct K as [K | K]; try contradiction; try discriminate K; injection K as <- <- <-; repeat split.
Qed.
Lemma prow_recs e mc q r x f : In (q, (r, x, f)) (prow e mc) -> In r recs /\ r <> "mass"%string /\ r <> "positionOffset"%string /\ (x <> None -> In r ["position"; "momentum"; "E"; "B"]%string).
Proof.
  intros H. unfold prow, described in H. cbn [combine In] in H.
  repeat destruct H as [H | H]; try contradiction; injection H as <- <- <- <-; (split; [cbn; tauto|]); (split; [discriminate|]); (split; [discriminate|]); intros X; try congruence; cbn; tauto.
Qed.

Section Loop.
Context (e c : R) (s : species) (comm : bool) (junk : val) (sel : pt * R -> bool) (prs : list (list (pt * R))).
Context (Cm : comm = true \/ List.length prs = 1%nat).
Notation wq := (write_quantity e c s comm junk (map (map fst) prs) (map (map sel) prs)).
Notation rows := (prow e (momentum_unit (sp_m s) c)).
Notation vals f := (map (fun a => f (fst a)) (filter sel (List.concat prs))).
(** the vector records are not datasets *)
Definition vectors (t : tree) : Prop := forall r, In r ["position"; "momentum"; "E"; "B"]%string -> ~ is_dataset t (r, None).
Definition touched (r : string) (x : option string) (p : path) : Prop := match x with None => fst p = r | Some _ => p = (r, x) \/ p = (r, None) end.
Lemma write_quantity_ok t q r x f : In (q, (r, x, f)) rows -> available s q -> vectors t ->
  exists t', wq t q = Ok t' /\ dset_ok t' (r, x) (vals f) /\ (x = None -> rec_attrs t' r) /\ (x <> None -> nodes t' (r, None) = Some Group) /\
    (forall p, ~ touched r x p -> same t t' p).
Proof.
  intros H A V. destruct (prow_row _ _ _ _ _ _ H) as [pth Hr]. destruct (prow_recs _ _ _ _ _ _ H) as (R1 & _ & _ & R2).
  destruct (write_dataset_ok e c s comm junk sel prs q r pth f t r x Hr A Cm (fun X => V r (R2 X))) as (t1 & E1 & D1 & O1 & X1).
  assert (T : forall p, ~ touched r x p -> same t t1 p).
  { intros p P. destruct x as [x|]; cbn in P; [|apply O1; exact P]. apply X1; [discriminate| |]; intros ->; apply P; tauto. }
  assert (K : wq t q = match x with Some _ => Ok t1 | None => species_record (r, None) r t1 end).
  { clear -H E1. unfold prow, described in H. cbn [combine In] in H. unfold write_quantity.
    repeat destruct H as [H | H]; try contradiction; injection H as <- <- <- <-; cbn -[write_dataset bind species_record] in *; rewrite E1; reflexivity. }
  rewrite K. destruct x as [x|].
  - exists t1. split; [reflexivity|]. split; [exact D1|]. split; [discriminate|]. split; [|exact T]. intros X. apply X1. exact X.
  - destruct (species_record_ok r t1 R1) as (t2 & -> & N2 & A2 & S2). exists t2. split; [reflexivity|]. split; [|split; [intros _; exact A2|split; [congruence|]]].
    + destruct D1 as [D1 D2]. split; [rewrite N2; exact D1|]. rewrite S2; [exact D2|]. right. cbn. intros X. repeat destruct X as [X | X]; try discriminate X; contradiction.
    + intros p P. destruct (T p P) as [T1 T2]. split; [rewrite N2; exact T1|]. intros k. rewrite S2; [apply T2|]. left. intros ->. apply P. reflexivity.
Qed.
Lemma vectors_kept t t' q r x f : In (q, (r, x, f)) rows -> (x <> None -> nodes t' (r, None) = Some Group) -> (forall p, ~ touched r x p -> same t t' p) -> vectors t -> vectors t'.
Proof.
  intros H G S V r' R' [d D]. destruct (string_dec r' r) as [-> | N].
  - destruct x as [x|]; [rewrite G in D by discriminate; discriminate D|].
    unfold prow, described in H. cbn [combine In] in H. cbn in R'. repeat destruct R' as [<- | R']; try contradiction; repeat destruct H as [H | H]; try contradiction; try discriminate H.
  - destruct (S (r', None)) as [E _]; [|apply (V r' R'); exists d; rewrite <- E; exact D]. destruct x; cbn; [|congruence]. intros [X | X]; congruence.
Qed.
Definition row_of (q : string) : Prop := exists r x f, In (q, (r, x, f)) rows.
Lemma untouched q r x f q' r' x' f' : In (q, (r, x, f)) rows -> In (q', (r', x', f')) rows -> q <> q' -> ~ touched r' x' (r, x).
Proof.
  intros H K N T. destruct x' as [x'|]; cbn in T.
  - destruct T as [T | T]; injection T as -> ->; [apply N, (prow_path _ _ _ _ _ _ _ _ H K)|]. pose proof (proj1 (prow_kind _ _ _ _ _ _ _ _ _ H K) eq_refl). discriminate.
  - subst r'. pose proof (proj2 (prow_kind _ _ _ _ _ _ _ _ _ H K) eq_refl). subst x. apply N, (prow_path _ _ _ _ _ _ _ _ H K).
Qed.
Lemma loop qs : forall t, Forall (fun q => row_of q /\ available s q) qs -> vectors t ->
  exists t', foldM wq qs t = Ok t' /\ vectors t' /\
    (forall q r x f, In q qs -> In (q, (r, x, f)) rows -> dset_ok t' (r, x) (vals f) /\ (x = None -> rec_attrs t' r)) /\
    (forall p, (forall q r x f, In q qs -> In (q, (r, x, f)) rows -> ~ touched r x p) -> same t t' p).
Proof.
  induction qs as [|q qs IH]; intros t F V; cbn [foldM].
  - exists t. split; [reflexivity|]. split; [exact V|]. split; [intros ? ? ? ? []|]. intros p _. split; reflexivity.
  - inversion F as [|? ? [(r & x & f & Hr) Av] F']; subst.
    destruct (write_quantity_ok t q r x f Hr Av V) as (t1 & -> & D1 & A1 & G1 & S1). cbn [bind].
    destruct (IH t1 F' (vectors_kept t t1 q r x f Hr G1 S1 V)) as (t2 & E2 & V2 & I2 & N2). exists t2. split; [exact E2|]. split; [exact V2|]. split.
    + intros q' r' x' f' Hq Hr'. destruct (in_dec string_dec q' qs) as [Y | Y]; [exact (I2 q' r' x' f' Y Hr')|].
      destruct Hq as [<- | Hq]; [|contradiction]. destruct (prow_quantity _ _ _ _ _ _ _ _ _ Hr Hr') as (<- & <- & <-).
      destruct (N2 (r, x)) as [Sn Sa].
      { intros q2 r2 x2 f2 I2' K. apply (untouched q r x f q2 r2 x2 f2 Hr K). intros ->. contradiction. }
      split; [destruct D1 as [D D']; split; [rewrite Sn; exact D|rewrite Sa; exact D']|]. intros ->. apply (rec_attrs_same t1); [exact Sa|apply A1; reflexivity].
    + intros p Hp. apply (same_trans _ t1); [apply S1; exact (Hp q r x f (or_introl eq_refl) Hr)|]. apply N2. intros q2 r2 x2 f2 I. apply Hp. right. exact I.
Qed.
End Loop.

(** ** The end of write_particles *)
Lemma final_records data (l : list (string * string)) : Forall (fun a => In (snd a) recs) l -> forall t, exists t',
  foldM (fun t '(q, r) => if isin q data then species_record (r, None) r t else Ok t) l t = Ok t' /\ nodes t' = nodes t /\
  (forall q r, In (q, r) l -> isin q data = true -> rec_attrs t' r) /\
  (forall p k, ~ In k rec_keys \/ (forall q r, In (q, r) l -> isin q data = true -> p <> (r, None)) -> attrs t' p k = attrs t p k) /\
  (forall r, rec_attrs t r -> rec_attrs t' r).
Proof.
  induction 1 as [|[q r] l H _ IH]; intros t; cbn [foldM].
  - exists t. split; [reflexivity|]. split; [reflexivity|]. split; [intros ? ? []|]. split; [reflexivity|]. tauto.
  - cbn [snd] in H. destruct (isin q data) eqn:E.
    + destruct (species_record_ok r t H) as (t1 & -> & N1 & A1 & S1). cbn [bind]. destruct (IH t1) as (t2 & E2 & N2 & A2 & S2 & K2).
      assert (K1 : forall r', rec_attrs t r' -> rec_attrs t1 r').
      { intros r' Q. destruct (string_dec r' r) as [-> | Nr]; [exact A1|]. apply (rec_attrs_same t); [|exact Q]. intros k. apply S1. left. intros X. injection X as X. contradiction. }
      exists t2. split; [exact E2|]. split; [congruence|]. split; [|split].
      * intros q' r' [X | X] Y; [injection X as <- <-; apply K2, A1|exact (A2 q' r' X Y)].
      * intros p k X. rewrite S2, S1; [reflexivity| |].
        -- destruct X as [X | X]; [right; exact X|left; exact (X q r (or_introl eq_refl) E)].
        -- destruct X as [X | X]; [left; exact X|right; intros q' r' Z; apply X; right; exact Z].
      * intros r' Q. apply K2, K1, Q.
    + cbn [bind]. destruct (IH t) as (t2 & E2 & N2 & A2 & S2 & K2). exists t2. split; [exact E2|]. split; [exact N2|]. split; [|split; [|exact K2]].
      * intros q' r' [X | X] Y; [injection X as <- <-; congruence|exact (A2 q' r' X Y)].
      * intros p k X. apply S2. destruct X as [X | X]; [left; exact X|right; intros q' r' Z; apply X; right; exact Z].
Qed.

(** ** The group of the species *)
Definition acts (p : path) (t t' : tree) : Prop := forall p', p' <> p -> same t t' p'.
Definition pconst (t : tree) (p : path) : Prop := nodes t p = Some Group /\ attrs t p "unitSI"%string = Some (ANum 1) /\ attrs t p "shape"%string = Some (AVec [1]).
Definition const_ok (t : tree) (p : path) (v : R) : Prop := pconst t p /\ attrs t p "value"%string = Some (ANum v).
Lemma set_acts p l t : acts p t (set_attrs p l t).
Proof. intros p' H. split; [rewrite set_attrs_nodes; reflexivity|]. intros k. apply set_attrs_other. exact H. Qed.
Lemma acts_trans p a b c : acts p a b -> acts p b c -> acts p a c.
Proof. intros H K p' P. apply (same_trans _ b); [apply H|apply K]; exact P. Qed.
Lemma require_ok p t : ~ is_dataset t p -> (snd p <> None -> nodes t (fst p, None) = Some Group) -> exists t', require_group p t = Ok t' /\ nodes t' p = Some Group /\ acts p t t'.
Proof.
  intros N P. unfold require_group. destruct (nodes t p) as [[d|]|] eqn:E.
  - destruct N. exists d. exact E.
  - exists t. split; [reflexivity|]. split; [exact E|]. intros p' _. split; reflexivity.
  - assert (K : parents p t = Ok t) by (unfold parents; destruct (snd p); [rewrite P by discriminate; reflexivity|reflexivity]).
    rewrite K. cbn [bind]. eexists. split; [reflexivity|]. split; [cbn; rewrite path_refl; reflexivity|].
    intros p' H. split; cbn; [|intros k]; rewrite path_neq by exact H; reflexivity.
Qed.
Definition const_step (t : tree) (quantity : string) : res tree :=
  bind (require_group (quantity, None) t) (fun t =>
    bind (species_record (quantity, None) quantity t) (fun t =>
    let t := species_component (quantity, None) t in
    Ok (set_attrs (quantity, None) [("shape", AVec [1])]%string t))).
Lemma const_step_ok q t : In q recs -> ~ is_dataset t (q, None) -> exists t', const_step t q = Ok t' /\ pconst t' (q, None) /\ rec_attrs t' q /\ acts (q, None) t t'.
Proof.
  intros H N. unfold const_step. destruct (require_ok (q, None) t N ltac:(cbn; congruence)) as (t1 & -> & G1 & A1). cbn [bind].
  destruct (species_record_ok q t1 H) as (t2 & -> & N2 & R2 & S2). cbn [bind]. eexists. split; [reflexivity|]. split; [|split].
  - split; [rewrite set_attrs_nodes; unfold species_component; rewrite set_attrs_nodes, N2; exact G1|]. split.
    + rewrite set_attrs_notin by (cbn; intros [X | []]; discriminate X). apply set_attrs_in; [cbn; repeat constructor; intros []|left; reflexivity].
    + apply set_attrs_in; [cbn; repeat constructor; intros []|left; reflexivity].
  - destruct R2 as (d & mw & wp & Ra & Rb & R2). exists d, mw, wp. split; [exact Ra|]. split; [exact Rb|]. unfold species_component.
    rewrite !set_attrs_notin by (cbn; intros [X | []]; discriminate X). exact R2.
  - apply (acts_trans _ _ t1 _ A1). apply (acts_trans _ _ t2); [|unfold species_component; apply (acts_trans _ _ (set_attrs (q, None) [("unitSI", ANum 1)]%string t2)); apply set_acts].
    intros p' P. split; [rewrite N2; reflexivity|]. intros k. apply S2. left. exact P.
Qed.
Definition off_step (t : tree) (x : string) : res tree :=
    bind (require_group ("positionOffset"%string, Some x) t) (fun t =>
    let t := species_component ("positionOffset"%string, Some x) t in
    Ok (set_attrs ("positionOffset"%string, Some x) [("shape", AVec [1])]%string t)).
Definition po : string := "positionOffset"%string.
Lemma off_step_ok x t : ~ is_dataset t (po, Some x) -> nodes t (po, None) = Some Group -> exists t', off_step t x = Ok t' /\ pconst t' (po, Some x) /\ acts (po, Some x) t t'.
Proof.
  intros N G. unfold off_step. destruct (require_ok (po, Some x) t N (fun _ => G)) as (t1 & E1 & G1 & A1). unfold po in *. rewrite E1. cbn [bind].
  eexists. split; [reflexivity|]. split.
  - split; [rewrite set_attrs_nodes; unfold species_component; rewrite set_attrs_nodes; exact G1|]. split.
    + rewrite set_attrs_notin by (cbn; intros [X | []]; discriminate X). apply set_attrs_in; [cbn; repeat constructor; intros []|left; reflexivity].
    + apply set_attrs_in; [cbn; repeat constructor; intros []|left; reflexivity].
  - apply (acts_trans _ _ t1 _ A1). unfold species_component. apply (acts_trans _ _ (set_attrs ("positionOffset"%string, Some x) [("unitSI", ANum 1)]%string t1)); apply set_acts.
Qed.
Lemma value_ok p v t : pconst t p -> const_ok (set_attrs p [("value", ANum v)]%string t) p v.
Proof.
  intros (A & B & D). split; [split; [rewrite set_attrs_nodes; exact A|split; rewrite set_attrs_notin by (cbn; intros [X | []]; discriminate X); assumption]|].
  apply set_attrs_in; [cbn; repeat constructor; intros []|left; reflexivity].
Qed.
Lemma value_rec p v t r : rec_attrs t r -> rec_attrs (set_attrs p [("value", ANum v)]%string t) r.
Proof. intros (d & mw & wp & A & B & D). exists d, mw, wp. rewrite !set_attrs_notin by (cbn; intros [X | []]; discriminate X). auto. Qed.
Lemma pconst_same t t' p : same t t' p -> pconst t p -> pconst t' p.
Proof. intros [A B] (D & E & F). split; [congruence|]. rewrite !B. auto. Qed.
Lemma const_same t t' p v : same t t' p -> const_ok t p v -> const_ok t' p v.
Proof. intros S [A B]. split; [apply (pconst_same t); assumption|]. destruct S as [_ S]. rewrite S. exact B. Qed.
Lemma rec_same t t' r : same t t' (r, None) -> rec_attrs t r -> rec_attrs t' r.
Proof. intros [_ S]. apply rec_attrs_same. exact S. Qed.
Lemma not_dataset t t' p : same t t' p -> ~ is_dataset t p -> ~ is_dataset t' p.
Proof. intros [S _] N [d D]. apply N. exists d. congruence. Qed.
(** The paths of the constant records *)
Definition const_path (s : species) (p : path) : Prop :=
  p = self \/ p = ("mass"%string, None) \/ (sp_ionizable s = false /\ p = ("charge"%string, None)) \/ p = (po, None) \/ exists x, In x ["x"; "y"; "z"]%string /\ p = (po, Some x).
Definition offsets (t : tree) : Prop := rec_attrs t po /\ (forall x, In x ["x"; "y"; "z"]%string -> const_ok t (po, Some x) 0) /\ nodes t (po, None) = Some Group.

(** the end of setup_openpmd_species_group *)
Lemma offsets_ok t : ~ is_dataset t (po, None) -> (forall x, ~ is_dataset t (po, Some x)) -> exists t',
  bind (require_group (po, None) t) (fun t => bind (species_record (po, None) po t) (fun t => bind (foldM off_step ["x"; "y"; "z"]%string t) (fun t =>
    Ok (fold_left (fun t x => set_attrs (po, Some x) [("value", ANum 0)]%string t) ["x"; "y"; "z"]%string t)))) = Ok t' /\ offsets t' /\
  (forall p, fst p <> po -> same t t' p) /\ (forall x, ~ In x ["x"; "y"; "z"]%string -> same t t' (po, Some x)).
Proof.
  intros N0 N. destruct (require_ok (po, None) t N0 ltac:(cbn; congruence)) as (t1 & -> & G1 & A1). cbn [bind].
  destruct (species_record_ok po t1 ltac:(cbn; tauto)) as (t2 & -> & N2 & R2 & S2). cbn [bind foldM].
  assert (A2 : acts (po, None) t1 t2) by (intros p P; split; [rewrite N2; reflexivity|intros k; apply S2; left; exact P]).
  assert (D2 : forall x, ~ is_dataset t2 (po, Some x)) by (intros x; apply (not_dataset t1); [apply A2; discriminate|apply (not_dataset t); [apply A1; discriminate|apply N]]).
  rewrite <- N2 in G1.
  destruct (off_step_ok "x" t2 (D2 _) G1) as (t3 & -> & P3 & A3). cbn [bind].
  assert (G3 : nodes t3 (po, None) = Some Group) by (rewrite (proj1 (A3 (po, None) ltac:(discriminate))); exact G1).
  destruct (off_step_ok "y" t3 (not_dataset t2 t3 _ (A3 (po, Some "y"%string) ltac:(discriminate)) (D2 _)) G3) as (t4 & -> & P4 & A4). cbn [bind].
  assert (G4 : nodes t4 (po, None) = Some Group) by (rewrite (proj1 (A4 (po, None) ltac:(discriminate))); exact G3).
  destruct (off_step_ok "z" t4 (not_dataset t3 t4 _ (A4 (po, Some "z"%string) ltac:(discriminate)) (not_dataset t2 t3 _ (A3 (po, Some "z"%string) ltac:(discriminate)) (D2 _))) G4) as (t5 & -> & P5 & A5). cbn [bind fold_left].
  assert (G5 : nodes t5 (po, None) = Some Group) by (rewrite (proj1 (A5 (po, None) ltac:(discriminate))); exact G4).
  set (u1 := set_attrs (po, Some "x"%string) _ t5). set (u2 := set_attrs (po, Some "y"%string) _ u1). set (u3 := set_attrs (po, Some "z"%string) _ u2).
  assert (U1 : acts (po, Some "x"%string) t5 u1) by apply set_acts. assert (U2 : acts (po, Some "y"%string) u1 u2) by apply set_acts. assert (U3 : acts (po, Some "z"%string) u2 u3) by apply set_acts.
  exists u3. split; [reflexivity|].
  assert (Oth : forall p, p <> (po, Some "x"%string) -> p <> (po, Some "y"%string) -> p <> (po, Some "z"%string) -> same t2 u3 p).
  { intros p X Y Z. apply (same_trans _ t3); [apply A3, X|]. apply (same_trans _ t4); [apply A4, Y|]. apply (same_trans _ t5); [apply A5, Z|].
    apply (same_trans _ u1); [apply U1, X|]. apply (same_trans _ u2); [apply U2, Y|]. apply U3, Z. }
  split; [|split].
  - split; [|split].
    + apply (rec_same t2); [apply Oth; discriminate|exact R2].
    + intros x [<- | [<- | [<- | []]]].
      * apply (const_same u1); [apply (same_trans _ u2); [apply U2|apply U3]; discriminate|]. apply value_ok. apply (pconst_same t3); [apply (same_trans _ t4); [apply A4|apply A5]; discriminate|exact P3].
      * apply (const_same u2); [apply U3; discriminate|]. apply value_ok. apply (pconst_same t4); [apply (same_trans _ t5); [apply A5|apply U1]; discriminate|exact P4].
      * apply value_ok. apply (pconst_same t5); [apply (same_trans _ u1); [apply U1|apply U2]; discriminate|exact P5].
    + rewrite (proj1 (Oth (po, None) ltac:(discriminate) ltac:(discriminate) ltac:(discriminate))). exact G1.
  - intros p P. assert (Q : forall y, p <> (po, y)) by (intros y ->; apply P; reflexivity).
    apply (same_trans _ t1); [apply A1, Q|]. apply (same_trans _ t2); [apply A2, Q|]. apply Oth; apply Q.
  - intros x X. apply (same_trans _ t1); [apply A1; discriminate|]. apply (same_trans _ t2); [apply A2; discriminate|]. apply Oth; intros E; injection E as ->; apply X; cbn; tauto.
Qed.
Definition group_ok (s s0 : species) (t : tree) : Prop :=
  const_ok t ("mass"%string, None) (sp_m s) /\ rec_attrs t "mass" /\ offsets t /\ attrs t self "particleShape"%string = Some (ANum 1) /\
  (sp_ionizable s0 = false -> const_ok t ("charge"%string, None) (sp_q s) /\ rec_attrs t "charge").
Lemma setup_group_ok sh s0 t : usable s0 (Some t) -> exists t', setup_openpmd_species_group sh (constant_quantities s0) t = Ok t' /\ group_ok (sh_species sh) s0 t' /\
  (forall p, ~ const_path s0 p -> same t t' p).
Proof.
  intros U. destruct (U t eq_refl) as (U1 & U2 & U3). unfold setup_openpmd_species_group.
  set (t0 := set_attrs self _ t). assert (A0 : acts self t t0) by apply set_acts.
  assert (P0 : attrs t0 self "particleShape"%string = Some (ANum 1)).
  { unfold t0. apply set_attrs_in; [|left; reflexivity]. cbn. repeat constructor; cbn; intros X; repeat destruct X as [X | X]; try discriminate X; contradiction. }
  clearbody t0. change (fun (t1 : tree) (quantity : string) => bind (require_group (quantity, None) t1) _) with const_step.
  assert (ND : forall p, p <> self -> ~ is_dataset t p -> ~ is_dataset t0 p) by (intros p P; apply not_dataset, A0, P).
  destruct (const_step_ok "mass" t0 ltac:(cbn; tauto) (ND ("mass"%string, None) ltac:(discriminate) (U1 "mass"%string ltac:(cbn; tauto)))) as (t1 & E1 & C1 & R1 & A1).
  set (v1 := fun t => set_attrs ("mass"%string, None) [("value", ANum (sp_m (sh_species sh)))]%string t).
  assert (L : exists t2, bind (foldM const_step (constant_quantities s0) t0) (fun t => Ok (let t := v1 t in if isin "charge" (constant_quantities s0) then set_attrs ("charge"%string, None) [("value", ANum (sp_q (sh_species sh)))]%string t else t)) = Ok t2 /\
    const_ok t2 ("mass"%string, None) (sp_m (sh_species sh)) /\ rec_attrs t2 "mass" /\
    (sp_ionizable s0 = false -> const_ok t2 ("charge"%string, None) (sp_q (sh_species sh)) /\ rec_attrs t2 "charge") /\
    (forall p, p <> ("mass"%string, None) -> (sp_ionizable s0 = false -> p <> ("charge"%string, None)) -> same t0 t2 p)).
  { unfold constant_quantities. destruct (sp_ionizable s0) eqn:I; cbn [app foldM]; rewrite E1; cbn [bind].
    - change (isin "charge" ["mass"%string]) with false. cbv iota. eexists. split; [reflexivity|]. split; [apply value_ok, C1|]. split; [apply value_rec, R1|]. split; [discriminate|].
      intros p P _. apply (same_trans _ t1); [apply A1, P|apply set_acts, P].
    - assert (Nc : ~ is_dataset t1 ("charge"%string, None)) by (apply (not_dataset t0); [apply A1; discriminate|apply ND; [discriminate|apply U3; reflexivity]]).
      destruct (const_step_ok "charge" t1 ltac:(cbn; tauto) Nc) as (t2 & -> & C2 & R2 & A2). cbn [bind].
      change (isin "charge" ["mass"; "charge"]%string) with true. cbv iota. eexists. split; [reflexivity|].
      assert (V1 : acts ("mass"%string, None) t2 (v1 t2)) by apply set_acts.
      split; [|split; [|split]].
      + apply (const_same (v1 t2)); [apply set_acts; discriminate|]. apply value_ok. apply (pconst_same t1); [apply A2; discriminate|exact C1].
      + apply value_rec, value_rec. apply (rec_same t1); [apply A2; discriminate|exact R1].
      + intros _. split; [apply value_ok; apply (pconst_same t2); [apply V1; discriminate|exact C2]|]. apply value_rec, value_rec, R2.
      + intros p P P'. apply (same_trans _ t1); [apply A1, P|]. apply (same_trans _ t2); [apply A2, P'; reflexivity|]. apply (same_trans _ (v1 t2)); [apply V1, P|]. apply set_acts, P'. reflexivity. }
  destruct L as (t2 & E2 & M2 & R2 & Q2 & S2). destruct (foldM const_step (constant_quantities s0) t0) as [tc|ex]; cbn [bind] in E2 |- *; [|discriminate E2].
  apply (f_equal (fun r => match r with Ok a => a | Err _ => t0 end)) in E2. cbv beta iota zeta in E2. cbv zeta. fold (v1 tc). rewrite E2. clear E2 tc E1 C1 R1 A1.
  assert (Nm : forall y, ~ is_dataset t (po, y) -> ~ is_dataset t2 (po, y)) by (intros y Y; apply (not_dataset t0); [apply S2; discriminate|apply ND; [discriminate|exact Y]]).
  destruct (offsets_ok t2 (Nm None (U1 po ltac:(cbn; tauto))) (fun x => Nm _ (U2 x))) as (t3 & E3 & O3 & S3 & S3').
  exists t3. split; [exact E3|]. split.
  - split; [apply (const_same t2); [apply S3; discriminate|exact M2]|]. split; [apply (rec_same t2); [apply S3; discriminate|exact R2]|]. split; [exact O3|]. split.
    + rewrite (proj2 (S3 self ltac:(discriminate))). rewrite (proj2 (S2 self ltac:(discriminate) ltac:(discriminate))). exact P0.
    + intros I. destruct (Q2 I) as [Qa Qb]. split; [apply (const_same t2); [apply S3; discriminate|exact Qa]|apply (rec_same t2); [apply S3; discriminate|exact Qb]].
  - intros p P. apply (same_trans _ t0); [apply A0; intros ->; apply P; left; reflexivity|]. apply (same_trans _ t2).
    + apply S2; [intros ->; apply P; unfold const_path; tauto|intros I ->; apply P; unfold const_path; tauto].
    + destruct (string_dec (fst p) po) as [F | F]; [|apply S3, F]. destruct p as [r [x|]]; cbn in F; subst r.
      * apply S3'. intros X. apply P. unfold const_path. do 4 right. exists x. split; [exact X|reflexivity].
      * destruct P. unfold const_path. tauto.
Qed.

(** ** The file *)
Definition start (old : option tree) : tree := match old with Some t => t | None => empty_tree end.
Lemma usable_start s old : usable s old -> usable s (Some (start old)).
Proof.
  intros U t E. injection E as <-. destruct old as [t|]; [apply U; reflexivity|].
  assert (N : forall p, ~ is_dataset empty_tree p) by (intros p [d D]; discriminate D). split; [|split]; intros; apply N.
Qed.
Definition written (data : list string) (s : species) (p : path) : Prop :=
  const_path s p \/ exists r x, (exists f, In (r, x, f) (described 0 0)) /\ asked data s r /\ touched r x p.
Lemma described_any e mc r x f : In (r, x, f) (described e mc) -> exists f', In (r, x, f') (described 0 0).
Proof. intros H. unfold described in *. cbn [In] in *. repeat destruct H as [H | H]; try contradiction; injection H as <- <- <-; eexists; repeat (first [left; reflexivity | right]). Qed.
Lemma file_ok e c sh data select fraction comm junk rands ranks old : let s := sh_species sh in
  Forall (fun r => In r can_ask) data -> rules_ok select -> Forall2 (fun r l => List.length r = List.length l) rands ranks ->
  comm = true \/ List.length ranks = 1%nat -> usable s old ->
  exists t l, write_hdf5 e c (particle_diagnostic data select fraction comm s) junk rands sh ranks old = Ok t /\ selected select fraction rands ranks l /\
    (forall r x f, In (r, x, f) (described e (momentum_unit (sp_m s) c)) -> asked data s r -> dset_ok t (r, x) (map f l) /\ rec_attrs t r) /\
    group_ok s s t /\ vectors t /\ (forall p, ~ written data s p -> same (start old) t p).
Proof.
  intros s F RU F2 Cm U. destruct (pairs_exist _ _ F2) as (prs & -> & ->). unfold write_hdf5, particle_diagnostic. cbn [pd_select pd_fraction pd_comm pd_array pd_const].
  fold (start old). pose proof (usable_start s old U) as Us.
  destruct (setup_group_ok sh s (start old) Us) as (t0 & -> & G0 & S0). cbn [bind]. fold s in G0.
  assert (RU' : Forall rule_ok (rules_of select)) by (apply Forall_forall; exact RU).
  destruct (selection_pairs select fraction RU') as (sel & Es & Ks).
  rewrite combine_map. rewrite (foldM_ext _ (fun acc a => bind ((fun '(r, l) => apply_selection select fraction r l) a) (fun b => Ok (acc ++ [b])))) by (intros s1 [r l]; reflexivity).
  rewrite (collect (fun a : list (pt * R) => (map snd a, map fst a)) _ (map sel)) by (intros pr _; apply Es). cbn [bind app].
  unfold write_particles. fold s.
  assert (Av : Forall (fun q => row_of e c s q /\ available s q) (array_quantities data s)).
  { eapply Forall_impl; [|apply (quantities_ok e (momentum_unit (sp_m s) c) data s F)]. intros q [(r & pth & f & H) A]. split; [|exact A]. destruct (row_prow _ _ _ _ _ _ H) as [x X]. exists r, x, f. exact X. }
  assert (As : forall q r x f, In (q, (r, x, f)) (prow e (momentum_unit (sp_m s) c)) -> (In q (array_quantities data s) <-> asked data s r)).
  { intros q r x f H. destruct (prow_row _ _ _ _ _ _ H) as [pth X]. exact (quantities_asked e _ data s q r pth f F X). }
  rewrite map_length in Cm.
  assert (V0 : vectors t0).
  { intros r R. apply (not_dataset (start old)).
    - apply S0. unfold const_path, self, po. cbn in R. intros [X | [X | [[_ X] | [X | (x & _ & X)]]]]; injection X as ->; repeat destruct R as [R | R]; try discriminate R; contradiction.
    - apply (Us _ eq_refl). cbn in R |- *. tauto. }
  destruct (loop e c s comm junk sel prs Cm (array_quantities data s) t0 Av V0) as (t1 & -> & V1 & I1 & N1). cbn [bind].
  destruct (final_records (array_quantities data s) [("x", "position"); ("ux", "momentum"); ("Ex", "E"); ("Bx", "B")]%string) with (t := t1) as (t2 & E2 & N2 & A2 & S2 & K2).
  { repeat constructor; cbn; tauto. }
  assert (No : forall q r x f p, In q (array_quantities data s) -> In (q, (r, x, f)) (prow e (momentum_unit (sp_m s) c)) -> const_path s p -> ~ touched r x p).
  { intros q r x f p Iq Hq Cp T. destruct (prow_recs _ _ _ _ _ _ Hq) as (_ & Nm & Np & _).
    assert (Fr : fst p = r) by (destruct x; cbn in T; [destruct T as [-> | ->]; reflexivity|exact T]).
    destruct Cp as [-> | [-> | [[Io ->] | [-> | (y & _ & ->)]]]]; cbn in Fr; subst r.
    - unfold prow, described in Hq. cbn [combine In] in Hq. repeat destruct Hq as [Hq | Hq]; try contradiction; discriminate Hq.
    - apply Nm. reflexivity.
    - apply (As _ _ _ _ Hq) in Iq. destruct Iq as [Iq | [[Iq _] | [_ Iq]]]; [|discriminate Iq|congruence].
      rewrite Forall_forall in F. apply F in Iq. cbn in Iq. repeat destruct Iq as [Iq | Iq]; try discriminate Iq; contradiction.
    - apply Np. reflexivity.
    - apply Np. reflexivity. }
  assert (C1 : forall p, const_path s p -> same t0 t1 p) by (intros p Cp; apply N1; intros q r x f Iq Hq; exact (No q r x f p Iq Hq Cp)).
  assert (C2 : forall p, (forall r, In r ["position"; "momentum"; "E"; "B"]%string -> p <> (r, None)) -> same t1 t2 p).
  { intros p P. split; [rewrite N2; reflexivity|]. intros k. apply S2. right. intros q r Iq _. apply P. cbn in Iq |- *. repeat destruct Iq as [Iq | Iq]; try contradiction; injection Iq as <- <-; tauto. }
  assert (C : forall p, const_path s p -> same t0 t2 p).
  { intros p Cp. apply (same_trans _ t1); [apply C1, Cp|]. apply C2. intros r R ->. destruct Cp as [X | [X | [[_ X] | [X | (y & _ & X)]]]]; injection X as ->; cbn in R; repeat destruct R as [R | R]; try discriminate R; contradiction. }
  exists t2, (map fst (filter sel (List.concat prs))). split; [exact E2|]. split; [|split; [|split; [|split]]].
  - exists sel. split; [intros p u; apply (Ks (p, u))|]. rewrite <- !concat_map, combine_pairs. reflexivity.
  - intros r x f H A. destruct (prow_described _ _ _ _ _ H) as [q Hq]. assert (Iq : In q (array_quantities data s)) by (apply (As _ _ _ _ Hq), A).
    destruct (I1 q r x f Iq Hq) as [[Va Vb] W]. split.
    + split; [rewrite N2, Va, map_map; reflexivity|]. rewrite S2; [exact Vb|]. left. cbn. intros X. repeat destruct X as [X | X]; try discriminate X; contradiction.
    + destruct x as [x|]; [|apply K2, W; reflexivity].
      assert (B : exists q0, In (q0, r) [("x", "position"); ("ux", "momentum"); ("Ex", "E"); ("Bx", "B")]%string /\ exists x0 f0, In (q0, (r, x0, f0)) (prow e (momentum_unit (sp_m s) c))).
      { clear -Hq. unfold prow, described in *. cbn [combine In] in *. repeat destruct Hq as [Hq | Hq]; try contradiction; try discriminate Hq; injection Hq as <- <- _ _; eexists; (split; [repeat (first [left; reflexivity | right])|]); do 2 eexists; repeat (first [left; reflexivity | right]). }
      destruct B as (q0 & B1 & x0 & f0 & B2). apply (A2 q0 r B1). unfold isin. apply existsb_exists. exists q0. split; [|apply String.eqb_refl]. apply (As _ _ _ _ B2), A.
  - destruct G0 as (Ga & Gb & (Gc & Gd & Ge) & Gf & Gg). assert (Cm' : const_path s ("mass"%string, None)) by (unfold const_path; tauto).
    assert (Cs : const_path s self) by (unfold const_path; tauto). assert (Cp : const_path s (po, None)) by (unfold const_path; tauto).
    split; [apply (const_same t0); [apply C, Cm'|exact Ga]|]. split; [apply (rec_same t0); [apply C, Cm'|exact Gb]|]. split; [|split].
    + split; [apply (rec_same t0); [apply C, Cp|exact Gc]|]. split; [|rewrite (proj1 (C _ Cp)); exact Ge].
      intros x X. apply (const_same t0); [|apply Gd, X]. apply C. unfold const_path. do 4 right. exists x. split; [exact X|reflexivity].
    + rewrite (proj2 (C _ Cs)). exact Gf.
    + intros Io. destruct (Gg Io) as [Gh Gi]. assert (Cc : const_path s ("charge"%string, None)) by (unfold const_path; tauto).
      split; [apply (const_same t0); [apply C, Cc|exact Gh]|apply (rec_same t0); [apply C, Cc|exact Gi]].
  - intros r R [d D]. rewrite N2 in D. apply (V1 r R). exists d. exact D.
  - intros p P. apply (same_trans _ t0); [apply S0; intros Cp; apply P; left; exact Cp|]. apply (same_trans _ t1).
    + apply N1. intros q r x f Iq Hq T. apply P. right. exists r, x. split; [|split; [apply (As _ _ _ _ Hq), Iq|exact T]].
      assert (Hd : In (r, x, f) (described e (momentum_unit (sp_m s) c))) by (apply in_combine_r in Hq; exact Hq). exact (described_any _ _ _ _ _ Hd).
    + split; [rewrite N2; reflexivity|]. intros k. apply S2. right. intros q r Iq Q ->. apply P. right.
      assert (B : exists x0 f0, In (q, (r, Some x0, f0)) (prow e (momentum_unit (sp_m s) c))).
      { clear -Iq. unfold prow, described. cbn [combine In] in *. repeat destruct Iq as [Iq | Iq]; try contradiction; injection Iq as <- <-; do 2 eexists; repeat (first [left; reflexivity | right]). }
      destruct B as (x0 & f0 & B). exists r, (Some x0). split; [|split].
      * assert (Hd : In (r, Some x0, f0) (described e (momentum_unit (sp_m s) c))) by (apply in_combine_r in B; exact B). exact (described_any _ _ _ _ _ Hd).
      * apply (As _ _ _ _ B). unfold isin in Q. apply existsb_exists in Q. destruct Q as (q' & Q1 & Q2). apply String.eqb_eq in Q2. subst q'. exact Q1.
      * right. reflexivity.
Qed.

(** ** What a reader finds *)
Lemma reads_dset t p l : dset_ok t p l -> reads t p (map num l).
Proof. intros [A B]. exists 1. split; [exact B|]. left. exists l. split; [exact A|]. apply map_ext. intros v. lra. Qed.
Lemma reads_const t p v : const_ok t p v -> reads t p [v].
Proof.
  intros [(A & B & D) E]. exists 1. split; [exact B|]. right. exists v, 1%nat. split; [exact A|]. split; [exact E|]. split; [rewrite D; cbn; reflexivity|]. cbn. f_equal. lra.
Qed.
Lemma reads_length t p l : const_ok t p (match attrs t p "value"%string with Some (ANum v) => v | _ => 0 end) -> reads t p l -> List.length l = 1%nat.
Proof.
  intros [(A & B & D) _] (u & _ & [(d & X & _) | (v & n & _ & _ & X & ->)]); [congruence|]. rewrite repeat_length. rewrite D in X. injection X as X.
  apply INR_eq. cbn. lra.
Qed.
Lemma reads_dset_length t p d l : dset_ok t p d -> reads t p l -> List.length l = List.length d.
Proof. intros [A _] (u & _ & [(d' & X & ->) | (v & n & X & _)]); [|congruence]. rewrite A in X. injection X as <-. apply map_length. Qed.
Lemma rec_dimension t r : rec_attrs t r -> In r dim_names -> r <> "mass"%string -> exists d, In (r, d) dimension_of /\ has_dimension t r d.
Proof. intros (d & _ & _ & E & _ & A & _) I N. exists d. split; [apply dimension_right; assumption|exact A]. Qed.
Lemma rec_time t r : rec_attrs t r -> at_time_of_file t r.
Proof. intros (d & mw & wp & _ & _ & _ & A & _). exact A. Qed.
Lemma rec_macro t r w x : rec_attrs t r -> of_macroparticle t r w x (macro_value r w x).
Proof.
  intros (d & mw & wp & _ & I & _ & _ & A & B). exists mw, wp. split; [exact A|]. split; [exact B|]. clear -I. unfold weighting_dict in I. cbn [In] in I.
  repeat destruct I as [I | I]; try contradiction; injection I as <- <- <-.
  all: lazymatch goal with |- context [macro_value ?a ?b ?d] => let v := eval cbv in (extensive a) in change (macro_value a b d) with (if v then b * d else d) end; cbv iota.
  3: right; split; reflexivity.
  all: left; split; [reflexivity|]; first [rewrite powerRZ_1 | rewrite powerRZ_O]; ring.
Qed.
