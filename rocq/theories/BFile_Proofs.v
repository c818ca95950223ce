From Coq Require Import Reals String Lra Lia ZArith Permutation.
From Verif Require Import Base Pdiag_Model Pdiag_Proofs BFile_Model BFile_Spec.
Import ListNotations.
Open Scope R_scope.
Open Scope list_scope.

(** *** Columns *)
Definition cols (f : string -> lab -> val) (ks : list string) (l : list lab) : dict := map (fun q => (q, map (f q) l)) ks.
Definition rawv (q : string) (p : lab) : val :=
  if String.eqb q "x" then VF (l_x p) else if String.eqb q "y" then VF (l_y p) else if String.eqb q "z" then VF (l_z p)
  else if String.eqb q "ux" then VF (l_ux p) else if String.eqb q "uy" then VF (l_uy p) else if String.eqb q "uz" then VF (l_uz p)
  else if String.eqb q "w" then VF (l_w p) else if String.eqb q "charge" then VU (l_level p) else VU (l_id p).
Definition keysof (s : species) : list string :=
  ["x"; "y"; "z"; "ux"; "uy"; "uz"; "w"]%string ++ (if sp_ionizable s then ["charge"%string] else []) ++ (if sp_tracked s then ["id"%string] else []).
Lemma slice_cols s l : slice_dict s l = cols rawv (keysof s) l.
Proof. unfold slice_dict, cols, keysof. destruct (sp_ionizable s), (sp_tracked s); reflexivity. Qed.
Lemma has_keys s q : has s q <-> In q (keysof s).
Proof.
  unfold has, keysof. split.
  - intros [H|[[-> H]|[-> H]]]; apply in_or_app; [left; exact H|right; rewrite H; left; reflexivity|right; rewrite H].
    destruct (sp_ionizable s); simpl; auto.
  - intros H. apply in_app_or in H. destruct H as [H|H]; [left; exact H|right].
    destruct (sp_ionizable s), (sp_tracked s); simpl in H; intuition.
Qed.
Lemma cols_get f ks l q : In q ks -> dget (cols f ks l) q = Ok (map (f q) l).
Proof.
  unfold dget, cols. induction ks as [|k ks IH]; simpl; intros H; [contradiction|].
  destruct (String.eqb_spec k q) as [->|N]; [reflexivity|]. apply IH. destruct H; [contradiction|auto].
Qed.
Lemma cols_no f ks l q : ~ In q ks -> dget (cols f ks l) q = Err KeyError.
Proof.
  unfold dget, cols. induction ks as [|k ks IH]; simpl; intros H; [reflexivity|].
  destruct (String.eqb_spec k q) as [->|N]; [exfalso; auto|]. apply IH. auto.
Qed.
Lemma num_rawv q p : num (rawv q p) = raw q p.
Proof. unfold rawv, raw. repeat (destruct (String.eqb q _); [reflexivity|]). reflexivity. Qed.

(** *** The selection *)
Definition test1 (r : rule) (p : lab) : bool :=
  let '(q, (lo, hi)) := r in
  match lo with Some b => gt (raw q p) b | None => true end && match hi with Some b => lt (raw q p) b | None => true end.
Definition test (select : option (list rule)) (p : lab) : bool :=
  match select with Some rules => forallb (fun r => test1 r p) rules | None => true end.
Lemma gt_iff a b : gt a b = true <-> b < a. Proof. unfold gt. destruct (Rlt_dec b a); split; auto; discriminate. Qed.
Lemma lt_iff a b : lt a b = true <-> a < b. Proof. unfold lt. destruct (Rlt_dec a b); split; auto; discriminate. Qed.
Lemma test_chosen select p : test select p = true <-> chosen select p.
Proof.
  destruct select as [rules|]; simpl; [|tauto]. unfold keeps. rewrite forallb_forall. split.
  - intros H q lo hi Hr. specialize (H _ Hr). simpl in H. apply andb_true_iff in H. destruct H as [H1 H2].
    split; intros b ->; [apply gt_iff|apply lt_iff]; auto.
  - intros H [q [lo hi]] Hr. specialize (H q lo hi Hr). destruct H as [H1 H2]. simpl. apply andb_true_iff. split.
    + destruct lo; [apply gt_iff; auto|auto].
    + destruct hi; [apply lt_iff; auto|auto].
Qed.
Lemma land_map {A} (g h : A -> bool) l : logical_and (map g l) (map h l) = map (fun a => g a && h a) l.
Proof. unfold logical_and. induction l as [|a l IH]; simpl; [reflexivity|]. rewrite IH. reflexivity. Qed.
Lemma map_num q l : forall (P : R -> bool), map (fun v => P (num v)) (map (rawv q) l) = map (fun p => P (raw q p)) l.
Proof. intros P. rewrite map_map. apply map_ext. intros p. rewrite num_rawv. reflexivity. Qed.
Lemma rule_map ks l g r : In (fst r) ks -> BFile_Model.apply_rule (cols rawv ks l) (map g l) r = Ok (map (fun p => g p && test1 r p) l).
Proof.
  destruct r as [q [lo hi]]. simpl. intros H. rewrite (cols_get rawv ks l q H).
  destruct lo as [b|], hi as [b'|]; simpl.
  - rewrite (map_num q l (fun x => gt x b)), (map_num q l (fun x => lt x b')), !land_map. f_equal. apply map_ext. intros. rewrite andb_assoc. reflexivity.
  - rewrite (map_num q l (fun x => gt x b)), !land_map. f_equal. apply map_ext. intros. rewrite andb_true_r. reflexivity.
  - rewrite (map_num q l (fun x => lt x b')), !land_map. reflexivity.
  - f_equal. apply map_ext. intros. rewrite andb_true_r. reflexivity.
Qed.
Lemma rules_map ks l : forall rules g, (forall r, In r rules -> In (fst r) ks) ->
  foldM (BFile_Model.apply_rule (cols rawv ks l)) rules (map g l) = Ok (map (fun p => g p && forallb (fun r => test1 r p) rules) l).
Proof.
  induction rules as [|r rules IH]; intros g H; simpl.
  - f_equal. apply map_ext. intros. rewrite andb_true_r. reflexivity.
  - rewrite rule_map by (apply H; left; auto). simpl. rewrite IH by (intros; apply H; right; auto).
    f_equal. apply map_ext. intros. rewrite andb_assoc. reflexivity.
Qed.
Lemma mask_map {A B} (g : A -> bool) (h : A -> B) l : mask (map g l) (map h l) = map h (filter g l).
Proof. unfold mask. induction l as [|a l IH]; simpl; [reflexivity|]. destruct (g a); simpl; rewrite IH; reflexivity. Qed.
Lemma select_cols ks l rules : In "w"%string ks -> (forall r, In r rules -> In (fst r) ks) ->
  BFile_Model.apply_selection rules (cols rawv ks l) = Ok (cols rawv ks (filter (test (Some rules)) l)).
Proof.
  intros W H. unfold BFile_Model.apply_selection. rewrite (cols_get _ _ _ _ W). simpl. rewrite map_map.
  rewrite (rules_map ks l rules (fun _ => true) H). simpl. f_equal. unfold cols. rewrite map_map. apply map_ext.
  intros q. rewrite mask_map. reflexivity.
Qed.

Section S.
Context (e c : R) (junk : val).
Lemma si_rawv s q p : In q (keysof s) ->
  si e c s q p = (if isin q ["ux"; "uy"; "uz"]%string then (if Rlt_dec 0 (sp_m s) then VF (num (rawv q p) * (sp_m s * c)) else rawv q p)
    else if String.eqb q "charge" then VF (num (rawv q p) * e) else rawv q p).
Proof.
  intros H. assert (K : In q ["x"; "y"; "z"; "ux"; "uy"; "uz"; "w"; "charge"; "id"]%string).
  { unfold keysof in H. destruct (sp_ionizable s), (sp_tracked s); simpl in *; tauto. }
  simpl in K. destruct K as [<-|[<-|[<-|[<-|[<-|[<-|[<-|[<-|[<-|[]]]]]]]]]]; unfold si, rawv; simpl; destruct (Rlt_dec 0 (sp_m s)); reflexivity.
Qed.
Lemma opmd_cols s l : apply_opmd_standard e c s (cols rawv (keysof s) l) = cols (si e c s) (keysof s) l.
Proof.
  unfold apply_opmd_standard, cols. rewrite map_map. apply map_ext_in. intros q Hq.
  assert (E : map (si e c s q) l = map (fun p => if isin q ["ux"; "uy"; "uz"]%string then (if Rlt_dec 0 (sp_m s) then VF (num (rawv q p) * (sp_m s * c)) else rawv q p)
    else if String.eqb q "charge" then VF (num (rawv q p) * e) else rawv q p) l) by (apply map_ext; intros; apply si_rawv; auto).
  rewrite E. destruct (isin q _); [destruct (Rlt_dec 0 (sp_m s)); [rewrite map_map; reflexivity|reflexivity]|].
  destruct (String.eqb q "charge"); [rewrite map_map; reflexivity|reflexivity].
Qed.
Lemma extract_cols select s l : (forall rules r, select = Some rules -> In r rules -> has s (fst r)) ->
  extract_slice e c select s l = Ok (cols (si e c s) (keysof s) (filter (test select) l)).
Proof.
  intros H. unfold extract_slice. rewrite slice_cols. destruct select as [rules|].
  - rewrite select_cols; [|unfold keysof; simpl; tauto|intros r Hr; apply has_keys; eapply H; eauto]. cbn [bind]. rewrite opmd_cols. reflexivity.
  - cbn [bind]. rewrite opmd_cols. f_equal. f_equal. clear. induction l; simpl; congruence.
Qed.

(** *** Flush *)
Lemma foldM_snoc {A B} (f : A -> res B) (g : A -> B) l : (forall a, In a l -> f a = Ok (g a)) -> forall acc,
  foldM (fun acc a => bind (f a) (fun b => Ok (acc ++ [b]))) l acc = Ok (acc ++ map g l).
Proof.
  induction l as [|a l IH]; intros H acc; simpl; [rewrite app_nil_r; reflexivity|]. rewrite (H a) by (left; auto). simpl.
  rewrite IH by (intros; apply H; right; auto). rewrite <- app_assoc. reflexivity.
Qed.
Lemma foldM_snoc2 {A B C} (f : A -> res B) (u : A -> B -> C) (g : A -> B) l : (forall a, In a l -> f a = Ok (g a)) -> forall acc,
  foldM (fun acc a => bind (f a) (fun b => Ok (acc ++ [u a b]))) l acc = Ok (acc ++ map (fun a => u a (g a)) l).
Proof.
  induction l as [|a l IH]; intros H acc; simpl; [rewrite app_nil_r; reflexivity|]. rewrite (H a) by (left; auto). simpl.
  rewrite IH by (intros; apply H; right; auto). rewrite <- app_assoc. reflexivity.
Qed.
Lemma compact_cols s qs ls : (forall q, In q qs -> In q (keysof s)) ->
  compact_slices (map (cols (si e c s) (keysof s)) ls) qs = Ok (cols (si e c s) qs (List.concat ls)).
Proof.
  intros H. unfold compact_slices. destruct ls as [|l0 ls]; [reflexivity|]. cbn [map].
  assert (G : forall q, In q qs -> forall ls acc,
    foldM (fun a d => bind (dget d q) (fun b => Ok (a ++ b))) (map (cols (si e c s) (keysof s)) ls) acc = Ok (acc ++ map (si e c s q) (List.concat ls))).
  { intros q Hq. induction ls0 as [|l ls0 IH]; intros acc; cbn [map foldM List.concat]; [rewrite app_nil_r; reflexivity|].
    rewrite (cols_get _ _ _ _ (H q Hq)). cbn [bind]. rewrite IH. rewrite map_app, <- app_assoc. reflexivity. }
  rewrite (foldM_snoc2 (fun q => foldM (fun a d => bind (dget d q) (fun b => Ok (a ++ b))) (cols (si e c s) (keysof s) l0 :: map (cols (si e c s) (keysof s)) ls) [])
    (fun q a => (q, a)) (fun q => map (si e c s q) (List.concat (l0 :: ls)))).
  - reflexivity.
  - intros q Hq. exact (G q Hq (l0 :: ls) []).
Qed.
Lemma gather_cols s qs ls : qs <> [] -> gather_particle_arrays junk (map (cols (si e c s) qs) ls) qs = Ok (cols (si e c s) qs (List.concat ls)).
Proof.
  intros NE. unfold gather_particle_arrays. destruct qs as [|q0 qs']; [contradiction|]. set (qs := q0 :: qs') in *.
  assert (G : forall q, In q qs -> forall d, In d (map (cols (si e c s) qs) ls) -> dget d q = Ok (match dget d q with Ok a => a | Err _ => [] end)).
  { intros q Hq d Hd. apply in_map_iff in Hd. destruct Hd as [l [<- _]]. rewrite (cols_get _ _ _ _ Hq). reflexivity. }
  rewrite (foldM_snoc2 (fun d => dget d q0) (fun _ a => List.length a) (fun d => match dget d q0 with Ok a => a | Err _ => [] end)) by (apply G; left; auto).
  cbn [bind app].
  assert (N : map (fun a => List.length (match dget a q0 with Ok a => a | Err _ => [] end)) (map (cols (si e c s) qs) ls) = map (@List.length lab) ls).
  { rewrite map_map. apply map_ext. intros l. rewrite (cols_get (si e c s) qs l q0) by (left; reflexivity). apply map_length. }
  rewrite N.
  rewrite (foldM_snoc2 (fun q => foldM (fun arrays d => bind (dget d q) (fun a => Ok (arrays ++ [a]))) (map (cols (si e c s) qs) ls) [])
    (fun q arrays => (q, gather_ptcl_array (map (@List.length lab) ls) (repeat junk (list_sum (map (@List.length lab) ls))) arrays))
    (fun q => map (map (si e c s q)) ls)).
  - rewrite app_nil_l. f_equal. unfold cols. apply map_ext. intros q. f_equal.
    assert (L : map (@List.length lab) ls = map (@List.length val) (map (map (si e c s q)) ls)).
    { rewrite map_map. apply map_ext. intros. rewrite map_length. reflexivity. }
    rewrite L. rewrite gather_concat by (rewrite repeat_length; reflexivity). rewrite concat_map. reflexivity.
  - intros q Hq. rewrite (foldM_snoc (fun d => dget d q) (fun d => match dget d q with Ok a => a | Err _ => [] end)) by (apply G; auto).
    simpl. f_equal. rewrite map_map. apply map_ext. intros l. rewrite (cols_get _ _ _ _ Hq). reflexivity.
Qed.

Lemma path_some s q : In q (keysof s) -> exists path, path_of q = Some path.
Proof.
  intros H. assert (K : In q ["x"; "y"; "z"; "ux"; "uy"; "uz"; "w"; "charge"; "id"]%string).
  { unfold keysof in H. destruct (sp_ionizable s), (sp_tracked s); simpl in *; tauto. }
  simpl in K. destruct K as [<-|[<-|[<-|[<-|[<-|[<-|[<-|[<-|[<-|[]]]]]]]]]]; eexists; reflexivity.
Qed.
Lemma keysof_all s q : In q (keysof s) -> In q ["x"; "y"; "z"; "ux"; "uy"; "uz"; "w"; "charge"; "id"]%string.
Proof. unfold keysof. destruct (sp_ionizable s), (sp_tracked s); simpl; tauto. Qed.
Lemma path_inj s q q' : In q (keysof s) -> In q' (keysof s) -> path_of q = path_of q' -> q = q'.
Proof.
  intros H H'. apply keysof_all in H. apply keysof_all in H'. simpl in H, H'.
  destruct H as [<-|[<-|[<-|[<-|[<-|[<-|[<-|[<-|[<-|[]]]]]]]]]];
  destruct H' as [<-|[<-|[<-|[<-|[<-|[<-|[<-|[<-|[<-|[]]]]]]]]]]; cbn; intros E; try reflexivity; discriminate E.
Qed.
(** The datasets of the quantities [qs] hold the particles [P]. *)
Definition holds (s : species) (qs : list string) (f : dsets) (P : list lab) : Prop :=
  forall q path, In q qs -> path_of q = Some path -> f path = Some (map (si e c s q) P).
Lemma upd_same {A} (f : string -> option A) p a : upd f p a p = Some a.
Proof. unfold upd. rewrite String.eqb_refl. reflexivity. Qed.
Lemma upd_other {A} (f : string -> option A) p a p' : p' <> p -> upd f p a p' = f p'.
Proof. unfold upd. intros H. destruct (String.eqb_spec p' p); [contradiction|reflexivity]. Qed.
Lemma write_cols s all l P : (forall q, In q all -> In q (keysof s)) -> forall qs f, NoDup qs -> (forall q, In q qs -> In q all) ->
  holds s qs f P -> exists f', foldM (fun f q => match path_of q with
                    | Some path => bind (dget (cols (si e c s) all l) q) (write_particle_slices f path)
                    | None => Ok f end) qs f = Ok f' /\ holds s qs f' (P ++ l) /\
     (forall path, (forall q, In q qs -> path_of q <> Some path) -> f' path = f path).
Proof.
  intros K. induction qs as [|q qs IH]; intros f ND Sub Hf.
  - exists f. split; [reflexivity|]. split; [intros q path []|auto].
  - inversion ND as [|? ? Nin ND']; subst. simpl. assert (Kq : In q (keysof s)) by (apply K, Sub; left; auto).
    destruct (path_some s q Kq) as [path Ep]. rewrite Ep. rewrite (cols_get _ _ _ _ (Sub q (or_introl eq_refl))). cbn [bind].
    assert (W : write_particle_slices f path (map (si e c s q) l) = Ok (upd f path (map (si e c s q) P ++ map (si e c s q) l)))
      by (unfold write_particle_slices; rewrite (Hf q path (or_introl eq_refl) Ep); reflexivity).
    rewrite W. cbn [bind].
    destruct (IH (upd f path (map (si e c s q) P ++ map (si e c s q) l)) ND') as [f' [E [H1 H2]]].
    + intros; apply Sub; right; auto.
    + intros q' path' Hq' Ep'. rewrite upd_other; [apply Hf; [right; auto|auto]|]. intros ->. apply Nin.
      rewrite (path_inj s q q'); auto; [apply K, Sub; right; auto|congruence].
    + exists f'. rewrite E. split; [reflexivity|]. split.
      * intros q' path' [<-|Hq'] Ep'; [|apply H1; auto]. assert (path' = path) by congruence. subst path'.
        rewrite H2; [rewrite upd_same, map_app; reflexivity|]. intros q' Hq' Ep2. apply Nin. rewrite (path_inj s q q'); auto; [apply K, Sub; right; auto|congruence].
      * intros path' Hp. rewrite H2 by (intros; apply Hp; right; auto). apply upd_other. intros ->. apply (Hp q); [left; auto|auto].
Qed.
Definition enc (s : species) (B : list (list (list lab))) : list (list dict) := map (map (cols (si e c s) (keysof s))) B.
Lemma flush_ok s qs f P B : qs <> [] -> NoDup qs -> (forall q, In q qs -> In q (keysof s)) -> (1 <= List.length B)%nat -> holds s qs f P ->
  exists f', flush_key junk qs {| k_buf := enc s B; k_file := f |} = Ok {| k_buf := enc s (map (fun _ => []) B); k_file := f' |} /\
    holds s qs f' (P ++ List.concat (map (@List.concat lab) B)).
Proof.
  intros NE ND K L Hf. unfold flush_key. cbn [k_buf k_file].
  assert (E1 : foldM (fun acc slices => bind (compact_slices slices qs) (fun d => Ok (acc ++ [d]))) (enc s B) []
    = Ok (map (cols (si e c s) qs) (map (@List.concat lab) B))).
  { unfold enc. assert (forall acc, foldM (fun acc slices => bind (compact_slices slices qs) (fun d => Ok (acc ++ [d]))) (map (map (cols (si e c s) (keysof s))) B) acc = Ok (acc ++ map (cols (si e c s) qs) (map (@List.concat lab) B))) as G.
    { clear L. induction B as [|b B IH]; intros acc; simpl; [rewrite app_nil_r; reflexivity|]. rewrite (compact_cols s qs b K). simpl. rewrite IH, <- app_assoc. reflexivity. }
    exact (G []). }
  rewrite E1. cbn [bind].
  assert (E2 : (if (1 <? List.length (map (cols (si e c s) qs) (map (@List.concat lab) B)))%nat then gather_particle_arrays junk (map (cols (si e c s) qs) (map (@List.concat lab) B)) qs
        else match map (cols (si e c s) qs) (map (@List.concat lab) B) with d :: _ => Ok d | [] => Err RuntimeError end)
     = Ok (cols (si e c s) qs (List.concat (map (@List.concat lab) B)))).
  { destruct (1 <? _)%nat eqn:T; [apply gather_cols; auto|]. rewrite !map_length in T. apply Nat.ltb_ge in T.
    destruct B as [|b [|b' B]]; simpl in *; [lia| |lia]. rewrite app_nil_r. reflexivity. }
  rewrite E2. cbn [bind]. destruct (write_cols s qs (List.concat (map (@List.concat lab) B)) P K qs f ND (fun q H => H) Hf) as [f' [E [H1 _]]].
  exists f'. unfold write_slices. rewrite E. simpl. split; [|exact H1]. f_equal. f_equal. unfold enc. rewrite !map_map. reflexivity.
Qed.
Lemma store_ok select s : (forall rules r, select = Some rules -> In r rules -> has s (fst r)) -> forall caught B, List.length caught = List.length B ->
  exists B', store_key e c select s caught (enc s B) = Ok (enc s B') /\ List.length B' = List.length B /\
    Permutation (List.concat (map (@List.concat lab) B'))
      (List.concat (map (@List.concat lab) B) ++ filter (test select) (flat_map (fun o => match o with Some l => l | None => [] end) caught)).
Proof.
  intros H. induction caught as [|o caught IH]; intros [|b B] L; simpl in L; try discriminate L.
  - exists []. split; [reflexivity|]. split; [reflexivity|]. simpl. apply Permutation_refl.
  - destruct (IH B) as [B' [E [L' Pm]]]; [lia|]. cbn [enc map store_key]. fold (enc s B). destruct o as [l|].
    + rewrite extract_cols by auto. cbn [bind]. rewrite E. cbn [bind]. exists ((b ++ [filter (test select) l]) :: B').
      split; [unfold enc; simpl; rewrite map_app; reflexivity|]. split; [simpl; lia|]. simpl. rewrite concat_app. simpl. rewrite app_nil_r.
      rewrite filter_app. rewrite <- !app_assoc. apply Permutation_app_head. rewrite Pm. rewrite !app_assoc. apply Permutation_app_tail. apply Permutation_app_comm.
    + cbn [bind]. rewrite E. cbn [bind]. exists (b :: B'). split; [reflexivity|]. split; [simpl; lia|]. simpl. rewrite <- app_assoc. apply Permutation_app_head. exact Pm.
Qed.

(** *** Loops over the snapshots and the species *)
Lemma key_eqb_spec a b : Bool.reflect (a = b) (key_eqb a b).
Proof.
  destruct a as [i n], b as [j m]. unfold key_eqb; simpl. destruct (Nat.eqb_spec i j), (String.eqb_spec n m); simpl; constructor; congruence.
Qed.
Lemma loop_ok (f : key -> kstate -> res kstate) (Q : key -> kstate -> Prop) : forall ks g, NoDup ks ->
  (forall k, In k ks -> exists s, f k (g k) = Ok s /\ Q k s) ->
  exists g', loop f ks g = Ok g' /\ (forall k, In k ks -> Q k (g' k)).
Proof.
  assert (G : forall ks g, NoDup ks -> (forall k, In k ks -> exists s, f k (g k) = Ok s /\ Q k s) ->
    exists g', loop f ks g = Ok g' /\ (forall k, In k ks -> Q k (g' k)) /\ (forall k, ~ In k ks -> g' k = g k)).
  { induction ks as [|k ks IH]; intros g ND H.
    - exists g. split; [reflexivity|]. split; [intros k []|auto].
    - inversion ND as [|? ? Nin ND']; subst. destruct (H k (or_introl eq_refl)) as [s [E Qs]]. unfold loop. simpl. rewrite E. simpl.
      destruct (IH (fun j => if key_eqb j k then s else g j) ND') as [g' [E' [H1 H2]]].
      + intros k' Hk'. destruct (key_eqb_spec k' k) as [->|N]; [contradiction|]. apply H. right; auto.
      + exists g'. unfold loop in E'. rewrite E'. split; [reflexivity|]. split.
        * intros k' [<-|Hk']; [|auto]. rewrite (H2 _ Nin). destruct (key_eqb_spec k k); [auto|contradiction].
        * intros k' Hk'. rewrite H2 by (intros X; apply Hk'; right; auto). destruct (key_eqb_spec k' k) as [->|N]; [exfalso; apply Hk'; left; auto|reflexivity]. }
  intros ks g ND H. destruct (G ks g ND H) as [g' [E [H1 _]]]. exists g'. auto.
Qed.
Lemma keys_nodup d : NoDup (b_names d) -> NoDup (b_snaps d) -> NoDup (keys d).
Proof.
  unfold keys. intros N. induction (b_snaps d) as [|i l IH]; intros ND; simpl; [constructor|]. inversion ND as [|? ? Nin ND']; subst.
  assert (NM : NoDup (map (fun n => (i, n)) (b_names d))).
  { clear -N. induction N as [|n l Hn N IH]; simpl; constructor; auto. intros X. apply in_map_iff in X. destruct X as [m [E Hm]]. inversion E; subst; contradiction. }
  assert (D : forall k, In k (map (fun n => (i, n)) (b_names d)) -> ~ In k (flat_map (fun i => map (fun n => (i, n)) (b_names d)) l)).
  { intros k Hk X. apply in_map_iff in Hk. destruct Hk as [n [<- _]]. apply in_flat_map in X. destruct X as [j [Hj X]]. apply in_map_iff in X. destruct X as [m [E _]]. inversion E; subst; contradiction. }
  specialize (IH ND'). revert NM D IH. generalize (map (fun n => (i, n)) (b_names d)), (flat_map (fun i => map (fun n => (i, n)) (b_names d)) l).
  intros a b NM D Nb. induction NM as [|x a Hx NM IH]; simpl; [exact Nb|]. constructor.
  - intros X. apply in_app_or in X. destruct X; [contradiction|]. apply (D x); [left; auto|auto].
  - apply IH. intros k Hk. apply D. right; auto.
Qed.
Lemma keys_name d k : In k (keys d) -> In (snd k) (b_names d).
Proof. unfold keys. intros H. apply in_flat_map in H. destruct H as [i [_ H]]. apply in_map_iff in H. destruct H as [n [<- H]]. exact H. Qed.

(** *** The run *)
Section Run.
Context (d : bdiag) (caught : Z -> key -> list (option (list lab))).
Hypothesis OK : diag_ok d.
Hypothesis LEN : forall i k, List.length (caught i k) = b_ranks d.
Definition F (k : key) (its : list Z) : list lab := filter (test (b_select d)) (flat_map (all_caught caught k) its).
Lemma F_app k a b : F k (a ++ b) = F k a ++ F k b.
Proof. unfold F. rewrite flat_map_app, filter_app. reflexivity. Qed.
Definition Inv (D W : list Z) (k : key) (s : kstate) : Prop :=
  exists P B, k_buf s = enc (b_species d (snd k)) B /\ List.length B = b_ranks d /\
    holds (b_species d (snd k)) (quantities d (snd k)) (k_file s) P /\ Permutation P (F k D) /\
    Permutation (List.concat (map (@List.concat lab) B)) (F k W).
Lemma write_inv g i D W : (forall k, In k (keys d) -> Inv D W k (g k)) ->
  exists g', write e c junk d caught g i = Ok g' /\
    (forall k, In k (keys d) -> if (i mod b_period d =? 0)%Z then Inv (D ++ W ++ [i]) [] k (g' k) else Inv D (W ++ [i]) k (g' k)).
Proof.
  intros H. destruct OK as [R1 [N1 [N2 [Per Q]]]]. pose proof (keys_nodup d N1 N2) as ND. unfold write.
  destruct (loop_ok (fun k s => bind (store_key e c (b_select d) (b_species d (snd k)) (caught i k) (k_buf s)) (fun b => Ok {| k_buf := b; k_file := k_file s |}))
    (Inv D (W ++ [i])) (keys d) g ND) as [g1 [E1 H1]].
  { intros k Hk. destruct (H k Hk) as [P [B [E [L [Hf [PP PB]]]]]]. destruct (Q _ (keys_name d k Hk)) as [_ [_ [_ Sel]]].
    destruct (store_ok (b_select d) (b_species d (snd k)) Sel (caught i k) B) as [B' [Eb [Lb Pb]]]; [rewrite LEN; auto|].
    exists {| k_buf := enc (b_species d (snd k)) B'; k_file := k_file (g k) |}. rewrite E, Eb. split; [reflexivity|].
    exists P, B'. cbn [k_buf k_file]. split; [reflexivity|]. split; [congruence|]. split; [exact Hf|]. split; [exact PP|].
    rewrite Pb, F_app. rewrite PB. unfold F at 3. simpl. rewrite app_nil_r. apply Permutation_refl. }
  rewrite E1. cbn [bind]. destruct (i mod b_period d =? 0)%Z; [|exists g1; auto].
  destruct (loop_ok (fun k => flush_key junk (quantities d (snd k))) (Inv (D ++ W ++ [i]) []) (keys d) g1 ND) as [g2 [E2 H2]].
  { intros k Hk. destruct (H1 k Hk) as [P [B [E [L [Hf [PP PB]]]]]]. destruct (Q _ (keys_name d k Hk)) as [NE [NDq [Has _]]].
    destruct (flush_ok (b_species d (snd k)) (quantities d (snd k)) (k_file (g1 k)) P B NE NDq) as [f' [Ef Hf']]; auto.
    { intros q Hq. apply has_keys. auto. } { lia. }
    exists {| k_buf := enc (b_species d (snd k)) (map (fun _ => []) B); k_file := f' |}. split.
    - rewrite <- Ef. f_equal. destruct (g1 k) as [kb kf]. simpl in *. congruence.
    - exists (P ++ List.concat (map (@List.concat lab) B)), (map (fun _ => []) B). cbn [k_buf k_file]. split; [reflexivity|]. split; [rewrite map_length; auto|].
      split; [exact Hf'|]. split; [rewrite F_app; apply Permutation_app; auto|]. rewrite map_map. clear. induction B; simpl; auto. }
  exists g2. auto.
Qed.
Definition rest (its : list Z) : list Z := skipn (List.length (on_disk (b_period d) its)) its.
Lemma on_disk_snoc its i : on_disk (b_period d) (its ++ [i]) = if (i mod b_period d =? 0)%Z then its ++ [i] else on_disk (b_period d) its.
Proof.
  unfold on_disk. rewrite rev_app_distr. simpl. destruct (i mod b_period d =? 0)%Z; [|reflexivity]. simpl. rewrite rev_involutive. reflexivity.
Qed.
Lemma on_disk_prefix its : exists r, its = on_disk (b_period d) its ++ r.
Proof.
  induction its as [|i its [r IH]] using rev_ind; [exists []; reflexivity|]. rewrite on_disk_snoc. destruct (i mod b_period d =? 0)%Z; [exists []; rewrite app_nil_r; reflexivity|].
  exists (r ++ [i]). rewrite app_assoc, <- IH. reflexivity.
Qed.
Lemma rest_snoc its i : rest (its ++ [i]) = if (i mod b_period d =? 0)%Z then [] else rest its ++ [i].
Proof.
  unfold rest. rewrite on_disk_snoc. destruct (i mod b_period d =? 0)%Z; [apply skipn_all|]. rewrite skipn_app. f_equal.
  destruct (on_disk_prefix its) as [r E]. assert (L : (List.length (on_disk (b_period d) its) <= List.length its)%nat) by (rewrite E at 2; rewrite app_length; lia).
  replace (_ - _)%nat with 0%nat by lia. reflexivity.
Qed.
Lemma disk_rest its : on_disk (b_period d) its ++ rest its = its.
Proof. unfold rest. destruct (on_disk_prefix its) as [r E]. rewrite E at 3. rewrite skipn_app, skipn_all, Nat.sub_diag. simpl. symmetry; exact E. Qed.
Lemma foldM_app {A S} (f : S -> A -> res S) a b s : foldM f (a ++ b) s = bind (foldM f a s) (foldM f b).
Proof. revert s; induction a as [|x a IH]; intros s; simpl; [reflexivity|]. destruct (f s x); simpl; [apply IH|reflexivity]. Qed.
Lemma run_inv D g its : (forall k, In k (keys d) -> Inv D [] k (g k)) ->
  exists g', run e c junk d caught its g = Ok g' /\ (forall k, In k (keys d) -> Inv (D ++ on_disk (b_period d) its) (rest its) k (g' k)).
Proof.
  intros H. unfold run. induction its as [|i its IH] using rev_ind.
  - exists g. split; [reflexivity|]. intros k Hk. unfold on_disk, rest. simpl. rewrite app_nil_r. auto.
  - destruct IH as [g1 [E1 H1]]. rewrite foldM_app, E1. cbn [bind foldM]. destruct (write_inv g1 i _ _ H1) as [g2 [E2 H2]]. rewrite E2. cbn [bind].
    exists g2. split; [reflexivity|]. intros k Hk. specialize (H2 k Hk). rewrite on_disk_snoc, rest_snoc.
    destruct (i mod b_period d =? 0)%Z; [|exact H2]. rewrite <- app_assoc, (app_assoc (on_disk _ _)), disk_rest in H2. exact H2.
Qed.
Lemma create_ok s P qs : (forall q, In q qs -> In q (keysof s)) -> forall f,
  (holds s qs f P \/ (P = [] /\ forall path, f path = None \/ f path = Some [])) ->
  exists f', create_datasets qs f = Ok f' /\ holds s qs f' P /\ (forall path, (f path <> None -> f' path = f path) /\ (f path = None -> f' path = None \/ f' path = Some [])).
Proof.
  intros K. unfold create_datasets.
  induction qs as [|q qs IH]; intros f H.
  - exists f. split; [reflexivity|]. split; [intros q path []|]. intros path. auto.
  - simpl. destruct (path_some s q (K q (or_introl eq_refl))) as [path Ep]. rewrite Ep. cbn [bind].
    set (f1 := match f path with Some _ => f | None => upd f path [] end).
    assert (Hf1 : forall p, (f p <> None -> f1 p = f p) /\ (f p = None -> f1 p = None \/ f1 p = Some [])).
    { intros p. unfold f1. destruct (f path) eqn:Ef; [auto|]. unfold upd. destruct (String.eqb_spec p path) as [->|N]; [|auto]. split; [intros X; congruence|auto]. }
    assert (Hp1 : f1 path = Some (map (si e c s q) P)).
    { destruct H as [H|[-> H]].
      - unfold f1. rewrite (H q path (or_introl eq_refl) Ep). exact (H q path (or_introl eq_refl) Ep).
      - simpl. unfold f1. destruct (f path) eqn:Ef; [destruct (H path); congruence|apply upd_same]. }
    destruct (IH (fun q Hq => K q (or_intror Hq)) f1) as [f' [E [H1 H2]]].
    { destruct H as [H|[-> H]].
      - left. intros q' path' Hq' Ep'. rewrite (proj1 (Hf1 path')); [apply H; [right; auto|auto]|]. rewrite (H q' path'); [discriminate|right; auto|auto].
      - right. split; [reflexivity|]. intros p. destruct (Hf1 p) as [A B]. destruct (H p) as [X|X]; [auto|]. right. rewrite A; [exact X|congruence]. }
    exists f'. split; [exact E|]. split.
    + intros q' path' [<-|Hq'] Ep'; [|apply H1; auto]. assert (path' = path) by congruence. subst path'. rewrite (proj1 (H2 path)); [exact Hp1|congruence].
    + intros p. destruct (Hf1 p) as [A B], (H2 p) as [A2 B2]. split.
      * intros X. rewrite A2; [auto|rewrite A; auto].
      * intros X. destruct (B X) as [Y|Y]; [auto|]. right. rewrite A2; [exact Y|congruence].
Qed.
Lemma enc_repeat s n : enc s (repeat [] n) = repeat [] n.
Proof. unfold enc. induction n; simpl; congruence. Qed.
Lemma concat_repeat n : List.concat (map (@List.concat lab) (repeat [] n)) = [].
Proof. induction n; simpl; auto. Qed.
Lemma init_inv D files : (forall k, In k (keys d) -> exists P, Permutation P (F k D) /\ (holds (b_species d (snd k)) (quantities d (snd k)) (files k) P \/ (P = [] /\ forall path, files k path = None \/ files k path = Some []))) ->
  exists g, init d files = Ok g /\ (forall k, In k (keys d) -> Inv D [] k (g k)).
Proof.
  intros H. destruct OK as [R1 [N1 [N2 [Per Q]]]]. unfold init. apply loop_ok; [apply keys_nodup; auto|]. intros k Hk. cbn [k_buf k_file].
  destruct (H k Hk) as [P [PP Hf]]. destruct (Q _ (keys_name d k Hk)) as [_ [_ [Has _]]].
  destruct (create_ok (b_species d (snd k)) P (quantities d (snd k)) (fun q Hq => proj1 (has_keys _ _) (Has q Hq)) (files k) Hf) as [f' [E [H1 _]]].
  rewrite E. cbn [bind]. eexists. split; [reflexivity|]. exists P, (repeat [] (b_ranks d)). cbn [k_buf k_file]. split; [rewrite enc_repeat; reflexivity|].
  split; [apply repeat_length|]. split; [exact H1|]. split; [exact PP|]. rewrite concat_repeat. apply Permutation_refl.
Qed.
Lemma fresh_inv : exists g, init d (fun _ _ => None) = Ok g /\ (forall k, In k (keys d) -> Inv [] [] k (g k)).
Proof. apply init_inv. intros k Hk. exists []. split; [apply Permutation_refl|right; auto]. Qed.
Lemma run_fresh its : exists g g', init d (fun _ _ => None) = Ok g /\ run e c junk d caught its g = Ok g' /\
  (forall k, In k (keys d) -> Inv (on_disk (b_period d) its) (rest its) k (g' k)).
Proof. destruct fresh_inv as [g [E H]]. destruct (run_inv [] g its H) as [g' [E' H']]. exists g, g'. auto. Qed.
Lemma restart_inv its1 its2 : exists g, restart e c junk d caught its1 its2 = Ok g /\
  (forall k, In k (keys d) -> Inv (on_disk (b_period d) its1 ++ on_disk (b_period d) its2) (rest its2) k (g k)).
Proof.
  destruct (run_fresh its1) as [g0 [g1 [E0 [E1 H1]]]]. unfold restart. rewrite E0. cbn [bind]. rewrite E1. cbn [bind].
  destruct (init_inv (on_disk (b_period d) its1) (fun k => k_file (g1 k))) as [g2 [E2 H2]].
  { intros k Hk. destruct (H1 k Hk) as [P [B [_ [_ [Hf [PP _]]]]]]. exists P. auto. }
  rewrite E2. cbn [bind]. apply run_inv. exact H2.
Qed.
End Run.
End S.
Lemma record_path q path : In (q, path) record_of -> path_of q = Some path.
Proof. unfold record_of. simpl. intros H. repeat (destruct H as [H|H]; [inversion H; reflexivity|]). contradiction. Qed.
Lemma inv_file e c d caught D W k s : Inv e c d caught D W k s ->
  exists P, choice_of (b_select d) P (flat_map (all_caught caught k) D) /\ file_holds e c (b_species d (snd k)) (quantities d (snd k)) (k_file s) P.
Proof.
  intros [P [B [_ [_ [H [PP _]]]]]]. exists P. split.
  - exists (test (b_select d)). split; [apply test_chosen|exact PP].
  - intros q path Hq Hp. apply H; [exact Hq|apply record_path; exact Hp].
Qed.
(** *** Rules on what a slice does not have *)
Lemma rule_err d sel r : (exists b, BFile_Model.apply_rule d sel r = Ok b) \/ BFile_Model.apply_rule d sel r = Err KeyError.
Proof.
  assert (G : forall q, (exists a, dget d q = Ok a) \/ dget d q = Err KeyError).
  { intros q. unfold dget. destruct (List.find _ d) as [[? ?]|]; eauto. }
  destruct r as [q [lo hi]]. simpl. destruct (G q) as [[a ->]| ->], lo, hi; simpl; eauto.
Qed.
Lemma rules_missing d rules r : In r rules -> dget d (fst r) = Err KeyError -> (fst (snd r) <> None \/ snd (snd r) <> None) -> forall sel,
  foldM (BFile_Model.apply_rule d) rules sel = Err KeyError.
Proof.
  intros H M N. induction rules as [|r0 rules IH]; intros sel; [contradiction|]. simpl. destruct H as [->|H].
  - destruct r as [q [lo hi]]. simpl in *. rewrite M. destruct lo; [reflexivity|]. destruct hi; [reflexivity|]. destruct N; congruence.
  - destruct (rule_err d sel r0) as [[b ->]| ->]; simpl; [apply IH; auto|reflexivity].
Qed.
Lemma extract_missing e c s l rules r : In r rules -> ~ has s (fst r) -> (fst (snd r) <> None \/ snd (snd r) <> None) ->
  extract_slice e c (Some rules) s l = Err KeyError.
Proof.
  intros H M N. unfold extract_slice, BFile_Model.apply_selection. rewrite slice_cols. rewrite (cols_get rawv (keysof s) l "w") by (unfold keysof; simpl; tauto).
  cbn [bind]. rewrite (rules_missing _ _ r H); [reflexivity| |exact N]. apply cols_no. intros X. apply M, has_keys, X.
Qed.
(** *** Quantities that cannot be written *)
Lemma create_bad qs q : In q qs -> path_of q = None -> forall f, create_datasets qs f = Err ValueError.
Proof.
  unfold create_datasets. intros H N. induction qs as [|q0 qs IH]; intros f; [contradiction|]. simpl. destruct H as [->|H].
  - rewrite N. reflexivity.
  - destruct (path_of q0); simpl; [apply IH; auto|reflexivity].
Qed.
Lemma create_err qs : forall f, (exists g, create_datasets qs f = Ok g) \/ create_datasets qs f = Err ValueError.
Proof.
  unfold create_datasets. induction qs as [|q0 qs IH]; intros f; simpl; [eauto|]. destruct (path_of q0); simpl; [apply IH|auto].
Qed.
Lemma loop_err (f : key -> kstate -> res kstate) (x : exc) ks k : In k ks -> (forall s, f k s = Err x) ->
  (forall k s, (exists t, f k s = Ok t) \/ f k s = Err x) -> forall g, loop f ks g = Err x.
Proof.
  intros H E A. induction ks as [|k0 ks IH]; intros g; [contradiction|]. unfold loop. simpl. destruct H as [->|H].
  - rewrite E. reflexivity.
  - destruct (A k0 (g k0)) as [[t ->]| ->]; simpl; [apply IH; auto|reflexivity].
Qed.
Lemma init_bad d files k q : In k (keys d) -> In q (quantities d (snd k)) -> path_of q = None -> init d files = Err ValueError.
Proof.
  intros Hk Hq N. unfold init. apply loop_err with (k := k); auto.
  - intros s. rewrite (create_bad _ q Hq N). reflexivity.
  - intros k' s. destruct (create_err (quantities d (snd k')) (k_file s)) as [[g ->]| ->]; simpl; eauto.
Qed.
Lemma not_record q : ~ In q (map fst record_of) -> path_of q = None.
Proof.
  unfold path_of, record_of, isin. simpl. intros H.
  repeat match goal with |- context [String.eqb q ?s] => destruct (String.eqb_spec q s) as [->|]; [exfalso; apply H; tauto|] end. reflexivity.
Qed.
Lemma mem_in (i : Z) l : existsb (Z.eqb i) l = true -> In i l.
Proof. intros H. apply existsb_exists in H. destruct H as [j [Hj E]]. apply Z.eqb_eq in E. subst; exact Hj. Qed.
Lemma in_mem (i : Z) l : In i l -> existsb (Z.eqb i) l = true.
Proof. intros H. apply existsb_exists. exists i. split; [exact H|apply Z.eqb_refl]. Qed.
