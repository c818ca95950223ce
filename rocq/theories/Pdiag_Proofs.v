From Verif Require Import Base Pdiag_Model Pdiag_Spec.
From Coq Require Import Reals String Lra Lia.
Import ListNotations.
Open Scope R_scope.
Open Scope list_scope.

(** ** Gathering *)
Fixpoint starts (k : nat) (l : list nat) : list nat := match l with [] => [] | a :: l => k :: starts (k + a) l end.
Lemma cumsum_starts l : forall k a, cumsum k (removelast (a :: l)) = starts (k + a) l.
Proof. induction l as [|b l IH]; intros k a; [reflexivity|]. change (removelast (a :: b :: l)) with (a :: removelast (b :: l)). cbn [cumsum]. rewrite IH. reflexivity. Qed.
Lemma cumsum_all a l : cumsum 0 (0%nat :: removelast (a :: l)) = starts 0 (a :: l).
Proof. cbn [cumsum starts]. rewrite cumsum_starts. reflexivity. Qed.
Lemma place_all {A} (arrays : list (list A)) : forall (pre rest : list A), List.length rest = list_sum (map (@List.length A) arrays) ->
  fold_left (fun buf '(i, a) => place buf i a) (combine (starts (List.length pre) (map (@List.length A) arrays)) arrays) (pre ++ rest) = pre ++ List.concat arrays.
Proof.
  induction arrays as [|a l IH]; intros pre rest H; cbn [map starts combine fold_left List.concat] in *.
  - cbn in H. destruct rest; [reflexivity|discriminate].
  - assert (H' : List.length rest = (List.length a + list_sum (map (@List.length A) l))%nat) by exact H. unfold place. rewrite firstn_app, firstn_all, Nat.sub_diag. cbn [firstn]. rewrite app_nil_r.
    rewrite skipn_app. rewrite skipn_all2 by lia. replace (List.length pre + List.length a - List.length pre)%nat with (List.length a) by lia. cbn [app].
    rewrite app_assoc. rewrite <- app_length. rewrite IH.
    + rewrite <- app_assoc. reflexivity.
    + rewrite skipn_length. lia.
Qed.
Lemma gather_concat {A} (arrays : list (list A)) empty : List.length empty = list_sum (map (@List.length A) arrays) ->
  gather_ptcl_array (map (@List.length A) arrays) empty arrays = List.concat arrays.
Proof.
  intros H. unfold gather_ptcl_array. destruct arrays as [|a l].
  - cbn in *. destruct empty; [reflexivity|discriminate].
  - destruct (1 <? List.length (a :: l))%nat eqn:E.
    + cbn [map]. rewrite cumsum_all. apply (place_all (a :: l) [] empty H).
    + apply Nat.ltb_ge in E. destruct l; [|cbn in E; lia]. cbn in H. unfold place. cbn. rewrite Nat.add_0_r in H.
      rewrite skipn_all2 by lia. rewrite !app_nil_r. reflexivity.
Qed.

(** ** Selection: one rank is a list of pairs (particle, random number) *)
Lemma land_map {X} (a b : X -> bool) l : logical_and (map a l) (map b l) = map (fun q => a q && b q) l.
Proof. induction l; cbn; [reflexivity|]. f_equal. exact IHl. Qed.
Lemma mask_map {X V} (f : X -> bool) (g : X -> V) l : mask (map f l) (map g l) = map g (filter f l).
Proof. unfold mask. induction l as [|a l IH]; cbn; [reflexivity|]. destruct (f a); cbn; rewrite IH; reflexivity. Qed.
Lemma gt_iff a b : gt a b = true <-> b < a.
Proof. unfold gt. destruct (Rlt_dec b a); split; intros; try lra; congruence. Qed.
Lemma lt_iff a b : lt a b = true <-> a < b.
Proof. unfold lt. destruct (Rlt_dec a b); split; intros; try lra; congruence. Qed.
Lemma coord_array name f l : In (name, f) coordinate -> quantity_array name l = Ok (map f l).
Proof.
  intros H. cbn in H. repeat destruct H as [H | H]; try contradiction; injection H as <- <-; try reflexivity.
  cbn. f_equal. apply map_ext. intros p. unfold Rdiv. lra.
Qed.
Lemma coord_fun name f g : In (name, f) coordinate -> In (name, g) coordinate -> f = g.
Proof.
  intros H K. cbn in H, K. repeat destruct H as [H | H]; try contradiction; injection H as <- <-; repeat destruct K as [K | K]; try contradiction; try discriminate K; injection K as <-; reflexivity.
Qed.
Definition rule_ok (r : rule) : Prop := exists f, In (fst r, f) coordinate.
Lemma apply_rule_pairs r (s : pt * R -> bool) : rule_ok r -> exists s', (forall pr, apply_rule (map fst pr) (map s pr) r = Ok (map s' pr)) /\
  forall q, s' q = true <-> s q = true /\ meets [r] (fst q).
Proof.
  destruct r as [name [lo hi]]. intros [f F]. cbn [fst] in F. unfold apply_rule.
  assert (M : forall p, meets [(name, (lo, hi))] p <-> (forall b, lo = Some b -> b < f p) /\ (forall b, hi = Some b -> f p < b)).
  { intros p. unfold meets. split.
    - intros H. apply (H name lo hi f); [left; reflexivity|exact F].
    - intros H n l h g [E | []] G. injection E as <- <- <-. rewrite (coord_fun _ g f G F). exact H. }
  exists (fun q => (match hi with Some b => lt (f (fst q)) b | None => true end) && ((match lo with Some b => gt (f (fst q)) b | None => true end) && s q)). split.
  - intros pr. rewrite (coord_array _ f _ F). cbn [bind]. rewrite !map_map. f_equal. destruct lo as [lo|], hi as [hi|]; rewrite ?map_map, ?land_map; reflexivity.
  - intros q. rewrite M. destruct lo as [lo|], hi as [hi|]; rewrite ?andb_true_iff, ?gt_iff, ?lt_iff; split; intros H; repeat split; intros;
      repeat match goal with H : Some _ = Some _ |- _ => injection H as <- | H : None = Some _ |- _ => discriminate end; try tauto;
      try (apply (proj1 (proj2 H)); reflexivity); try (apply (proj2 (proj2 H)); reflexivity).
Qed.
Lemma meets_cons r rules p : meets (r :: rules) p <-> meets [r] p /\ meets rules p.
Proof.
  unfold meets. split.
  - intros H. split; intros n l h f I J; apply (H n l h f); try assumption; [left; destruct I as [I | []]; exact I|right; exact I].
  - intros [H K] n l h f [I | I] J; [apply (H n l h f); [left; exact I|exact J] | apply (K n l h f); assumption].
Qed.
Lemma rules_pairs rules : Forall rule_ok rules -> forall s : pt * R -> bool, exists s', (forall pr, foldM (apply_rule (map fst pr)) rules (map s pr) = Ok (map s' pr)) /\
  forall q, s' q = true <-> s q = true /\ meets rules (fst q).
Proof.
  induction 1 as [|r rules H _ IH]; intros s; cbn [foldM].
  - exists s. split; [reflexivity|]. intros q. split; [|tauto]. intros Q. split; [exact Q|]. intros n l h f [].
  - destruct (apply_rule_pairs r s H) as (s1 & E1 & S1). destruct (IH s1) as (s2 & E2 & S2). exists s2. split; [intros pr; rewrite E1; exact (E2 pr)|].
    intros q. rewrite S2, S1, (meets_cons r rules). tauto.
Qed.
Definition rules_of (select : option (list rule)) : list rule := match select with Some r => r | None => [] end.
Lemma selection_pairs select fraction : Forall rule_ok (rules_of select) -> exists s, (forall pr, apply_selection select fraction (map snd pr) (map fst pr) = Ok (map s pr)) /\
  forall q, s q = true <-> meets (rules_of select) (fst q) /\ drawn fraction (snd q).
Proof.
  intros H. unfold apply_selection.
  assert (S0 : exists s0 : pt * R -> bool, (forall pr, match fraction with Some f => logical_and (map (fun r : R => lt r f) (map snd pr)) (map (fun _ : pt => true) (map fst pr)) | None => map (fun _ : pt => true) (map fst pr) end = map s0 pr) /\ forall q, s0 q = true <-> drawn fraction (snd q)).
  { destruct fraction as [f|].
    - exists (fun q => lt (snd q) f && true). split; [intros pr; rewrite !map_map; apply (land_map (fun q => lt (snd q) f) (fun _ => true))|].
      intros q. rewrite andb_true_r, lt_iff. unfold drawn. split; [intros K g G; injection G as <-; exact K|intros K; apply K; reflexivity].
    - exists (fun _ => true). split; [intros pr; apply map_map|]. intros q. unfold drawn. split; [intros _ f F; discriminate|reflexivity]. }
  destruct S0 as (s0 & E0 & S0). destruct select as [rules|]; cbn [rules_of] in *.
  - destruct (rules_pairs rules H s0) as (s & E & K). exists s. split; [intros pr; rewrite E0; apply E|]. intros q. rewrite K, S0. tauto.
  - exists s0. split; [intros pr; rewrite E0; reflexivity|]. intros q. rewrite S0. split; [|tauto]. intros D. split; [|exact D]. intros n l h f [].
Qed.
(** ** The datasets *)
Lemma collect {X Y Z'} (h : X -> Y) (f : Y -> res Z') (g : X -> Z') l : (forall a, In a l -> f (h a) = Ok (g a)) -> forall acc,
  foldM (fun acc a => bind (f a) (fun b => Ok (acc ++ [b]))) (map h l) acc = Ok (acc ++ map g l).
Proof.
  induction l as [|a l IH]; intros H acc; cbn [map foldM]; [rewrite app_nil_r; reflexivity|].
  rewrite (H a (or_introl eq_refl)). cbn [bind]. rewrite IH by (intros b B; apply H; right; exact B). rewrite <- app_assoc. reflexivity.
Qed.
Lemma combine_map {X A B} (f : X -> A) (g : X -> B) l : combine (map f l) (map g l) = map (fun a => (f a, g a)) l.
Proof. induction l; cbn; [reflexivity|]. f_equal. exact IHl. Qed.
(** the rows of [documented], with the name of the quantity in the code *)
Definition row (e mc : R) : list (string * (string * string * (pt -> val))) :=
  combine ["x"; "y"; "z"; "ux"; "uy"; "uz"; "Ex"; "Ey"; "Ez"; "Bx"; "By"; "Bz"; "w"; "gamma"; "id"; "charge"]%string (documented e mc).
Lemma row_doc e mc d : In d (documented e mc) -> exists q, In (q, d) (row e mc).
Proof. intros H. cbn in H. repeat destruct H as [H | H]; try contradiction; subst d; eexists; cbn; repeat (first [left; reflexivity | right]). Qed.
Definition available (s : species) (q : string) : Prop := (q = "id"%string -> sp_tracked s = true) /\ (q = "charge"%string -> sp_ionizable s = true).
Lemma one_proc_row e c s q req path f (sel : pt * R -> bool) pr : In (q, (req, path, f)) (row e (momentum_unit (sp_m s) c)) -> available s q ->
  one_proc e c s q (map sel pr) (map fst pr) = Ok (map (fun a => f (fst a)) (filter sel pr)).
Proof.
  intros H [T Io]. unfold row, documented in H. cbn [combine In] in H. unfold momentum_unit in H.
  repeat destruct H as [H | H]; try contradiction; injection H as <- <- <- <-; unfold one_proc; cbn -[map mask Rlt_dec Rmult Rdiv Rinv IZR];
    rewrite ?T, ?Io by reflexivity; cbn -[map mask Rlt_dec Rmult Rdiv Rinv IZR]; rewrite !map_map, mask_map; f_equal; try reflexivity.
  - destruct (Rlt_dec 0 (sp_m s)); rewrite ?map_map; apply map_ext; intros a; f_equal; lra.
  - destruct (Rlt_dec 0 (sp_m s)); rewrite ?map_map; apply map_ext; intros a; f_equal; lra.
  - destruct (Rlt_dec 0 (sp_m s)); rewrite ?map_map; apply map_ext; intros a; f_equal; lra.
  - apply map_ext. intros a. f_equal. unfold Rdiv. lra.
Qed.
Lemma count_true {X} (sel : X -> bool) l : List.length (filter (fun b => b) (map sel l)) = List.length (filter sel l).
Proof. induction l as [|a l IH]; cbn; [reflexivity|]. destruct (sel a); cbn; rewrite IH; reflexivity. Qed.
Lemma concat_filter {X V} (f : X -> V) sel (ls : list (list X)) : List.concat (map (fun l => map f (filter sel l)) ls) = map f (filter sel (List.concat ls)).
Proof. induction ls as [|l ls IH]; cbn; [reflexivity|]. rewrite filter_app, map_app, IH. reflexivity. Qed.
Lemma foldM_ext {A S} (f g : S -> A -> res S) : (forall s a, f s a = g s a) -> forall l s, foldM f l s = foldM g l s.
Proof. intros H. induction l as [|a l IH]; intros s; cbn; [reflexivity|]. rewrite H. destruct (g s a); cbn; [apply IH|reflexivity]. Qed.
Lemma write_dataset_row e c s comm junk (sel : pt * R -> bool) prs g q req path f : In (q, (req, path, f)) (row e (momentum_unit (sp_m s) c)) -> available s q ->
  (comm = true \/ List.length prs = 1%nat) ->
  write_dataset e c s comm junk (map (map fst) prs) (map (map sel) prs) g path q = Ok (set_dset path (map (fun a => f (fst a)) (filter sel (List.concat prs))) g).
Proof.
  intros H A Cm. unfold write_dataset. rewrite combine_map.
  rewrite (foldM_ext _ (fun acc a => bind ((fun '(se, l) => one_proc e c s q se l) a) (fun b => Ok (acc ++ [b])))) by (intros s0 [se l]; reflexivity).
  rewrite (collect (fun a => (map sel a, map fst a)) _ (fun pr => map (fun a => f (fst a)) (filter sel pr))) by (intros pr _; apply (one_proc_row e c s q req path f); assumption).
  cbn [bind app]. f_equal. f_equal. rewrite <- (concat_filter (fun a => f (fst a))).
  rewrite map_map.
  replace (map (fun a => List.length (filter (fun b : bool => b) (map sel a))) prs) with (map (@List.length val) (map (fun pr => map (fun a => f (fst a)) (filter sel pr)) prs))
    by (rewrite map_map; apply map_ext; intros pr; rewrite map_length, count_true; reflexivity).
  destruct Cm as [-> | L].
  - apply gather_concat. rewrite repeat_length. reflexivity.
  - destruct prs as [|pr [|]]; try discriminate L. destruct comm; [apply gather_concat, repeat_length|]. cbn. rewrite app_nil_r. reflexivity.
Qed.
(** ** The loop over the quantities *)
(** [g'] has the datasets of [g], one more dataset, the same constants, and only correct (additional) dimensions. *)
Definition dims_ok (g : group) : Prop := forall r v, dims g r = Some v -> setup_openpmd_record r = Ok v.
Definition dims_le (g g' : group) : Prop := forall r, dims g r <> None -> dims g' r <> None.
Lemma set_dims_spec p g v : setup_openpmd_record p = Ok v -> exists g', set_dims p g = Ok g' /\ dset g' = dset g /\ constv g' = constv g /\ dims g' p = Some v /\ (dims_ok g -> dims_ok g') /\ dims_le g g'.
Proof.
  intros H. unfold set_dims. rewrite H. cbn [bind]. eexists. split; [reflexivity|]. cbn [dset constv dims]. repeat split.
  - unfold upd. rewrite String.eqb_refl. reflexivity.
  - intros K r u. cbn [dims]. unfold upd. destruct (String.eqb r p) eqn:E; [|apply K]. intros Q. injection Q as <-. apply String.eqb_eq in E. subst r. exact H.
  - intros r. cbn [dims]. unfold upd. destruct (String.eqb r p); [discriminate|tauto].
Qed.
Definition dim_names : list string := ["position"; "momentum"; "E"; "B"; "weighting"; "gamma"; "id"; "charge"; "mass"; "positionOffset"]%string.
Lemma dim_known p : In p dim_names -> exists v, setup_openpmd_record p = Ok v.
Proof. intros H. cbn in H. repeat destruct H as [H | H]; try contradiction; subst p; eexists; reflexivity. Qed.

Section Loop.
Context (e c : R) (s : species) (comm : bool) (junk : val) (sel : pt * R -> bool) (prs : list (list (pt * R))).
Context (Cm : comm = true \/ List.length prs = 1%nat).
Notation wq := (write_quantity e c s comm junk (map (map fst) prs) (map (map sel) prs)).
Notation rows := (row e (momentum_unit (sp_m s) c)).
Notation vals f := (map (fun a => f (fst a)) (filter sel (List.concat prs))).
Definition is_record (q : string) : bool := isin q ["w"; "id"; "charge"; "gamma"]%string.
Lemma write_quantity_row g q req path f : In (q, (req, path, f)) rows -> available s q ->
  exists g', wq g q = Ok g' /\ dset g' = upd (dset g) path (vals f) /\ constv g' = constv g /\ (is_record q = true -> dims g' req <> None) /\ (dims_ok g -> dims_ok g') /\ dims_le g g'.
Proof.
  intros H A. pose proof (write_dataset_row e c s comm junk sel prs g q req path f H A Cm) as W.
  pose proof H as H'. unfold row, documented in H. cbn [combine In] in H.
  assert (P : forall g0, dims g0 = dims g -> (dims_ok g -> dims_ok g0) /\ dims_le g g0) by (intros g0 E; unfold dims_ok, dims_le; rewrite E; tauto).
  repeat destruct H as [H | H]; try contradiction; injection H as <- <- <- <-; unfold write_quantity; cbn -[write_dataset setup_openpmd_record set_dims bind map momentum_unit List.concat] in *;
    rewrite W.
  1-12: eexists; split; [reflexivity|]; split; [reflexivity|]; split; [reflexivity|]; split; [discriminate|]; apply P; reflexivity.
  all: cbn [bind]; match goal with |- context [set_dims ?p ?g1] => destruct (dim_known p ltac:(cbn; tauto)) as [v V]; destruct (set_dims_spec p g1 v V) as (g2 & -> & D & K & L & M & N) end;
    exists g2; split; [reflexivity|]; split; [rewrite D; reflexivity|]; split; [rewrite K; reflexivity|]; split; [intros _; rewrite L; discriminate|]; split; [intros O; apply M; exact O|exact N].
Qed.
Definition has_row (q : string) : Prop := exists req path f, In (q, (req, path, f)) rows.
Lemma row_path q req path f q' req' f' : In (q, (req, path, f)) rows -> In (q', (req', path, f')) rows -> q = q' /\ req = req' /\ f = f'.
Proof.
  intros H K. unfold row, documented in *. cbn [combine In] in *.
  repeat destruct H as [H | H]; try contradiction; injection H as <- <- <- <-; repeat destruct K as [K | K]; try contradiction; try discriminate K; injection K as <- <- <-; repeat split.
Qed.
Lemma row_quantity q req path f req' path' f' : In (q, (req, path, f)) rows -> In (q, (req', path', f')) rows -> path = path' /\ req = req' /\ f = f'.
Proof.
  intros H K. unfold row, documented in *. cbn [combine In] in *.
  repeat destruct H as [H | H]; try contradiction; injection H as <- <- <- <-; repeat destruct K as [K | K]; try contradiction; try discriminate K; injection K as <- <- <-; repeat split.
Qed.
Lemma loop qs : forall g, Forall (fun q => has_row q /\ available s q) qs ->
  exists g', foldM wq qs g = Ok g' /\ constv g' = constv g /\ (dims_ok g -> dims_ok g') /\ dims_le g g' /\
    (forall q req path f, In q qs -> In (q, (req, path, f)) rows -> dset g' path = Some (vals f) /\ (is_record q = true -> dims g' req <> None)) /\
    (forall path, (forall q req f, In q qs -> ~ In (q, (req, path, f)) rows) -> dset g' path = dset g path).
Proof.
  induction qs as [|q qs IH]; intros g F; cbn [foldM].
  - exists g. split; [reflexivity|]. split; [reflexivity|]. split; [tauto|]. split; [intros r H; exact H|]. split; [intros ? ? ? ? []|reflexivity].
  - inversion F as [|? ? [(req & path & f & Hr) Av] F']; subst.
    destruct (write_quantity_row g q req path f Hr Av) as (g1 & -> & D1 & C1 & R1 & O1 & L1). cbn [bind].
    destruct (IH g1 F') as (g2 & E2 & C2 & O2 & L2 & I2 & N2). exists g2. split; [exact E2|]. split; [congruence|]. split; [tauto|]. split; [intros r H; apply L2, L1, H|]. split.
    + intros q' req' path' f' Hq Hr'.
      destruct (in_dec string_dec q' qs) as [Y | Y]; [exact (I2 q' req' path' f' Y Hr')|].
      destruct Hq as [<- | Hq]; [|contradiction].
      destruct (row_quantity _ _ _ _ _ _ _ Hr Hr') as (<- & <- & <-). split; [|intros Q; apply L2, R1, Q].
      rewrite N2.
      * rewrite D1. unfold upd. rewrite String.eqb_refl. reflexivity.
      * intros q2 r2 f2 I K. destruct (row_path _ _ _ _ _ _ _ Hr K) as (<- & _ & _). contradiction.
    + intros p Hp. rewrite N2.
      * rewrite D1. unfold upd. destruct (String.eqb p path) eqn:E; [|reflexivity]. apply String.eqb_eq in E. subst p. destruct (Hp q req f (or_introl eq_refl) Hr).
      * intros q2 r2 f2 I. apply Hp. right. exact I.
Qed.
End Loop.
(** ** The lists of quantities *)
Lemma quantities_asked e mc data s q req path f : Forall (fun r => In r can_ask) data -> In (q, (req, path, f)) (row e mc) ->
  (In q (array_quantities data s) <-> asked data s req).
Proof.
  intros F H. rewrite Forall_forall in F. unfold array_quantities, asked. rewrite !in_app_iff, in_flat_map.
  set (E := fun q0 : string => (if String.eqb q0 "position" then ["x"; "y"; "z"] else if String.eqb q0 "momentum" then ["ux"; "uy"; "uz"]
    else if String.eqb q0 "E" then ["Ex"; "Ey"; "Ez"] else if String.eqb q0 "B" then ["Bx"; "By"; "Bz"] else if String.eqb q0 "weighting" then ["w"] else [q0])%string).
  assert (K : forall r, In r can_ask -> (In q (E r) <-> r = req)).
  { intros r Hr. unfold E. clear F E. unfold row, documented in H. cbn [combine In] in H.
    cbn in Hr. repeat destruct Hr as [<- | Hr]; try contradiction;
    repeat destruct H as [H | H]; try contradiction; injection H as <- <- _ _; cbn; split; intros X; try discriminate X; try reflexivity; try tauto;
    repeat destruct X as [X | X]; try discriminate X; try contradiction. }
  assert (L : (exists r, In r data /\ In q (E r)) <-> In req data).
  { split.
    - intros (r & I & J). apply K in J; [subst r; exact I|apply F, I].
    - intros I. exists req. split; [exact I|]. apply K; [apply F, I|reflexivity]. }
  change (((exists r, In r data /\ In q (E r)) \/ In q (if sp_tracked s then ["id"%string] else []) \/ In q (if sp_ionizable s then ["charge"%string] else [])) <-> (In req data \/ (req = "id"%string /\ sp_tracked s = true) \/ (req = "charge"%string /\ sp_ionizable s = true))).
  rewrite L. clear L K E F.
  assert (Q : (q = "id"%string <-> req = "id"%string) /\ (q = "charge"%string <-> req = "charge"%string)).
  { unfold row, documented in H. cbn [combine In] in H. repeat destruct H as [H | H]; try contradiction; injection H as <- <- _ _; repeat split; intros X; try discriminate X; reflexivity. }
  destruct Q as [<- <-]. destruct (sp_tracked s), (sp_ionizable s); cbn [In]; intuition congruence.
Qed.
Lemma quantities_ok e mc data s : Forall (fun r => In r can_ask) data -> Forall (fun q => (exists req path f, In (q, (req, path, f)) (row e mc)) /\ available s q) (array_quantities data s).
Proof.
  intros F. apply Forall_forall. intros q H.
  assert (HR : exists req path f, In (q, (req, path, f)) (row e mc)).
  { unfold array_quantities in H. rewrite !in_app_iff, in_flat_map in H. rewrite Forall_forall in F.
    destruct H as [(r & I & J) | [H | H]].
    - apply F in I. cbn in I. repeat destruct I as [<- | I]; try contradiction; cbn in J; repeat destruct J as [<- | J]; try contradiction; do 3 eexists; unfold row, documented; cbn [combine In]; repeat (first [left; reflexivity | right]).
    - destruct (sp_tracked s); [|destruct H]. destruct H as [<- | []]. do 3 eexists; unfold row, documented; cbn [combine In]; repeat (first [left; reflexivity | right]).
    - destruct (sp_ionizable s); [|destruct H]. destruct H as [<- | []]. do 3 eexists; unfold row, documented; cbn [combine In]; repeat (first [left; reflexivity | right]). }
  split; [exact HR|]. destruct HR as (req & path & f & HR). apply (quantities_asked e mc data s q req path f F HR) in H.
  rewrite Forall_forall in F. unfold asked in H. unfold row, documented in HR. cbn [combine In] in HR.
  split; intros ->; repeat destruct HR as [HR | HR]; try contradiction; try discriminate HR; injection HR as <- _ _;
    (destruct H as [H | [[H T] | [H T]]]; [apply F in H; cbn in H; repeat destruct H as [H | H]; try discriminate H; contradiction | try discriminate H; exact T | try discriminate H; exact T]).
Qed.
Lemma final_dims data (l : list (string * string)) : Forall (fun a => In (snd a) dim_names) l -> forall g, exists g',
  foldM (fun g '(q, r) => if isin q data then set_dims r g else Ok g) l g = Ok g' /\ dset g' = dset g /\ constv g' = constv g /\ (dims_ok g -> dims_ok g') /\ dims_le g g' /\
  (forall q r, In (q, r) l -> isin q data = true -> dims g' r <> None).
Proof.
  induction 1 as [|[q r] l H _ IH]; intros g; cbn [foldM].
  - exists g. split; [reflexivity|]. split; [reflexivity|]. split; [reflexivity|]. split; [tauto|]. split; [intros r H; exact H|]. intros q r [].
  - cbn [snd] in H. destruct (isin q data) eqn:E.
    + destruct (dim_known r H) as [v V]. destruct (set_dims_spec r g v V) as (g1 & -> & D & K & L & M & N). cbn [bind].
      destruct (IH g1) as (g2 & E2 & D2 & K2 & M2 & N2 & P2). exists g2. split; [exact E2|]. split; [congruence|]. split; [congruence|]. split; [tauto|]. split; [intros a A; apply N2, N, A|].
      intros q0 r0 [Q | Q] T; [injection Q as <- <-; apply N2; rewrite L; discriminate|exact (P2 q0 r0 Q T)].
    + cbn [bind]. destruct (IH g) as (g2 & E2 & D2 & K2 & M2 & N2 & P2). exists g2. split; [exact E2|]. split; [congruence|]. split; [congruence|]. split; [tauto|]. split; [exact N2|].
      intros q0 r0 [Q | Q] T; [injection Q as <- <-; congruence|exact (P2 q0 r0 Q T)].
Qed.
Lemma setup_ok s s0 : exists g, setup_species_group s (constant_quantities s0) = Ok g /\ (forall p, dset g p = None) /\ dims_ok g /\ dims g "mass" <> None /\
  constv g "mass"%string = Some (sp_m s) /\ (sp_ionizable s0 = false -> constv g "charge"%string = Some (sp_q s) /\ dims g "charge" <> None) /\ (sp_ionizable s0 = true -> constv g "charge"%string = None).
Proof.
  unfold setup_species_group, constant_quantities. destruct (sp_ionizable s0); cbn -[dims_ok]; eexists; (split; [reflexivity|]); (split; [reflexivity|]); (split; [|split; [cbv; discriminate|split; [reflexivity|split]]]);
    try (intros H; discriminate H); try (intros _; split; [reflexivity|cbv; discriminate]); try (intros _; reflexivity);
    intros r v; unfold set_const, upd; cbn [dims];
    repeat (match goal with |- (if String.eqb ?a ?b then _ else _) = _ -> _ => let X := fresh in destruct (String.eqb a b) eqn:X; [apply String.eqb_eq in X; subst a; intros Q; injection Q as <-; reflexivity|] end); discriminate.
Qed.
Lemma pairs_exist {A B} (rands : list (list B)) (ranks : list (list A)) : Forall2 (fun r l => List.length r = List.length l) rands ranks ->
  exists prs, ranks = map (map fst) prs /\ rands = map (map snd) prs.
Proof.
  induction 1 as [|r l rs ls H _ (prs & -> & ->)]; [exists []; split; reflexivity|].
  exists (combine l r :: prs). cbn [map]. assert (K : l = map fst (combine l r) /\ r = map snd (combine l r)).
  { clear -H. revert r H. induction l as [|a l IH]; intros [|b r] H; try discriminate H; cbn; [split; reflexivity|]. injection H as H. destruct (IH r H) as [E1 E2]. split; f_equal; assumption. }
  destruct K as [K1 K2]. split; f_equal; assumption.
Qed.
Lemma combine_pairs {A B} (l : list (A * B)) : combine (map fst l) (map snd l) = l.
Proof. induction l as [|[a b] l IH]; cbn; [reflexivity|]. f_equal. exact IH. Qed.

(** ** The file *)
Definition rules_ok (select : option (list rule)) : Prop := forall r, In r (rules_of select) -> exists f, In (fst r, f) coordinate.
Theorem write_ok e c s0 s data select fraction comm junk rands ranks :
  Forall (fun r => In r can_ask) data -> rules_ok select -> Forall2 (fun r l => List.length r = List.length l) rands ranks ->
  comm = true \/ List.length ranks = 1%nat -> (sp_tracked s0 = true -> sp_tracked s = true) -> (sp_ionizable s0 = true -> sp_ionizable s = true) ->
  exists g l, write_hdf5 e c (particle_diagnostic data select fraction comm s0) junk rands s ranks = Ok g /\
    (exists keep, (forall p u, keep (p, u) = true <-> meets (rules_of select) p /\ drawn fraction u) /\
      l = map fst (filter keep (combine (List.concat ranks) (List.concat rands)))) /\
    (forall req path f, In (req, path, f) (documented e (momentum_unit (sp_m s) c)) -> asked data s0 req -> dset g path = Some (map f l) /\ exists v, dims g req = Some v /\ setup_openpmd_record req = Ok v) /\
    (forall path, (forall req f, In (req, path, f) (documented e (momentum_unit (sp_m s) c)) -> ~ asked data s0 req) -> dset g path = None) /\
    constv g "mass"%string = Some (sp_m s) /\ (exists v, dims g "mass" = Some v /\ setup_openpmd_record "mass" = Ok v) /\ constv g "charge"%string = (if sp_ionizable s0 then None else Some (sp_q s)).
Proof.
  intros F RU F2 Cm St Si. destruct (pairs_exist _ _ F2) as (prs & -> & ->). unfold write_hdf5, particle_diagnostic. cbn [pd_select pd_fraction pd_comm pd_array pd_const].
  destruct (setup_ok s s0) as (g0 & -> & N0 & O0 & M0 & C0 & Q0 & Q1). cbn [bind].
  assert (RU' : Forall rule_ok (rules_of select)) by (apply Forall_forall; exact RU).
  destruct (selection_pairs select fraction RU') as (sel & Es & Ks).
  rewrite combine_map. rewrite (foldM_ext _ (fun acc a => bind ((fun '(r, l) => apply_selection select fraction r l) a) (fun b => Ok (acc ++ [b])))) by (intros s1 [r l]; reflexivity).
  rewrite (collect (fun a : list (pt * R) => (map snd a, map fst a)) _ (map sel)) by (intros pr _; apply Es). cbn [bind app].
  unfold write_particles.
  assert (Av : Forall (fun q => has_row e c s q /\ available s q) (array_quantities data s0)).
  { eapply Forall_impl; [|apply (quantities_ok e (momentum_unit (sp_m s) c) data s0 F)]. intros q [H [H1 H2]]. split; [exact H|]. split; intros; auto. }
  rewrite map_length in Cm.
  destruct (loop e c s comm junk sel prs Cm (array_quantities data s0) g0 Av) as (g1 & -> & C1 & O1 & L1 & I1 & N1). cbn [bind].
  destruct (final_dims (array_quantities data s0) [("x", "position"); ("ux", "momentum"); ("Ex", "E"); ("Bx", "B")]%string) with (g := g1) as (g2 & E2 & D2 & C2 & O2 & L2 & I2).
  { repeat constructor; cbn; tauto. }
  exists g2, (map fst (filter sel (List.concat prs))). split; [exact E2|].
  assert (O : dims_ok g2) by tauto.
  assert (Dm : forall r, dims g2 r <> None -> exists v, dims g2 r = Some v /\ setup_openpmd_record r = Ok v).
  { intros r H. destruct (dims g2 r) as [v|] eqn:E; [|congruence]. exists v. split; [reflexivity|apply O, E]. }
  split; [|split; [|split; [|split; [|split]]]].
  - exists sel. split; [intros p u; apply (Ks (p, u))|]. rewrite <- !concat_map, combine_pairs. reflexivity.
  - intros req path f H A. destruct (row_doc _ _ _ H) as [q Hq].
    assert (Iq : In q (array_quantities data s0)) by (apply (quantities_asked e _ data s0 q req path f F Hq), A).
    destruct (I1 q req path f Iq Hq) as [V W]. split; [rewrite D2, V, map_map; reflexivity|]. apply Dm.
    destruct (is_record q) eqn:Er; [apply L2, W; reflexivity|].
    assert (B : exists q0, In (q0, req) [("x", "position"); ("ux", "momentum"); ("Ex", "E"); ("Bx", "B")]%string /\ exists path0 f0, In (q0, (req, path0, f0)) (row e (momentum_unit (sp_m s) c))).
    { clear -Hq Er. unfold row, documented in *. cbn [combine In] in *. repeat destruct Hq as [Hq | Hq]; try contradiction; injection Hq as <- <- _ _; try discriminate Er; eexists; (split; [repeat (first [left; reflexivity | right])|]); do 2 eexists; repeat (first [left; reflexivity | right]). }
    destruct B as (q0 & B1 & p0 & f0 & B2). apply (I2 q0 req B1). unfold isin. apply existsb_exists. exists q0. split; [|apply String.eqb_refl].
    apply (quantities_asked e _ data s0 q0 req p0 f0 F B2), A.
  - intros path H. rewrite D2, N1; [apply N0|]. intros q req f Iq Hq.
    assert (Hd : In (req, path, f) (documented e (momentum_unit (sp_m s) c))) by (apply in_combine_r in Hq; exact Hq).
    apply (H req f Hd). apply (quantities_asked e _ data s0 q req path f F Hq), Iq.
  - rewrite C2, C1. exact C0.
  - apply Dm. apply L2, L1, M0.
  - rewrite C2, C1. destruct (sp_ionizable s0); [apply Q1|apply Q0]; reflexivity.
Qed.
Lemma dimension_right r v : r <> "mass"%string -> In r dim_names -> setup_openpmd_record r = Ok v -> In (r, v) dimension_of.
Proof. intros N H E. cbn in H. repeat destruct H as [<- | H]; try contradiction; try congruence; cbn in E; injection E as <-; vm_compute; repeat (first [left; reflexivity | right]). Qed.
