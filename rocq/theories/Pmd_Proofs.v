From Coq Require Import ZArith Reals List String Lia Lra.
From Coquelicot Require Import Complex.
From Verif Require Import Base Decomp_Model Decomp_Spec Decomp_Proofs GGrid_Model GGrid_Spec GGrid_Proofs Pdiag_Model Pdiag_Spec Pmd_Model Pmd_Spec.
From Verif Require Store_Model Store_Proofs.
Import ListNotations.
Open Scope Z_scope.

(** ** Loops *)
Lemma foldM_inv {A S} (f : S -> A -> res S) (I : S -> Prop) (Q : A -> S -> Prop) l : forall s, I s ->
  (forall a s, In a l -> I s -> exists s', f s a = Ok s' /\ I s' /\ Q a s' /\ (forall b, Q b s -> Q b s')) ->
  exists s', foldM f l s = Ok s' /\ I s' /\ (forall a, In a l -> Q a s') /\ (forall b, Q b s -> Q b s').
Proof.
  induction l as [|a l IH]; intros s HI H; [exists s; cbn; intuition|].
  destruct (H a s (or_introl eq_refl) HI) as (s1 & E1 & I1 & Q1 & K1).
  destruct (IH s1 I1) as (s2 & E2 & I2 & Q2 & K2). { intros b t Hb It. apply H; [right; exact Hb|exact It]. }
  exists s2. cbn [foldM]. rewrite E1. cbn [bind]. split; [exact E2|]. split; [exact I2|]. split; [|auto].
  intros b [->|Hb]; auto.
Qed.

(** ** Attributes *)
Section W.
Context (Nm : Z) (g0 : igrid C) (dz zmin : R) (sh : Z * Z * Z).

(** The attributes of a component and of a record. *)
Definition comp_attrs : list (string * attr) := [("unitSI", ANum 1); ("position", AVec [1/2; 1/2]%R)]%string.
Definition rec_attrs (p : string) : list (string * attr) :=
  app (match Pdiag_Model.setup_openpmd_record p with Ok d => [("unitDimension", AVec (map IZR d)); ("timeOffset", ANum 0)]%string | Err _ => [] end)
  [("geometry", AStr "thetaMode"); ("geometryParameters", AGeom Nm "+");
    ("gridSpacing", AVec [g_dr g0; dz]); ("gridGlobalOffset", AVec [g_rmin g0; zmin]); ("axisLabels", AStrs ["r"; "z"]);
    ("dataOrder", AStr "C"); ("gridUnitSI", ANum 1); ("fieldSmoothing", AStr "none")]%string.
Definition W (p k : string) : option attr :=
  match find (fun a => String.eqb (fst a) k) (comp_attrs ++ rec_attrs p) with Some (_, v) => Some v | None => None end.
Definition has_comp (f : file) (p : string) : Prop := forall k v, In (k, v) comp_attrs -> attrs f (Path p) k = Some v.
Definition has_rec (f : file) (p : string) : Prop := forall k v, In (k, v) (rec_attrs p) -> attrs f (Path p) k = Some v.

Lemma comp_W p k v : In (k, v) comp_attrs -> W p k = Some v.
Proof. unfold W, comp_attrs. cbn. intros [E|[E|[]]]; inversion E; reflexivity. Qed.
Lemma rec_W p k v : In (k, v) (rec_attrs p) -> W p k = Some v.
Proof.
  unfold W, rec_attrs, comp_attrs. destruct (Pdiag_Model.setup_openpmd_record p); cbn;
  intros H; repeat (destruct H as [E|H]; [inversion E; reflexivity|]); contradiction.
Qed.

Definition ext (P : string -> Prop) (f f' : file) : Prop :=
  (forall o k, attrs f' o k = attrs f o k \/ exists p, P p /\ o = Path p /\ attrs f' o k = W p k) /\
  (forall p, dsets f' p = dsets f p \/ (P p /\ dsets f p = None /\ exists d, dsets f' p = Some d /\ h_shape d = sh /\ forall a b c, h_val d a b c = 0%R)).
Lemma ext_refl P f : ext P f f.
Proof. split; auto. Qed.
Lemma ext_trans P f1 f2 f3 : ext P f1 f2 -> ext P f2 f3 -> ext P f1 f3.
Proof.
  intros [A1 D1] [A2 D2]. split.
  - intros o k. destruct (A2 o k) as [->|H]; [apply A1|right; exact H].
  - intros p. destruct (D2 p) as [->|(Hp & N & d & E)]; [apply D1|]. right. split; [exact Hp|].
    destruct (D1 p) as [E1|(_ & _ & d1 & E1 & _)]; [|congruence]. split; [congruence|]. exists d. exact E.
Qed.
Lemma ext_comp P f f' p : ext P f f' -> has_comp f p -> has_comp f' p.
Proof. intros [A _] H k v I. destruct (A (Path p) k) as [->|(p' & _ & E & ->)]; [apply H; exact I|]. injection E as <-. apply comp_W. exact I. Qed.
Lemma ext_rec P f f' p : ext P f f' -> has_rec f p -> has_rec f' p.
Proof. intros [A _] H k v I. destruct (A (Path p) k) as [->|(p' & _ & E & ->)]; [apply H; exact I|]. injection E as <-. apply rec_W. exact I. Qed.
Definition shaped (f : file) (p : string) : Prop := exists d, dsets f p = Some d /\ h_shape d = sh.
Lemma ext_shaped P f f' p : ext P f f' -> shaped f p -> shaped f' p.
Proof. intros [_ D] (d & E & S). destruct (D p) as [E'|(_ & N & _)]; [exists d; split; [congruence|exact S]|congruence]. Qed.

Lemma set_attr_get o f kv o' k : attrs (set_attr o f kv) o' k = if (obj_eqb o' o && String.eqb k (fst kv))%bool then Some (snd kv) else attrs f o' k.
Proof. reflexivity. Qed.
Lemma obj_eqb_eq a b : obj_eqb a b = true <-> a = b.
Proof.
  destruct a, b; cbn; split; intros H; try discriminate; try reflexivity; [apply String.eqb_eq in H; subst; reflexivity|].
  injection H as ->. apply String.eqb_refl.
Qed.
Lemma set_attrs_get o l : forall f o' k, attrs (set_attrs o l f) o' k =
  if obj_eqb o' o then match find (fun a => String.eqb (fst a) k) (rev l) with Some (_, v) => Some v | None => attrs f o' k end else attrs f o' k.
Proof.
  induction l as [|[a v] l IH]; intros f o' k; cbn [set_attrs fold_left rev]; [destruct (obj_eqb o' o); reflexivity|].
  fold (set_attrs o l (set_attr o f (a, v))). rewrite IH, set_attr_get. cbn [fst snd]. destruct (obj_eqb o' o); cbn [andb]; [|reflexivity].
  assert (F : forall l1 l2 (g : string * attr -> bool), find g (l1 ++ l2) = match find g l1 with Some x => Some x | None => find g l2 end).
  { intros l1 l2 g. induction l1 as [|x l1 IH1]; [reflexivity|]. cbn. destruct (g x); [reflexivity|exact IH1]. }
  rewrite F. destruct (find _ (rev l)) as [[a' v']|]; [reflexivity|]. cbn. rewrite String.eqb_sym. destruct (String.eqb a k); reflexivity.
Qed.
Lemma set_attrs_dsets o l f : dsets (set_attrs o l f) = dsets f.
Proof. revert f. induction l as [|x l IH]; intros f; [reflexivity|]. cbn [set_attrs fold_left]. fold (set_attrs o l (set_attr o f x)). rewrite IH. reflexivity. Qed.
Lemma set_attrs_ext (P : string -> Prop) p l f : P p -> (forall k v, In (k, v) l -> W p k = Some v) -> ext P f (set_attrs (Path p) l f).
Proof.
  intros HP HW. split; [|intros p'; left; rewrite set_attrs_dsets; reflexivity].
  intros o k. rewrite set_attrs_get. destruct (obj_eqb o (Path p)) eqn:E; [|left; reflexivity].
  apply obj_eqb_eq in E. subst o. destruct (find _ (rev l)) as [[a v]|] eqn:F; [|left; reflexivity].
  right. exists p. split; [exact HP|]. split; [reflexivity|]. symmetry. apply HW. apply find_some in F as [F1 F2]. cbn in F2. apply String.eqb_eq in F2. subst a.
  apply in_rev. exact F1.
Qed.
Lemma set_attrs_has p l f k v : In (k, v) l -> (forall k v, In (k, v) l -> W p k = Some v) -> attrs (set_attrs (Path p) l f) (Path p) k = Some v.
Proof.
  intros HI HW. rewrite set_attrs_get. rewrite (proj2 (obj_eqb_eq _ _) eq_refl).
  destruct (find _ (rev l)) as [[a v']|] eqn:F.
  - apply find_some in F as [F1 F2]. cbn in F2. apply String.eqb_eq in F2. subst a. apply in_rev in F1. apply HW in F1. apply HW in HI. congruence.
  - exfalso.
    assert (X : In (k, v) (rev l)) by (apply in_rev; rewrite rev_involutive; exact HI).
    apply (find_none _ _ F) in X. cbn in X. rewrite String.eqb_refl in X. discriminate.
Qed.

(** ** Creating the file *)
Definition room (f : file) (p : string) : Prop := forall d, dsets f p = Some d -> h_shape d = sh.
Lemma ext_room P f f' p : ext P f f' -> room f p -> room f' p.
Proof. intros [_ D] R d E. destruct (D p) as [E'|(_ & _ & d' & E' & S & _)]; [apply R; congruence|congruence]. Qed.
Lemma shape_eqb_eq a b : shape_eqb a b = true <-> a = b.
Proof.
  destruct a as [[a1 a2] a3], b as [[b1 b2] b3]. unfold shape_eqb. rewrite !Bool.andb_true_iff, !Z.eqb_eq.
  split; [intros [[-> ->] ->]; reflexivity|intros E; injection E; auto].
Qed.
Lemma require_ok (P : string -> Prop) p f : P p -> room f p -> exists f', require_dataset p sh f = Ok f' /\ ext P f f' /\ shaped f' p.
Proof.
  intros HP R. unfold require_dataset. destruct (dsets f p) as [d|] eqn:E.
  - rewrite (proj2 (shape_eqb_eq _ _) (R d E)). exists f. split; [reflexivity|]. split; [apply ext_refl|]. exists d. auto.
  - eexists. split; [reflexivity|]. split.
    + split; [left; reflexivity|]. intros p'. cbn. destruct (String.eqb p' p) eqn:Ep; [|left; reflexivity]. apply String.eqb_eq in Ep. subst p'.
      right. split; [exact HP|]. split; [exact E|]. eexists. split; [reflexivity|]. split; reflexivity.
    + unfold shaped. cbn. rewrite String.eqb_refl. eexists. split; reflexivity.
Qed.
Lemma component_ok (P : string -> Prop) p f : P p -> ext P f (setup_openpmd_mesh_component (Path p) f) /\ has_comp (setup_openpmd_mesh_component (Path p) f) p.
Proof.
  intros HP. change (setup_openpmd_mesh_component (Path p) f) with (set_attrs (Path p) comp_attrs f).
  split; [apply set_attrs_ext; [exact HP|apply comp_W]|]. intros k v I. apply set_attrs_has; [exact I|apply comp_W].
Qed.
Lemma record_ok (P : string -> Prop) p f d : P p -> Pdiag_Model.setup_openpmd_record p = Ok d ->
  exists f', setup_openpmd_mesh_record Nm g0 (Path p) p dz zmin f = Ok f' /\ ext P f f' /\ has_rec f' p.
Proof.
  intros HP E. unfold setup_openpmd_mesh_record, setup_openpmd_record. rewrite E. cbn [bind].
  eexists. split; [reflexivity|]. 
  match goal with |- ext P f ?x /\ _ => change x with (set_attrs (Path p) (app [("unitDimension", AVec (map IZR d)); ("timeOffset", ANum 0)]%string
    [("geometry", AStr "thetaMode"); ("geometryParameters", AGeom Nm "+"); ("gridSpacing", AVec [g_dr g0; dz]); ("gridGlobalOffset", AVec [g_rmin g0; zmin]); ("axisLabels", AStrs ["r"; "z"]);
    ("dataOrder", AStr "C"); ("gridUnitSI", ANum 1); ("fieldSmoothing", AStr "none")]%string) f) end.
  match goal with |- ext P f (set_attrs _ ?l _) /\ _ => replace l with (rec_attrs p) by (unfold rec_attrs; rewrite E; reflexivity) end.
  split; [apply set_attrs_ext; [exact HP|apply rec_W]|]. intros k v I. apply set_attrs_has; [exact I|apply rec_W].
Qed.

Definition scalar (ft : string) : bool := (prefix "rho" ft || endswith "_pml" ft)%bool.
Definition comps (ft : string) : list string := if scalar ft then [ft] else map (fun c => ft ++ "/" ++ c)%string coords.
Definition valid (ft : string) : Prop := (scalar ft = true \/ isin ft ["E"; "B"; "J"]%string = true) /\ exists d, Pdiag_Model.setup_openpmd_record ft = Ok d.
Definition done (ft : string) (f : file) : Prop := has_rec f ft /\ forall p, In p (comps ft) -> has_comp f p /\ shaped f p.
Lemma ext_done P f f' ft : ext P f f' -> done ft f -> done ft f'.
Proof.
  intros X [A B]. split; [eapply ext_rec; eauto|]. intros p Hp. destruct (B p Hp). split; [eapply ext_comp; eauto|eapply ext_shaped; eauto].
Qed.
Definition create_step (f : file) (fieldtype : string) : res file :=
  if (prefix "rho" fieldtype || endswith "_pml" fieldtype)%bool then
      bind (require_dataset fieldtype sh f) (fun f =>
      let f := setup_openpmd_mesh_component (Path fieldtype) f in
      setup_openpmd_mesh_record Nm g0 (Path fieldtype) fieldtype dz zmin f)
    else if isin fieldtype ["E"; "B"; "J"]%string then
      bind (foldM (fun f coord =>
        let path := (fieldtype ++ "/" ++ coord)%string in
        bind (require_dataset path sh f) (fun f => Ok (setup_openpmd_mesh_component (Path path) f))) coords f) (fun f =>
      setup_openpmd_mesh_record Nm g0 (Path fieldtype) fieldtype dz zmin f)
    else Err ValueError.
Lemma create_step_ok (P : string -> Prop) ft f : valid ft -> P ft -> (forall p, In p (comps ft) -> P p /\ room f p) ->
  exists f', create_step f ft = Ok f' /\ ext P f f' /\ done ft f'.
Proof.
  intros [[S|S] [d D]] HP HR; unfold create_step, done; unfold comps in *.
  - rewrite S in *. fold (scalar ft). rewrite S. destruct (HR ft (or_introl eq_refl)) as [_ R].
    destruct (require_ok P ft f HP R) as (f1 & E1 & X1 & S1). rewrite E1. cbn [bind].
    destruct (component_ok P ft f1 HP) as [X2 C2].
    destruct (record_ok P ft (setup_openpmd_mesh_component (Path ft) f1) d HP D) as (f3 & E3 & X3 & R3).
    exists f3. split; [exact E3|]. split; [eapply ext_trans; [exact X1|eapply ext_trans; eauto]|].
    split; [exact R3|]. intros p [<-|[]]. split; [eapply ext_comp; eauto|]. eapply ext_shaped; [|exact S1]. eapply ext_trans; eauto.
  - fold (scalar ft). destruct (scalar ft) eqn:Sc.
    { destruct (HR ft (or_introl eq_refl)) as [_ R].
    destruct (require_ok P ft f HP R) as (f1 & E1 & X1 & S1). rewrite E1. cbn [bind].
    destruct (component_ok P ft f1 HP) as [X2 C2].
    destruct (record_ok P ft (setup_openpmd_mesh_component (Path ft) f1) d HP D) as (f3 & E3 & X3 & R3).
    exists f3. split; [exact E3|]. split; [eapply ext_trans; [exact X1|eapply ext_trans; eauto]|].
    split; [exact R3|]. intros p [<-|[]]. split; [eapply ext_comp; eauto|]. eapply ext_shaped; [|exact S1]. eapply ext_trans; eauto. }
    rewrite S.
    match goal with |- context[foldM ?g coords f] => destruct (foldM_inv g (fun f' => ext P f f') (fun c f' => has_comp f' (ft ++ "/" ++ c)%string /\ shaped f' (ft ++ "/" ++ c)%string) coords f (ext_refl P f)) as (f1 & E1 & X1 & Q1 & _) end.
    { intros c fa Hc Xa. destruct (HR (ft ++ "/" ++ c)%string) as [Pp Rp]. { apply in_map_iff. exists c. auto. }
      destruct (require_ok P (ft ++ "/" ++ c)%string fa Pp (ext_room P f fa _ Xa Rp)) as (f1 & E1 & X1 & S1).
      destruct (component_ok P (ft ++ "/" ++ c)%string f1 Pp) as [X2 C2]. eexists. split; [rewrite E1; reflexivity|].
      split; [eapply ext_trans; [exact Xa|eapply ext_trans; eauto]|]. split; [split; [exact C2|eapply ext_shaped; eauto]|].
      intros b [B1 B2]. assert (X : ext P fa (setup_openpmd_mesh_component (Path (ft ++ "/" ++ c)%string) f1)) by (eapply ext_trans; eauto).
      split; [eapply ext_comp; eauto|eapply ext_shaped; eauto]. }
    rewrite E1. cbn [bind]. destruct (record_ok P ft f1 d HP D) as (f3 & E3 & X3 & R3).
    exists f3. split; [exact E3|]. split; [eapply ext_trans; eauto|]. split; [exact R3|]. intros p Hp. apply in_map_iff in Hp as (c & <- & Hc).
    destruct (Q1 c Hc). split; [eapply ext_comp; eauto|eapply ext_shaped; eauto].
Qed.
Lemma create_ok (P : string -> Prop) fts f : (forall ft, In ft fts -> valid ft /\ P ft /\ forall p, In p (comps ft) -> P p /\ room f p) ->
  exists f', foldM create_step fts f = Ok f' /\ ext P f f' /\ forall ft, In ft fts -> done ft f'.
Proof.
  intros H. destruct (foldM_inv create_step (fun f' => ext P f f') done fts f (ext_refl P f)) as (f' & E & X & Q & _).
  - intros ft fa Hft Xa. destruct (H ft Hft) as (V & HP & HR).
    destruct (create_step_ok P ft fa V HP) as (f1 & E1 & X1 & D1). { intros p Hp. destruct (HR p Hp). split; [assumption|eapply ext_room; eauto]. }
    exists f1. split; [exact E1|]. split; [eapply ext_trans; eauto|]. split; [exact D1|]. intros b. apply (ext_done P). exact X1.
  - exists f'. auto.
Qed.
Lemma create_clash fts : forall f ft p d, (forall ft, In ft fts -> valid ft) -> In ft fts -> In p (comps ft) ->
  dsets f p = Some d -> h_shape d <> sh -> foldM create_step fts f = Err TypeError.
Proof.
  (* steps never touch an existing dataset *)
  assert (RQ : forall p f p0 d, dsets f p0 = Some d -> match require_dataset p sh f with Ok f' => dsets f' p0 = Some d | Err e => e = TypeError end).
  { intros p f p0 d E. unfold require_dataset. destruct (dsets f p) as [d'|] eqn:E'; [destruct (shape_eqb _ _); [exact E|reflexivity]|].
    cbn. destruct (String.eqb p0 p) eqn:Q; [apply String.eqb_eq in Q; congruence|exact E]. }
  assert (RS : forall p f d, dsets f p = Some d -> h_shape d <> sh -> require_dataset p sh f = Err TypeError).
  { intros p f d E N. unfold require_dataset. rewrite E. destruct (shape_eqb (h_shape d) sh) eqn:Q; [apply shape_eqb_eq in Q; contradiction|reflexivity]. }
  assert (CO : forall o f, dsets (setup_openpmd_mesh_component o f) = dsets f) by (intros; unfold setup_openpmd_mesh_component, setup_openpmd_component; rewrite !set_attrs_dsets; reflexivity).
  assert (RE : forall p f d, Pdiag_Model.setup_openpmd_record p = Ok d -> exists f', setup_openpmd_mesh_record Nm g0 (Path p) p dz zmin f = Ok f' /\ dsets f' = dsets f).
  { intros p f d E. unfold setup_openpmd_mesh_record, setup_openpmd_record. rewrite E. cbn [bind]. eexists. split; [reflexivity|]. rewrite !set_attrs_dsets. reflexivity. }
  assert (CL : forall ft cs f p0 d, dsets f p0 = Some d ->
    match foldM (fun f coord => let path := (ft ++ "/" ++ coord)%string in
        bind (require_dataset path sh f) (fun f => Ok (setup_openpmd_mesh_component (Path path) f))) cs f with Ok f' => dsets f' p0 = Some d | Err e => e = TypeError end).
  { intros ft cs. induction cs as [|c cs IH]; intros f p0 d E; [exact E|]. cbn [foldM]. pose proof (RQ (ft ++ "/" ++ c)%string f p0 d E) as X.
    cbn zeta. destruct (require_dataset (ft ++ "/" ++ c)%string sh f) as [f1|e]; [|exact X]. cbn [bind]. apply IH. rewrite CO. exact X. }
  assert (CX : forall ft cs c f d, In c cs -> dsets f (ft ++ "/" ++ c)%string = Some d -> h_shape d <> sh ->
    foldM (fun f coord => let path := (ft ++ "/" ++ coord)%string in
        bind (require_dataset path sh f) (fun f => Ok (setup_openpmd_mesh_component (Path path) f))) cs f = Err TypeError).
  { intros ft cs. induction cs as [|c' cs IH]; intros c f d Hc E N; [contradiction|]. cbn [foldM].
    destruct (string_dec c' c) as [->|Nc].
    - cbn zeta. rewrite (RS _ _ _ E N). reflexivity.
    - destruct Hc as [Hc|Hc]; [contradiction|]. pose proof (RQ (ft ++ "/" ++ c')%string f _ d E) as X.
      cbn zeta. destruct (require_dataset (ft ++ "/" ++ c')%string sh f) as [f1|e]; [|rewrite X; reflexivity]. cbn [bind]. apply (IH c _ d Hc); [rewrite CO; exact X|exact N]. }
  induction fts as [|t fts IH]; intros f ft p d V Hft Hp E N; [contradiction|]. cbn [foldM].
  destruct (string_dec t ft) as [->|Nt].
  - assert (X : create_step f ft = Err TypeError).
    { unfold create_step. fold (scalar ft). unfold comps in Hp. destruct (V ft (or_introl eq_refl)) as [VV _]. destruct (scalar ft) eqn:S.
      - destruct Hp as [<-|[]]. rewrite (RS _ _ _ E N). reflexivity.
      - destruct VV as [VV|VV]; [discriminate|]. rewrite VV. apply in_map_iff in Hp as (c & <- & Hc). pose proof (CX ft coords c f d Hc E N) as Y. cbv zeta in Y |- *. rewrite Y. reflexivity. }
    rewrite X. reflexivity.
  - destruct Hft as [Hft|Hft]; [contradiction|].
    assert (X : match create_step f t with Ok f' => dsets f' p = Some d | Err e => e = TypeError end).
    { unfold create_step. fold (scalar t). destruct (V t (or_introl eq_refl)) as [VV [dd VD]]. destruct (scalar t) eqn:S.
      - pose proof (RQ t f p d E) as X. destruct (require_dataset t sh f) as [f1|e]; [|exact X]. cbn [bind].
        destruct (RE t (setup_openpmd_mesh_component (Path t) f1) dd VD) as (f2 & E2 & D2). rewrite E2, D2, CO. exact X.
      - destruct VV as [VV|VV]; [discriminate|]. rewrite VV. pose proof (CL t coords f p d E) as X. cbv zeta in X |- *. destruct (foldM _ coords f) as [f1|e]; [|exact X]. cbn [bind].
        destruct (RE t f1 dd VD) as (f2 & E2 & D2). rewrite E2, D2. exact X. }
    destruct (create_step f t) as [f1|e]; [|rewrite X; reflexivity]. cbn [bind].
    apply (IH f1 ft p d); auto. intros x Hx. apply V. right. exact Hx.
Qed.
End W.

(** ** Writing *)
Definition zarr : @array2 C := fun _ _ => RtoC 0.
Lemma nth_map_range {B} (g : Z -> B) n i d : 0 <= i < n -> nth (Z.to_nat i) (map g (range n)) d = g i.
Proof.
  intros H. unfold range, zrange. rewrite map_map.
  rewrite (nth_indep _ d (g (Z.of_nat 0))) by (rewrite map_length, seq_length; lia).
  rewrite (map_nth (fun x => g (Z.of_nat x))). rewrite seq_nth by lia. f_equal. lia.
Qed.
Definition holds (Nm : Z) (sh : Z * Z * Z) (out : Z -> @array2 C) (d : h5dset) : Prop :=
  h_shape d = sh /\ forall j i, h_val d 0 j i = fst (out 0 i j) /\
  forall m, 1 <= m < Nm -> h_val d (2 * m - 1) j i = (2 * fst (out m i j))%R /\ h_val d (2 * m) j i = (2 * snd (out m i j))%R.
Lemma write_ok dom Nm G pml path quantity f d out : 0 < Nm -> dsets f path = Some d ->
  (forall m, 0 <= m < Nm -> get_dataset dom G pml quantity m = Ok (out m)) ->
  exists d', write_dataset dom Nm G pml path quantity f = Ok (set_dset path d' f) /\ holds Nm (h_shape d) out d'.
Proof.
  intros HN E H. unfold write_dataset. rewrite E.
  rewrite (mapM_ok _ out) by (intros m Hm; apply in_range in Hm; apply H; exact Hm). cbn [bind].
  eexists. split; [reflexivity|]. unfold holds. cbn [h_shape h_val]. split; [reflexivity|]. intros j i. split.
  - rewrite Store_Proofs.write_mode0. change 0%nat with (Z.to_nat 0). rewrite (nth_map_range out Nm 0 _ ltac:(lia)). reflexivity.
  - intros m Hm. destruct (Store_Proofs.write_mode Nm (fun m => nth (Z.to_nat m) (map out (range Nm)) (fun _ _ => RtoC 0)) (h_val d) m j i Hm) as [-> ->].
    rewrite nth_map_range by lia. split; reflexivity.
Qed.

(** ** Reading *)
Lemma read_iff Nm g0 dz zmin Nr Nz f rec comp d out : 0 < Nm -> has_rec Nm g0 dz zmin f rec -> has_comp f comp ->
  dsets f comp = Some d -> holds Nm (2 * Nm - 1, Nr, Nz) out d -> forall z r theta x,
  pmd_read f rec comp z r theta x <-> exists j i, 0 <= j < Nr /\ 0 <= i < Nz /\ z = (zmin + (1/2 + IZR i) * dz)%R /\
    r = (g_rmin g0 + (1/2 + IZR j) * g_dr g0)%R /\ x = real_field Nm (fun m => out m i j) theta.
Proof.
  intros HN HR HC ED [HS HV] z r theta x.
  assert (R : forall k v, In (k, v) [("geometry", AStr "thetaMode"); ("geometryParameters", AGeom Nm "+");
    ("gridSpacing", AVec [g_dr g0; dz]); ("gridGlobalOffset", AVec [g_rmin g0; zmin]); ("axisLabels", AStrs ["r"; "z"]);
    ("dataOrder", AStr "C"); ("gridUnitSI", ANum 1); ("fieldSmoothing", AStr "none")]%string -> attrs f (Path rec) k = Some v).
  { intros k v I. apply HR. unfold rec_attrs. apply in_or_app. right. exact I. }
  assert (X : forall j i, (1 * (h_val d 0%Z j i + rsum (above0 Nm) (fun m =>
         h_val d (2 * m - 1)%Z j i * cos (IZR m * theta) + h_val d (2 * m)%Z j i * sin (IZR m * theta))))%R = real_field Nm (fun m => out m i j) theta).
  { intros j i. destruct (HV j i) as [-> HM]. unfold real_field. rewrite Rmult_1_l. f_equal. unfold rsum. f_equal. apply map_ext_in. intros m Hm.
    unfold above0 in Hm. apply in_map_iff in Hm as (n & <- & Hn). apply in_seq in Hn. destruct (HM (Z.of_nat n) ltac:(lia)) as [-> ->].
    unfold Cplus, Cmult, Cconj. cbn [fst snd]. ring. }
  split.
  - intros (d' & unitSI & pr & pz & M & sr & sz & ofr & ofz & u & Nr' & Nz' & j & i & E1 & E2 & Hj & Hi & A1 & A2 & A3 & A4 & A5 & A6 & A7 & A8 & A9 & -> & -> & ->).
    rewrite ED in E1. injection E1 as <-. 
    rewrite (HC "unitSI"%string (ANum 1)) in A1 by (cbn; auto). injection A1 as <-.
    rewrite (HC "position"%string (AVec [1/2; 1/2]%R)) in A2 by (cbn; auto). injection A2 as <- <-.
    rewrite (R "geometryParameters"%string (AGeom Nm "+")) in A4 by (cbn; tauto). injection A4 as <-.
    rewrite (R "gridSpacing"%string (AVec [g_dr g0; dz])) in A7 by (cbn; tauto). injection A7 as <- <-.
    rewrite (R "gridGlobalOffset"%string (AVec [g_rmin g0; zmin])) in A8 by (cbn; tauto). injection A8 as <- <-.
    rewrite (R "gridUnitSI"%string (ANum 1)) in A9 by (cbn; tauto). injection A9 as <-.
    rewrite HS in E2. injection E2 as <- <-. exists j, i. split; [exact Hj|]. split; [exact Hi|]. split; [ring|]. split; [ring|]. apply X.
  - intros (j & i & Hj & Hi & -> & -> & ->).
    exists d, 1%R, (1/2)%R, (1/2)%R, Nm, (g_dr g0), dz, (g_rmin g0), zmin, 1%R, Nr, Nz, j, i.
    split; [exact ED|]. split; [exact HS|]. split; [exact Hj|]. split; [exact Hi|].
    split; [apply HC; cbn; auto|]. split; [apply HC; cbn; auto|].
    split; [apply R; cbn; tauto|]. split; [apply R; cbn; tauto|]. split; [apply R; cbn; tauto|]. split; [apply R; cbn; tauto|].
    split; [apply R; cbn; tauto|]. split; [apply R; cbn; tauto|]. split; [apply R; cbn; tauto|].
    split; [ring|]. split; [ring|]. symmetry. apply X.
Qed.

(** ** Positions *)
Lemma first_grid c q ns Nm G : simulation c q ns Nm G ->
  g_dz (G 0 0) = c_dz c /\ g_dr (G 0 0) = r_dr q /\ g_rmin (G 0 0) = 0%R.
Proof.
  intros (HN & Hdr & H0 & HS). destruct (HS 0 ltac:(lia)) as (Hv & HNz & Hdz & HNr & Hnd & HG).
  assert (Hk : 0 <= 0 < c_size c) by (destruct Hv; lia).
  destruct (HG 0 Hk) as (g0 & Hl & Hsame).
  destruct (get_Nz_and_iz c true true true (Some 0)) as [[N iz]|] eqn:EN.
  2:{ exfalso. unfold local_grid, divide_into_domain, get_zmin_zmax in Hl. cbn [at_rank c_rank] in Hl.
      replace (get_Nz_and_iz (at_rank c 0) true true true (Some 0)) with (get_Nz_and_iz c true true true (Some 0)) in Hl by reflexivity.
      rewrite EN in Hl. discriminate. }
  assert (EZ : g_Nz (G 0 0) = N).
  { destruct Hsame as (S1 & _). rewrite S1. destruct (moved_grid_eq ns g0) as (M1 & _). rewrite M1.
    unfold local_grid, divide_into_domain, get_zmin_zmax in Hl. cbn [at_rank c_rank] in Hl.
    replace (get_Nz_and_iz (at_rank c 0) true true true (Some 0)) with (get_Nz_and_iz c true true true (Some 0)) in Hl by reflexivity.
    rewrite EN in Hl. cbn [bind] in Hl. destruct (N <? _); [discriminate|]. cbn [bind] in Hl. injection Hl as <-. reflexivity. }
  destruct (local_geom (RtoC 0) c q 0 0 (G 0 0) ns g0 N iz Hl Hsame EN ltac:(lia) HNr Hnd) as (_ & _ & Z1 & R1).
  pose proof (Z1 0) as Za. pose proof (Z1 1) as Zb. pose proof (R1 0) as Ra. pose proof (R1 1) as Rb.
  unfold grid_z, grid_r in *. rewrite !plus_IZR in *. split; [lra|]. split; lra.
Qed.
(** The cells of the gathered arrays are the cells of the ranks in charge. *)
Definition cells (c : comm) (q : radial) (ns : list Z) (Nm : Z) (out : Z -> @array2 C) (z r : R) (a : Z -> C) : Prop :=
  exists j i, 0 <= j < r_Nr q /\ 0 <= i < c_Nz c /\ z = (c_zmin (moved_comm ns c) + (1/2 + IZR i) * c_dz c)%R /\
  r = ((1/2 + IZR j) * r_dr q)%R /\ forall m, 0 <= m < Nm -> a m = out m i j.
Lemma geometry c q ns Nm G fn out : simulation c q ns Nm G ->
  (forall m, 0 <= m < Nm -> exists arrs, (forall k, 0 <= k < c_size c -> arrs k = g_arr (G m k) fn) /\
     gather_grid_array (RtoC 0) (moved_comm ns c) (r_Nr q) false arrs = Ok (out m)) ->
  forall z r a, cells c q ns Nm out z r a <-> has_modes c q ns Nm G fn z r a.
Proof.
  intros (HN & Hdr & H0 & HS) HO z r a. set (c' := moved_comm ns c).
  destruct (HS 0 ltac:(lia)) as (Hv & HNz & Hdz & HNr & Hnd & _).
  assert (Hv' : valid_comm c') by (apply moved_valid; exact Hv).
  assert (ED : c_dz c' = c_dz c) by (unfold c'; rewrite moved_comm_eq; reflexivity).
  assert (ES : c_size c' = c_size c) by (unfold c'; rewrite moved_comm_eq; reflexivity).
  assert (EG : c_nguard c' = c_nguard c) by (unfold c'; rewrite moved_comm_eq; reflexivity).
  assert (EW : whole c' false = (c_Nz c, 0)) by (rewrite whole_form; unfold ext, c'; rewrite moved_comm_eq; cbn; f_equal; lia).
  pose proof (part_tiles c' false Hv') as (_ & Hcov & Huniq & _). rewrite ES in *.
  (* values of the gathered arrays *)
  assert (VAL : forall m k i j, 0 <= m < Nm -> 0 <= k < c_size c -> cell_in i (part c' false k) -> 0 <= j < r_Nr q ->
    out m i j = g_arr (G m k) fn (i - (snd (part c' true k) - c_nguard c')) j).
  { intros m k i j Hm Hk Hc Hj. destruct (HO m Hm) as (arrs & HA & E).
    destruct (gather_value (RtoC 0) c' (r_Nr q) false arrs Hv' HNr) as (o & Eo & Ho). unfold c' in Eo. rewrite E in Eo. injection Eo as <-.
    pose proof (Ho k i j ltac:(rewrite ES; exact Hk) Hc Hj) as X. rewrite EW in X. cbn [snd] in X. rewrite Z.sub_0_r in X. rewrite X, HA by exact Hk. reflexivity. }
  assert (E1 : forall k, get_Nz_and_iz c true false false (Some k) = Ok (fst (part c' false k), snd (part c' false k))).
  { intros k. rewrite <- (moved_Nz c ns). fold c'. rewrite part_ok. destruct (part c' false k). reflexivity. }
  assert (E2 : forall k, get_Nz_and_iz c true true true (Some k) = Ok (fst (part c' true k) + 2 * c_nguard c', snd (part c' true k) - c_nguard c')).
  { intros k. rewrite <- (moved_Nz c ns). fold c'. pose proof (part_ok c' true k) as X. apply guard_ext in X. exact X. }
  split.
  - intros (j & i & Hj & Hi & -> & -> & Ha).
    assert (Hc : cell_in i (whole c' false)) by (rewrite EW; unfold cell_in; cbn [fst snd]; lia).
    apply Hcov in Hc as (k & Hk & Hc).
    destruct (enlarged c k _ _ _ _ Hv (E1 k) (E2 k)) as [L1 L2]. unfold cell_in in Hc.
    exists k, (c_zmin c' + IZR (snd (part c' false k)) * c_dz c)%R, (c_zmin c' + IZR (snd (part c' false k) + fst (part c' false k)) * c_dz c)%R.
    split; [exact Hk|]. split.
    { fold c'. rewrite (edges_ok c' _ _ _ _ (fst (part c' false k), snd (part c' false k))).
      - cbn [fst snd]. rewrite ED. reflexivity.
      - unfold c'. rewrite moved_Nz. apply E1. }
    split; [apply center_in; [exact Hdz|lia]|].
    split. { assert (IZR j + 1 <= IZR (r_Nr q))%R by (rewrite <- plus_IZR; apply IZR_le; lia). apply Rmult_lt_compat_r; [exact Hdr|lra]. }
    intros m Hm. destruct (HS m Hm) as (_ & _ & _ & _ & _ & HG). destruct (HG k Hk) as (g0 & Hg0 & Hsame).
    destruct (local_geom (RtoC 0) c q m k (G m k) ns g0 _ _ Hg0 Hsame (E2 k) ltac:(lia) HNr Hnd) as (G1 & G2 & G3 & G4).
    exists (i - (snd (part c' true k) - c_nguard c')), j. cbn [view nz nr zc rc v]. rewrite G1, G2, G3, G4.
    split; [lia|]. split; [lia|]. split; [do 3 f_equal; fold c'; f_equal; lia|]. split; [reflexivity|].
    rewrite Ha by exact Hm. symmetry. apply VAL; auto.
  - intros (k & lo & hi & Hk & Elh & Hz & Hr & Hm).
    destruct (owned_edges c ns k _ _ lo hi (E1 k) Elh) as [-> ->].
    destruct (enlarged c k _ _ _ _ Hv (E1 k) (E2 k)) as [L1 L2].
    assert (HNk : 0 < fst (part c' false k)).
    { destruct (Z_lt_le_dec 0 (fst (part c' false k))) as [|Hle]; [assumption|exfalso].
      assert (X : (IZR (snd (part c' false k) + fst (part c' false k)) <= IZR (snd (part c' false k)))%R) by (apply IZR_le; lia).
      apply (Rmult_le_compat_r (c_dz c)) in X; [|lra]. fold c' in Hz. lra. }
    assert (GEO : forall m, 0 <= m < Nm -> forall i j, zc (view (G m k) fn) i = (c_zmin c' + (1/2 + IZR (snd (part c' true k) - c_nguard c' + i)) * c_dz c)%R /\
       rc (view (G m k) fn) j = ((1/2 + IZR j) * r_dr q)%R).
    { intros m Hm' i j. destruct (HS m Hm') as (_ & _ & _ & _ & _ & HG). destruct (HG k Hk) as (g0 & Hg0 & Hsame).
      destruct (local_geom (RtoC 0) c q m k (G m k) ns g0 _ _ Hg0 Hsame (E2 k) ltac:(lia) HNr Hnd) as (G1 & G2 & G3 & G4). cbn [view zc rc]. rewrite G3, G4. split; reflexivity. }
    destruct (Hm 0 ltac:(lia)) as (i0 & j0 & Hi0 & Hj0 & Ez0 & Er0 & _).
    destruct (GEO 0 ltac:(lia) i0 j0) as [Gz0 Gr0]. rewrite Gz0 in Ez0. rewrite Gr0 in Er0.
    set (i := snd (part c' true k) - c_nguard c' + i0) in *.
    rewrite <- Ez0 in Hz. fold c' in Hz. apply center_in in Hz; [|exact Hdz].
    assert (Hjr : j0 < r_Nr q).
    { destruct (Z_lt_le_dec j0 (r_Nr q)) as [|Hge]; [assumption|exfalso]. apply IZR_le in Hge. apply (Rmult_le_compat_r (r_dr q)) in Hge; lra. }
    assert (Hci : cell_in i (part c' false k)) by (unfold cell_in; lia).
    assert (Hw : 0 <= i < c_Nz c).
    { assert (X : cell_in i (whole c' false)) by (apply Hcov; exists k; auto). rewrite EW in X. unfold cell_in in X. cbn [fst snd] in X. lia. }
    exists j0, i. split; [lia|]. split; [exact Hw|]. split; [symmetry; exact Ez0|]. split; [symmetry; exact Er0|].
    intros m Hm'. destruct (Hm m Hm') as (i1 & j1 & Hi1 & Hj1 & Ez1 & Er1 & Ev1).
    destruct (GEO m Hm' i1 j1) as [Gz1 Gr1]. rewrite Gz1 in Ez1. rewrite Gr1 in Er1.
    assert (EI : i1 = i0).
    { assert (X : (IZR i = IZR (snd (part c' true k) - c_nguard c' + i1))%R).
      { apply (Rmult_eq_reg_r (c_dz c)); [|lra]. rewrite <- Ez1 in Ez0. lra. }
      apply eq_IZR in X. unfold i in X. lia. }
    assert (EJ : j1 = j0).
    { apply eq_IZR. apply (Rmult_eq_reg_r (r_dr q)); [|lra]. rewrite <- Er1 in Er0. lra. }
    subst i1 j1. rewrite <- Ev1. cbn [view v]. rewrite (VAL m k i j0 Hm' Hk Hci ltac:(lia)). f_equal. unfold i. lia.
Qed.

Lemma foldM_keep {A S} (f : S -> A -> res S) (I K : S -> Prop) l : 
  (forall a s, In a l -> I s -> exists s', f s a = Ok s' /\ I s' /\ (K s -> K s')) -> forall s s', I s -> foldM f l s = Ok s' -> K s -> K s'.
Proof.
  induction l as [|a l IH]; intros H s s' HI E HK; [injection E as <-; exact HK|]. cbn [foldM] in E.
  destruct (H a s (or_introl eq_refl) HI) as (s1 & E1 & I1 & K1). rewrite E1 in E. cbn [bind] in E.
  apply (IH (fun b t Hb => H b t (or_intror Hb)) s1 s' I1 E (K1 HK)).
Qed.

(** ** The field diagnostic *)
Lemma dataset_ok c q ns Nm G pml quantity n fn m : simulation c q ns Nm G ->
  find (fun a => String.eqb (fst a) quantity) field_names = Some (n, fn) -> 0 <= m < Nm ->
  exists arrs out, get_dataset (Some (moved_comm ns c, q)) G pml quantity m = Ok out /\
    (forall k, 0 <= k < c_size c -> arrs k = g_arr (G m k) fn) /\
    gather_grid_array (RtoC 0) (moved_comm ns c) (r_Nr q) false arrs = Ok out.
Proof.
  intros (HN & Hdr & H0 & HS) EF Hm. destruct (HS m Hm) as (Hv & HNz & Hdz & HNr & Hnd & _).
  assert (ES : c_size (moved_comm ns c) = c_size c) by (rewrite moved_comm_eq; reflexivity).
  pose (arrs := fun k => nth (Z.to_nat k) (map (fun k => g_arr (G m k) fn) (range (c_size c))) (fun _ _ => RtoC 0)).
  destruct (gather_value (RtoC 0) (moved_comm ns c) (r_Nr q) false arrs (moved_valid _ _ Hv) HNr) as (out & E & _).
  exists arrs, out. split; [|split; [|exact E]].
  - unfold get_dataset. rewrite (mapM_ok _ (fun k => g_arr (G m k) fn)). { cbn [bind]. rewrite ES. exact E. }
    intros k _. unfold get_field. rewrite EF. reflexivity.
  - intros k Hk. unfold arrs. apply (nth_map_range (fun k => g_arr (G m k) fn)). exact Hk.
Qed.

(** Datasets that hold the modes [D p]. *)
Definition held (Nm : Z) (sh : Z * Z * Z) (D : string -> Z -> @array2 C) (f : file) (p : string) : Prop :=
  exists d, dsets f p = Some d /\ holds Nm sh (D p) d.
Definition wrote (Nm : Z) (sh : Z * Z * Z) (all : list string) (f1 f : file) : Prop :=
  (forall o k, attrs f o k = attrs f1 o k) /\ (forall p, In p all -> shaped sh f p) /\ (forall p, ~ In p all -> dsets f p = dsets f1 p).
Lemma wrote_step dom Nm G pml path quantity sh all D f1 f : 0 < Nm -> wrote Nm sh all f1 f -> In path all ->
  (forall m, 0 <= m < Nm -> get_dataset dom G pml quantity m = Ok (D path m)) ->
  exists f', write_dataset dom Nm G pml path quantity f = Ok f' /\ wrote Nm sh all f1 f' /\ held Nm sh D f' path /\
    forall p, held Nm sh D f p -> held Nm sh D f' p.
Proof.
  intros HN (A & S & O) Hp HD. destruct (S path Hp) as (d & E & Es).
  destruct (write_ok dom Nm G pml path quantity f d (D path) HN E HD) as (d' & E' & Hd). rewrite Es in Hd.
  exists (set_dset path d' f). split; [exact E'|].
  assert (G1 : forall p, dsets (set_dset path d' f) p = if String.eqb p path then Some d' else dsets f p) by reflexivity.
  split; [|split].
  - split; [exact A|]. split; intros p H.
    + unfold shaped. rewrite G1. destruct (String.eqb p path); [exists d'; split; [reflexivity|apply Hd]|apply S; exact H].
    + rewrite G1. destruct (String.eqb p path) eqn:Q; [apply String.eqb_eq in Q; subst; contradiction|apply O; exact H].
  - exists d'. rewrite G1, String.eqb_refl. auto.
  - intros p (d0 & E0 & H0). unfold held. rewrite G1. destruct (String.eqb p path) eqn:Q; [|exists d0; auto].
    apply String.eqb_eq in Q. subst p. exists d'. auto.
Qed.

Definition field_valid (ft : string) : Prop := In ft ["E"; "B"; "J"; "rho"]%string.
Lemma field_valid_valid ft : field_valid ft -> valid ft.
Proof. intros H. repeat (destruct H as [<-|H]; [split; [cbn; auto|eexists; reflexivity]|]). contradiction. Qed.
(** path, name of the attribute, field *)
Definition paths : list (string * (string * fname)) :=
  [("E/r", ("Er", fEr)); ("E/t", ("Et", fEt)); ("E/z", ("Ez", fEz)); ("B/r", ("Br", fBr)); ("B/t", ("Bt", fBt)); ("B/z", ("Bz", fBz));
   ("J/r", ("Jr", fJr)); ("J/t", ("Jt", fJt)); ("J/z", ("Jz", fJz)); ("rho", ("rho", frho))]%string.
Definition qof (p : string) : string := match find (fun a => String.eqb (fst a) p) paths with Some (_, (s, _)) => s | None => EmptyString end.
Definition Dof (dom : domain) (G : Z -> Z -> igrid C) pml (p : string) (m : Z) : @array2 C :=
  match get_dataset dom G pml (qof p) m with Ok a => a | Err _ => zarr end.

Lemma comps_of_comps fts : (forall ft, In ft fts -> field_valid ft) -> forall p, In p (comps_of fts) <-> exists ft, In ft fts /\ In p (comps ft).
Proof.
  intros V p. unfold comps_of. rewrite in_map_iff. split.
  - intros (x & <- & Hx). apply filter_In in Hx as [Hx Ht]. apply existsb_exists in Ht as (ft & Hft & Q). apply String.eqb_eq in Q. subst ft.
    exists (fst (fst x)). split; [exact Hft|]. unfold documented_fields in Hx. repeat (destruct Hx as [<-|Hx]; [vm_compute; tauto|]). contradiction.
  - intros (ft & Hft & Hp). specialize (V ft Hft).
    assert (X : exists fn, In (ft, p, fn) documented_fields).
    { unfold field_valid in V. repeat (destruct V as [<-|V]; [cbv [comps scalar] in Hp; cbn in Hp; repeat (destruct Hp as [<-|Hp]; [eexists; cbn; tauto|]); contradiction|]). contradiction. }
    destruct X as (fn & X). exists (ft, p, fn). split; [reflexivity|]. apply filter_In. split; [exact X|]. apply existsb_exists. exists ft. cbn. split; [exact Hft|apply String.eqb_refl].
Qed.

Lemma create_dsets Nm g0 dz zm sh p fts : forall f f', (forall ft, In ft fts -> ~ In p (comps ft)) ->
  foldM (create_step Nm g0 dz zm sh) fts f = Ok f' -> dsets f' p = dsets f p.
Proof.
  assert (CO : forall o f, dsets (setup_openpmd_mesh_component o f) = dsets f) by (intros; reflexivity).
  assert (RE : forall n f f', setup_openpmd_mesh_record Nm g0 (Path n) n dz zm f = Ok f' -> dsets f' = dsets f).
  { intros n f f' E. unfold setup_openpmd_mesh_record, setup_openpmd_record in E. destruct (Pdiag_Model.setup_openpmd_record n); [|discriminate]. cbn [bind] in E.
    injection E as <-. reflexivity. }
  assert (RQ : forall n f f', require_dataset n sh f = Ok f' -> n <> p -> dsets f' p = dsets f p).
  { intros n f f' E Hn. unfold require_dataset in E. destruct (dsets f n); [destruct (shape_eqb _ _); [|discriminate]; injection E as <-; reflexivity|].
    injection E as <-. cbn. destruct (String.eqb p n) eqn:Q; [apply String.eqb_eq in Q; congruence|reflexivity]. }
  assert (CF : forall ft cs f f', (forall c, In c cs -> (ft ++ "/" ++ c)%string <> p) ->
     foldM (fun f coord => let path := (ft ++ "/" ++ coord)%string in bind (require_dataset path sh f) (fun f => Ok (setup_openpmd_mesh_component (Path path) f))) cs f = Ok f' -> dsets f' p = dsets f p).
  { intros ft cs. induction cs as [|c0 cs IH]; intros f f' Hc E; [injection E as <-; reflexivity|]. cbn [foldM] in E. cbv zeta in E.
    destruct (require_dataset (ft ++ "/" ++ c0)%string sh f) as [f2|] eqn:E2; [|discriminate]. cbn [bind] in E.
    apply IH in E; [|intros; apply Hc; right; assumption]. rewrite E, CO. apply (RQ _ _ _ E2). apply Hc. left. reflexivity. }
  induction fts as [|ft l IH]; intros f f' NC E; [injection E as <-; reflexivity|]. cbn [foldM] in E.
  destruct (create_step Nm g0 dz zm sh f ft) as [f2|] eqn:E2; [|discriminate]. cbn [bind] in E.
  rewrite (IH f2 f' (fun ft Hft => NC ft (or_intror Hft)) E). clear IH E. specialize (NC ft (or_introl eq_refl)). unfold comps in NC.
  unfold create_step in E2. fold (scalar ft) in E2. destruct (scalar ft).
  - destruct (require_dataset ft sh f) as [f3|] eqn:E3; [|discriminate]. cbn [bind] in E2. apply RE in E2. rewrite E2, CO. apply (RQ _ _ _ E3). intros Q. apply NC. left. exact Q.
  - destruct (isin ft _); [|discriminate]. destruct (foldM _ coords f) as [f3|] eqn:E3; [|discriminate]. cbn [bind] in E2. apply RE in E2. rewrite E2.
    apply (CF ft coords f f3); [|exact E3]. intros c0 Hc0 Q. apply NC. apply in_map_iff. exists c0. auto.
Qed.

Lemma documented_comps rec comp fn : In (rec, comp, fn) documented_fields ->
  In comp (comps rec) /\ exists s n, In (comp, (s, fn)) paths /\ find (fun a => String.eqb (fst a) s) field_names = Some (n, fn).
Proof.
  intros Hd. assert (X : exists s, In (comp, (s, fn)) paths /\ In comp (comps rec) /\ find (fun a => String.eqb (fst a) s) field_names = Some (s, fn)).
  { unfold documented_fields in Hd. cbn [In] in Hd.
    destruct Hd as [Q|[Q|[Q|[Q|[Q|[Q|[Q|[Q|[Q|[Q|[]]]]]]]]]]]; injection Q as <- <- <-;
    [exists "Er"%string|exists "Et"%string|exists "Ez"%string|exists "Br"%string|exists "Bt"%string|exists "Bz"%string|exists "Jr"%string|exists "Jt"%string|exists "Jz"%string|exists "rho"%string];
    (split; [unfold paths; cbn [In]; tauto|split; [change (comps _) with ["E/r"; "E/t"; "E/z"]%string || change (comps _) with ["B/r"; "B/t"; "B/z"]%string || change (comps _) with ["J/r"; "J/t"; "J/z"]%string || change (comps _) with ["rho"]%string; cbn [In]; tauto|reflexivity]]). }
  destruct X as (s & A & B & E). split; [exact B|]. exists s, s. auto.
Qed.

Section Field.
Context (c : comm) (q : radial) (ns : list Z) (Nm : Z) (G : Z -> Z -> igrid C) (pml : Z -> Z -> string -> option (@array2 C)).
Context (dt : R) (fts : list string) (it : Z) (old : option file).
Hypothesis HS : simulation c q ns Nm G.
Let dom : domain := Some (moved_comm ns c, q).
Let sh := (2 * Nm - 1, r_Nr q, c_Nz c).
Let start := setup_openpmd_meshes_group (setup_openpmd_file (IZR it * dt) dt (match old with Some f => f | None => new_file end)).

Lemma extent_ok : extent dom (G 0 0) = Ok ((c_zmin (moved_comm ns c) + IZR 0 * c_dz (moved_comm ns c))%R, c_Nz c, r_Nr q).
Proof. unfold extent, dom. rewrite moved_comm_eq. reflexivity. Qed.
Lemma start_dsets : dsets start = match old with Some f => dsets f | None => fun _ => None end.
Proof. unfold start, setup_openpmd_meshes_group, setup_openpmd_file. rewrite !set_attrs_dsets. destruct old; reflexivity. Qed.
Lemma start_path p k : attrs start (Path p) k = match old with Some f => attrs f (Path p) k | None => None end.
Proof. unfold start, setup_openpmd_meshes_group, setup_openpmd_file. rewrite !set_attrs_get. cbn [obj_eqb]. destruct old; reflexivity. Qed.
Lemma start_time : attrs start Iteration "time"%string = Some (ANum (IZR it * dt)) /\ attrs start Iteration "timeUnitSI"%string = Some (ANum 1).
Proof. unfold start, setup_openpmd_meshes_group, setup_openpmd_file. rewrite !set_attrs_get. split; reflexivity. Qed.

(** A record that was created and whose datasets hold the modes is read as expected. *)
Lemma record_read f rec comp d fn D : 
  (forall o k, attrs f o k = attrs start o k \/ exists p, o = Path p /\ attrs f o k = W Nm (G 0 0) (g_dz (G 0 0)) (c_zmin (moved_comm ns c) + IZR 0 * c_dz (moved_comm ns c))%R p k) ->
  has_rec Nm (G 0 0) (g_dz (G 0 0)) (c_zmin (moved_comm ns c) + IZR 0 * c_dz (moved_comm ns c))%R f rec -> has_comp f comp ->
  Pdiag_Model.setup_openpmd_record rec = Ok d -> held Nm sh D f comp ->
  (forall m, 0 <= m < Nm -> exists arrs, (forall k, 0 <= k < c_size c -> arrs k = g_arr (G m k) fn) /\
     gather_grid_array (RtoC 0) (moved_comm ns c) (r_Nr q) false arrs = Ok (D comp m)) ->
  pmd_time f rec = Some (IZR it * dt)%R /\ pmd_dimension f rec d /\
  forall z r theta x, pmd_read f rec comp z r theta x <-> exists a, has_modes c q ns Nm G fn z r a /\ x = real_field Nm a theta.
Proof.
  intros HA HR HC Ed (d0 & E0 & H0) HO.
  split; [|split].
  - unfold pmd_time. destruct start_time as [T1 T2].
    destruct (HA Iteration "time"%string) as [E|(p & E & _)]; [|discriminate]. rewrite E, T1.
    destruct (HA Iteration "timeUnitSI"%string) as [E'|(p & E' & _)]; [|discriminate]. rewrite E', T2.
    rewrite (HR "timeOffset"%string (ANum 0)); [f_equal; ring|]. unfold rec_attrs. rewrite Ed. cbn. auto.
  - unfold pmd_dimension. apply HR. unfold rec_attrs. rewrite Ed. cbn. auto.
  - intros z r theta x. destruct (first_grid c q ns Nm G HS) as (Gz & Gr & Gm).
    rewrite (read_iff Nm (G 0 0) _ _ (r_Nr q) (c_Nz c) f rec comp d0 (D comp) (proj1 HS) HR HC E0 H0).
    rewrite Gz, Gr, Gm. split.
    + intros (j & i & Hj & Hi & -> & -> & ->). exists (fun m => D comp m i j). split; [|reflexivity].
      apply (geometry c q ns Nm G fn (D comp) HS HO). exists j, i. split; [exact Hj|]. split; [exact Hi|]. split; [ring|]. split; [ring|]. reflexivity.
    + intros (a & Hm & ->). apply (geometry c q ns Nm G fn (D comp) HS HO) in Hm as (j & i & Hj & Hi & -> & -> & Ha).
      exists j, i. split; [exact Hj|]. split; [exact Hi|]. split; [ring|]. split; [ring|].
      unfold real_field. rewrite (Ha 0) by (destruct HS; lia). f_equal. unfold rsum. f_equal. apply map_ext_in. intros m Hm.
      unfold above0 in Hm. apply in_map_iff in Hm as (n & <- & Hn). apply in_seq in Hn. rewrite Ha by lia. reflexivity.
Qed.

Lemma field_main : (forall ft, In ft fts -> field_valid ft) -> compatible old Nm (r_Nr q) (c_Nz c) (comps_of fts) ->
  exists f, field_write_hdf5 dom Nm dt G pml fts it old = Ok f /\
    (forall rec comp fn, In rec fts -> In (rec, comp, fn) documented_fields ->
      pmd_time f rec = Some (IZR it * dt)%R /\ (exists d, In (rec, d) dimension_of /\ pmd_dimension f rec d) /\
      forall z r theta x, pmd_read f rec comp z r theta x <-> exists a, has_modes c q ns Nm G fn z r a /\ x = real_field Nm a theta) /\
    (forall p, ~ In p (comps_of fts) -> dsets f p = match old with Some f => dsets f p | None => None end) /\
    (forall p k, ~ In p fts -> ~ In p (comps_of fts) -> attrs f (Path p) k = match old with Some f => attrs f (Path p) k | None => None end).
Proof.
  intros V CP. set (zm := (c_zmin (moved_comm ns c) + IZR 0 * c_dz (moved_comm ns c))%R).
  pose (P := fun p => In p fts \/ In p (comps_of fts)).
  destruct (create_ok Nm (G 0 0) (g_dz (G 0 0)) zm sh P fts start) as (f1 & E1 & X1 & D1).
  { intros ft Hft. split; [apply field_valid_valid, V, Hft|]. split; [left; exact Hft|]. intros p Hp.
    assert (Hc : In p (comps_of fts)) by (apply comps_of_comps; [exact V|]; exists ft; auto).
    split; [right; exact Hc|]. intros d Ed. rewrite start_dsets in Ed. destruct old as [fo|]; [|discriminate]. apply (CP fo p d eq_refl Hc Ed). }
  (* the datasets created are those of the components *)
  assert (X1' : forall p, ~ In p (comps_of fts) -> dsets f1 p = dsets start p).
  { intros p Hp. apply (create_dsets Nm (G 0 0) (g_dz (G 0 0)) zm sh p fts start f1); [|exact E1].
    intros ft Hft Hc. apply Hp. apply comps_of_comps; [exact V|]. exists ft; auto. }
  unfold field_write_hdf5. rewrite extent_ok. cbn [bind]. 
  change (create_file_empty_meshes _ _ _ _ _ _ _ _ _ _) with (foldM (create_step Nm (G 0 0) (g_dz (G 0 0)) zm sh) fts start).
  rewrite E1. cbn [bind].
  pose (D := Dof dom G pml).
  assert (DS : forall p s n fn, In (p, (s, fn)) paths -> find (fun a => String.eqb (fst a) s) field_names = Some (n, fn) ->
    forall m, 0 <= m < Nm -> get_dataset dom G pml s m = Ok (D p m) /\ exists arrs, (forall k, 0 <= k < c_size c -> arrs k = g_arr (G m k) fn) /\
     gather_grid_array (RtoC 0) (moved_comm ns c) (r_Nr q) false arrs = Ok (D p m)).
  { intros p s n fn Hp Hf m Hm. destruct (dataset_ok c q ns Nm G pml s n fn m HS Hf Hm) as (arrs & out & F1 & F2 & F3).
    assert (Q : qof p = s) by (unfold paths in Hp; repeat (destruct Hp as [Q|Hp]; [injection Q as <- <- <-; reflexivity|]); contradiction).
    assert (O : D p m = out). { unfold D, Dof. rewrite Q. unfold dom. rewrite F1. reflexivity. }
    rewrite O. split; [exact F1|]. exists arrs. auto. }
  match goal with |- context[foldM ?g fts f1] => destruct (foldM_inv g (wrote Nm sh (comps_of fts) f1) (fun ft f => forall p, In p (comps ft) -> held Nm sh D f p) fts f1) as (f2 & E2 & W2 & Q2 & _) end.
  { split; [reflexivity|]. split; [|reflexivity]. intros p Hp. apply comps_of_comps in Hp as (ft & Hft & Hp); [|exact V]. apply (D1 ft Hft). exact Hp. }
  { intros ft f Hft Wf. pose proof (V ft Hft) as Vf.
    assert (AL : forall p, In p (comps ft) -> In p (comps_of fts)) by (intros p Hp; apply comps_of_comps; [exact V|]; exists ft; auto).
    assert (WS : forall s p0 n fn f, wrote Nm sh (comps_of fts) f1 f -> In p0 (comps ft) -> In (p0, (s, fn)) paths -> find (fun a => String.eqb (fst a) s) field_names = Some (n, fn) ->
      exists f', write_dataset dom Nm G pml p0 s f = Ok f' /\ wrote Nm sh (comps_of fts) f1 f' /\ held Nm sh D f' p0 /\ forall p, held Nm sh D f p -> held Nm sh D f' p).
    { intros s p0 n fn f' Wf' Hp Hq Hf. apply wrote_step; [apply (proj1 HS)|exact Wf'|apply AL; exact Hp|]. intros m Hm. apply (DS p0 s n fn Hq Hf m Hm). }
    destruct (String.eqb ft "rho") eqn:QR.
    - apply String.eqb_eq in QR. subst ft. destruct (WS "rho"%string "rho"%string "rho"%string frho f Wf ltac:(left; reflexivity) ltac:(cbn; tauto) eq_refl) as (f' & F1 & F2 & F3 & F4).
      exists f'. split; [exact F1|]. split; [exact F2|]. split; [intros p [<-|[]]; exact F3|]. intros b Hb p Hp. apply F4, Hb, Hp.
    - assert (VE : In ft ["E"; "B"; "J"]%string) by (destruct Vf as [<-|[<-|[<-|[<-|[]]]]]; cbn; auto; discriminate).
      assert (VI : isin ft ["E"; "B"; "J"]%string = true) by (destruct VE as [<-|[<-|[<-|[]]]]; reflexivity). rewrite VI.
      assert (CE : comps ft = map (fun c => ft ++ "/" ++ c)%string coords) by (destruct VE as [<-|[<-|[<-|[]]]]; reflexivity).
      assert (IN : forall co, In co coords -> exists n fn, In ((ft ++ "/" ++ co)%string, ((ft ++ co)%string, fn)) paths /\ find (fun a => String.eqb (fst a) (ft ++ co)%string) field_names = Some (n, fn)).
      { intros co Hco. destruct VE as [<-|[<-|[<-|[]]]]; destruct Hco as [<-|[<-|[<-|[]]]]; eexists; eexists; (split; [cbn; tauto|reflexivity]). }
      match goal with |- context[foldM ?g coords f] => destruct (foldM_inv g (wrote Nm sh (comps_of fts) f1) (fun co f => held Nm sh D f (ft ++ "/" ++ co)%string) coords f Wf) as (f' & F1 & F2 & F3 & F4) end.
      { intros co fa Hco Wa. destruct (IN co Hco) as (n & fn & I1 & I2).
        destruct (WS (ft ++ co)%string (ft ++ "/" ++ co)%string n fn fa Wa) as (f' & F1 & F2 & F3 & F4); [rewrite CE; apply in_map_iff; exists co; auto|exact I1|exact I2|].
        exists f'. split; [exact F1|]. split; [exact F2|]. split; [exact F3|]. intros b. apply F4. }
      (* what is held stays held *)
      assert (KP : forall p, held Nm sh D f p -> held Nm sh D f' p).
      { intros p Hp. clear F2 F3 F4. refine (foldM_keep _ (wrote Nm sh (comps_of fts) f1) (fun f => held Nm sh D f p) coords _ f f' Wf F1 Hp).
        intros co fa Hco Wa. destruct (IN co Hco) as (n & fn & I1 & I2).
        destruct (WS (ft ++ co)%string (ft ++ "/" ++ co)%string n fn fa Wa) as (f0 & F1' & F2' & F3' & F4'); [rewrite CE; apply in_map_iff; exists co; auto|exact I1|exact I2|].
        exists f0. split; [exact F1'|]. split; [exact F2'|]. apply F4'. }
      exists f'. split; [exact F1|]. split; [exact F2|]. split; [|intros b Hb p Hp; apply KP, Hb, Hp].
      intros p Hp. rewrite CE in Hp. apply in_map_iff in Hp as (co & <- & Hco). apply F3. exact Hco. }
  destruct W2 as (WA & WS & WO). destruct X1 as [XA XD].
  exists f2. split; [exact E2|]. split; [|split].
  - intros rec comp fn Hr Hd. pose proof (V rec Hr) as Vr.
    pose proof (documented_comps rec comp fn Hd) as Hc.
    destruct Hc as (Hc & s & n & I1 & I2).
    destruct (D1 rec Hr) as (RR & RC). destruct (RC comp Hc) as (CC & _).
    destruct (proj2 (field_valid_valid rec Vr)) as (d & Ed).
    destruct (record_read f2 rec comp d fn D) as (T1 & T2 & T3).
    + intros o k. rewrite WA. destruct (XA o k) as [X|(p & _ & Eo & X)]; [left; exact X|right; exists p; split; [exact Eo|exact X]].
    + intros k v Hk. rewrite WA. apply RR. exact Hk.
    + intros k v Hk. rewrite WA. apply CC. exact Hk.
    + exact Ed.
    + apply (Q2 rec Hr comp Hc).
    + intros m Hm. apply (DS comp s n fn I1 I2 m Hm).
    + split; [exact T1|]. split; [|exact T3]. exists d. split; [|exact T2].
      destruct Vr as [<-|[<-|[<-|[<-|[]]]]]; vm_compute in Ed; injection Ed as <-; vm_compute; tauto.
  - intros p Hp. rewrite (WO p Hp), (X1' p Hp), start_dsets. destruct old; reflexivity.
  - intros p k H1 H2. rewrite WA. destruct (XA (Path p) k) as [X|(p' & [HP|HP] & Eo & _)]; [rewrite X; apply start_path|injection Eo as <-; contradiction..].
Qed.
End Field.

(** A file in which a dataset has another shape is not written. *)
Lemma field_clash c q ns Nm G pml dt fts it f rec comp d : simulation c q ns Nm G -> (forall ft, In ft fts -> field_valid ft) ->
  In rec fts -> In comp (comps rec) -> dsets f comp = Some d -> h_shape d <> (2 * Nm - 1, r_Nr q, c_Nz c) ->
  field_write_hdf5 (Some (moved_comm ns c, q)) Nm dt G pml fts it (Some f) = Err TypeError.
Proof.
  intros HS V Hr Hc Ed Hn. unfold field_write_hdf5. rewrite extent_ok. cbn [bind].
  change (create_file_empty_meshes _ _ _ _ _ _ _ _ _ _) with
    (foldM (create_step Nm (G 0 0) (g_dz (G 0 0)) (c_zmin (moved_comm ns c) + IZR 0 * c_dz (moved_comm ns c))%R (2 * Nm - 1, r_Nr q, c_Nz c)) fts
      (setup_openpmd_meshes_group (setup_openpmd_file (IZR it * dt) dt f))).
  rewrite (create_clash _ _ _ _ _ fts _ rec comp d); [reflexivity|intros ft Hft; apply field_valid_valid, V, Hft|exact Hr|exact Hc|exact Ed|exact Hn].
Qed.

(** ** The density of each species *)
Lemma append_cancel a b c : (a ++ b = a ++ c -> b = c)%string.
Proof. induction a as [|x a IH]; cbn; intros E; [exact E|injection E as E; apply IH; exact E]. Qed.
Lemma rho_comps s : comps ("rho_" ++ s) = ["rho_" ++ s]%string.
Proof. reflexivity. Qed.
Definition rho_dim : list Z := [(-3); 0; 1; 1; 0; 0; 0].
Lemma rho_record s : Pdiag_Model.setup_openpmd_record ("rho_" ++ s) = Ok rho_dim.
Proof. reflexivity. Qed.
Lemma rho_dimension : In ("rho"%string, rho_dim) dimension_of.
Proof. vm_compute. tauto. Qed.
Lemma rho_valid s : valid ("rho_" ++ s).
Proof. split; [left; reflexivity|]. exists rho_dim. apply rho_record. Qed.
Lemma density_main c q ns Nm G dt rho species it old : simulation c q ns Nm G ->
  (forall f s d, old = Some f -> In s species -> dsets f ("rho_" ++ s)%string = Some d -> h_shape d = (2 * Nm - 1, r_Nr q, c_Nz c)) ->
  exists f, density_write_hdf5 (moved_comm ns c) q Nm dt G rho species it old = Ok f /\
    (forall s, In s species -> let rec := ("rho_" ++ s)%string in
      pmd_time f rec = Some (IZR it * dt)%R /\ (exists d, In ("rho"%string, d) dimension_of /\ pmd_dimension f rec d) /\
      forall z r theta x, pmd_read f rec rec z r theta x <->
        exists a, has_modes c q ns Nm (fun m k => set_arr (G m k) frho (rho s m k)) frho z r a /\ x = real_field Nm a theta) /\
    (forall p, ~ In p (map (fun s => "rho_" ++ s)%string species) ->
      dsets f p = match old with Some f => dsets f p | None => None end /\
      forall k, attrs f (Path p) k = match old with Some f => attrs f (Path p) k | None => None end).
Proof.
  intros HS CP. set (zm := (c_zmin (moved_comm ns c) + IZR 0 * c_dz (moved_comm ns c))%R).
  set (sh := (2 * Nm - 1, r_Nr q, c_Nz c)). pose (fts := map (fun s => "rho_" ++ s)%string species).
  set (start := setup_openpmd_meshes_group (setup_openpmd_file (IZR it * dt) dt (match old with Some f => f | None => new_file end))).
  assert (HS' : forall s, simulation c q ns Nm (fun m k => set_arr (G m k) frho (rho s m k))).
  { intros s. destruct HS as (HN & Hdr & H0 & HS). split; [exact HN|]. split; [exact Hdr|]. split; [exact H0|]. exact HS. }
  destruct (create_ok Nm (G 0 0) (g_dz (G 0 0)) zm sh (fun p => In p fts) fts start) as (f1 & E1 & X1 & D1).
  { intros ft Hft. pose proof Hft as Hft'. unfold fts in Hft'. apply in_map_iff in Hft' as (s & <- & Hs). split; [apply rho_valid|]. split; [exact Hft|]. rewrite rho_comps. intros p [<-|[]].
    split; [exact Hft|]. intros d Ed. assert (Q : dsets start ("rho_" ++ s)%string = match old with Some f => dsets f ("rho_" ++ s)%string | None => None end) by (destruct old; reflexivity).
    rewrite Q in Ed. destruct old as [fo|]; [|discriminate]. apply (CP fo s d eq_refl Hs Ed). }
  pose (D := fun p m => match find (fun s => String.eqb ("rho_" ++ s) p) species with
      | Some s => match get_dataset (Some (moved_comm ns c, q)) (fun m k => set_arr (G m k) frho (rho s m k)) (fun _ _ _ => None) "rho" m with Ok a => a | Err _ => zarr end
      | None => zarr end).
  assert (DS : forall s, In s species -> forall m, 0 <= m < Nm ->
    get_dataset (Some (moved_comm ns c, q)) (fun m k => set_arr (G m k) frho (rho s m k)) (fun _ _ _ => None) "rho" m = Ok (D ("rho_" ++ s)%string m) /\
    exists arrs, (forall k, 0 <= k < c_size c -> arrs k = g_arr (set_arr (G m k) frho (rho s m k)) frho) /\
     gather_grid_array (RtoC 0) (moved_comm ns c) (r_Nr q) false arrs = Ok (D ("rho_" ++ s)%string m)).
  { intros s Hs m Hm. destruct (dataset_ok c q ns Nm _ (fun _ _ _ => None) "rho"%string _ frho m (HS' s) eq_refl Hm) as (arrs & out & F1 & F2 & F3).
    assert (O : D ("rho_" ++ s)%string m = out).
    { unfold D. destruct (find (fun s0 => String.eqb ("rho_" ++ s0) ("rho_" ++ s)) species) as [s0|] eqn:F.
      - apply find_some in F as [_ F]. apply String.eqb_eq in F. apply append_cancel in F. subst s0. rewrite F1. reflexivity.
      - pose proof (find_none _ _ F s Hs) as N. cbv beta in N. rewrite String.eqb_refl in N. discriminate. }
    rewrite O. split; [exact F1|]. exists arrs. auto. }
  unfold density_write_hdf5. rewrite extent_ok. cbn [bind].
  change (create_file_empty_meshes _ _ _ _ _ _ _ _ _ _) with (foldM (create_step Nm (G 0 0) (g_dz (G 0 0)) zm sh) fts start).
  rewrite E1. cbn [bind].
  match goal with |- context[foldM ?g species f1] => destruct (foldM_inv g (wrote Nm sh fts f1) (fun s f => held Nm sh D f ("rho_" ++ s)%string) species f1) as (f2 & E2 & W2 & Q2 & _) end.
  { split; [reflexivity|]. split; [|reflexivity]. intros p Hp. unfold fts in Hp. apply in_map_iff in Hp as (s & <- & Hs). apply (D1 ("rho_" ++ s)%string); [apply in_map_iff; exists s; auto|left; reflexivity]. }
  { intros s f Hs Wf. destruct (wrote_step (Some (moved_comm ns c, q)) Nm (fun m k => set_arr (G m k) frho (rho s m k)) (fun _ _ _ => None) ("rho_" ++ s)%string "rho"%string sh fts D f1 f (proj1 HS) Wf) as (f' & F1 & F2 & F3 & F4).
    - apply in_map_iff. exists s; auto.
    - intros m Hm. apply (DS s Hs m Hm).
    - exists f'. split; [exact F1|]. split; [exact F2|]. split; [exact F3|]. intros b. apply F4. }
  destruct W2 as (WA & _ & WO). destruct X1 as [XA XD].
  exists f2. split; [exact E2|]. split.
  - intros s Hs. set (rec := ("rho_" ++ s)%string). assert (Hr : In rec fts) by (apply in_map_iff; exists s; auto).
    destruct (D1 rec Hr) as (RR & RC). destruct (RC rec (or_introl eq_refl)) as (CC & _).
    destruct (record_read c q ns Nm (fun m k => set_arr (G m k) frho (rho s m k)) (fun _ _ _ => None) dt it old (HS' s) f2 rec rec rho_dim frho D) as (T1 & T2 & T3).
    + intros o k. rewrite WA. destruct (XA o k) as [X|(p & _ & Eo & X)]; [left; exact X|right; exists p; split; [exact Eo|exact X]].
    + intros k v Hk. rewrite WA. apply RR. exact Hk.
    + intros k v Hk. rewrite WA. apply CC. exact Hk.
    + apply rho_record.
    + apply (Q2 s Hs).
    + intros m Hm. apply (DS s Hs m Hm).
    + split; [exact T1|]. split; [|exact T3]. exists rho_dim. split; [apply rho_dimension|exact T2].
  - intros p Hp. split.
    + rewrite (WO p Hp). rewrite (create_dsets Nm (G 0 0) (g_dz (G 0 0)) zm sh p fts start f1); [destruct old; reflexivity| |exact E1].
      intros ft Hft. pose proof Hft as Hft'. unfold fts in Hft'. apply in_map_iff in Hft' as (s & <- & Hs). rewrite rho_comps. intros [Q|[]]. apply Hp. rewrite <- Q. exact Hft.
    + intros k. rewrite WA. destruct (XA (Path p) k) as [X|(p' & HP & Eo & _)]; [rewrite X; destruct old; reflexivity|injection Eo as <-; contradiction].
Qed.

(** ** Back-transformed fields *)
Lemma read_raw Nm g0 dz zmin Nr Nz f rec comp d : has_rec Nm g0 dz zmin f rec -> has_comp f comp ->
  dsets f comp = Some d -> h_shape d = (2 * Nm - 1, Nr, Nz) -> forall z r theta x,
  pmd_read f rec comp z r theta x <-> exists j i, 0 <= j < Nr /\ 0 <= i < Nz /\ z = (zmin + (1/2 + IZR i) * dz)%R /\
    r = (g_rmin g0 + (1/2 + IZR j) * g_dr g0)%R /\ x = at_angle Nm (fun p => h_val d p j i) theta.
Proof.
  intros HR HC ED HS z r theta x.
  assert (R : forall k v, In (k, v) [("geometry", AStr "thetaMode"); ("geometryParameters", AGeom Nm "+");
    ("gridSpacing", AVec [g_dr g0; dz]); ("gridGlobalOffset", AVec [g_rmin g0; zmin]); ("axisLabels", AStrs ["r"; "z"]);
    ("dataOrder", AStr "C"); ("gridUnitSI", ANum 1); ("fieldSmoothing", AStr "none")]%string -> attrs f (Path rec) k = Some v).
  { intros k v I. apply HR. unfold rec_attrs. apply in_or_app. right. exact I. }
  split.
  - intros (d' & unitSI & pr & pz & M & sr & sz & ofr & ofz & u & Nr' & Nz' & j & i & E1 & E2 & Hj & Hi & A1 & A2 & A3 & A4 & A5 & A6 & A7 & A8 & A9 & -> & -> & ->).
    rewrite ED in E1. injection E1 as <-. 
    rewrite (HC "unitSI"%string (ANum 1)) in A1 by (cbn; auto). injection A1 as <-.
    rewrite (HC "position"%string (AVec [1/2; 1/2]%R)) in A2 by (cbn; auto). injection A2 as <- <-.
    rewrite (R "geometryParameters"%string (AGeom Nm "+")) in A4 by (cbn; tauto). injection A4 as <-.
    rewrite (R "gridSpacing"%string (AVec [g_dr g0; dz])) in A7 by (cbn; tauto). injection A7 as <- <-.
    rewrite (R "gridGlobalOffset"%string (AVec [g_rmin g0; zmin])) in A8 by (cbn; tauto). injection A8 as <- <-.
    rewrite (R "gridUnitSI"%string (ANum 1)) in A9 by (cbn; tauto). injection A9 as <-.
    rewrite HS in E2. injection E2 as <- <-. exists j, i. split; [exact Hj|]. split; [exact Hi|]. split; [ring|]. split; [ring|]. apply Rmult_1_l.
  - intros (j & i & Hj & Hi & -> & -> & ->).
    exists d, 1%R, (1/2)%R, (1/2)%R, Nm, (g_dr g0), dz, (g_rmin g0), zmin, 1%R, Nr, Nz, j, i.
    split; [exact ED|]. split; [exact HS|]. split; [exact Hj|]. split; [exact Hi|].
    split; [apply HC; cbn; auto|]. split; [apply HC; cbn; auto|].
    split; [apply R; cbn; tauto|]. split; [apply R; cbn; tauto|]. split; [apply R; cbn; tauto|]. split; [apply R; cbn; tauto|].
    split; [apply R; cbn; tauto|]. split; [apply R; cbn; tauto|]. split; [apply R; cbn; tauto|].
    split; [ring|]. split; [ring|]. symmetry. apply Rmult_1_l.
Qed.

(** One flush, then all of them. *)
Definition slab (all : list string) (sh : Z * Z * Z) (f1 f : file) : Prop :=
  (forall o k, attrs f o k = attrs f1 o k) /\ (forall p, In p all -> shaped sh f p).
Definition upd (lo hi : Z) (data v : Z -> Z -> Z -> R) : Z -> Z -> Z -> R :=
  fun p j i => if ((lo <=? i) && (i <? hi))%bool then data p j (i - lo) else v p j i.
(** the values of the dataset of a path *)
Definition val (f : file) (p : string) (a j i : Z) : R := match dsets f p with Some d => h_val d a j i | None => 0%R end.
Lemma slice_step all sh f1 f data path lo hi : slab all sh f1 f -> In path all ->
  exists f', write_field_slices data path lo hi f = Ok f' /\ slab all sh f1 f' /\
    (forall a j i, val f' path a j i = upd lo hi data (val f path) a j i) /\ (forall p, p <> path -> val f' p = val f p).
Proof.
  intros (A & B) Hp. destruct (B path Hp) as (d & E & Es). unfold write_field_slices. rewrite E. eexists. split; [reflexivity|].
  split; [|split].
  - split; [exact A|]. intros p Hq. unfold shaped. cbn. destruct (String.eqb p path); [eexists; split; [reflexivity|exact Es]|apply B; exact Hq].
  - intros a j i. unfold val, upd. cbn. rewrite String.eqb_refl. cbn. rewrite E. reflexivity.
  - intros p Hq. unfold val. cbn. destruct (String.eqb p path) eqn:Q; [apply String.eqb_eq in Q; contradiction|reflexivity].
Qed.
Lemma upd_upd lo hi data v a j i : upd lo hi data (upd lo hi data v) a j i = upd lo hi data v a j i.
Proof. unfold upd. destruct (_ && _)%bool; reflexivity. Qed.

Section Slices.
Context (fts : list string) (sh : Z * Z * Z) (f1 f0 : file) (data : string -> Z -> Z -> Z -> R) (lo hi : Z).
Hypothesis V : forall ft, In ft fts -> field_valid ft.
Let flushed (f : file) (p : string) : Prop := forall a j i, val f p a j i = upd lo hi (data (qof p)) (val f0 p) a j i.
Let Inv (f : file) : Prop := slab (comps_of fts) sh f1 f /\ forall p, (forall a j i, val f p a j i = val f0 p a j i) \/ (In p (comps_of fts) /\ flushed f p).
Lemma slice_step2 f path : Inv f -> In path (comps_of fts) ->
  exists f', write_field_slices (data (qof path)) path lo hi f = Ok f' /\ Inv f' /\ flushed f' path /\ forall p, flushed f p -> flushed f' p.
Proof.
  intros (A & B) Hp. destruct (slice_step (comps_of fts) sh f1 f (data (qof path)) path lo hi A Hp) as (f' & E & S & U & O).
  assert (F : flushed f' path).
  { intros a j i. rewrite U. destruct (B path) as [Q|[_ Q]]; [unfold upd; rewrite Q; reflexivity|].
    transitivity (upd lo hi (data (qof path)) (upd lo hi (data (qof path)) (val f0 path)) a j i); [unfold upd at 1 2; rewrite (Q a j i); reflexivity|apply upd_upd]. }
  exists f'. split; [exact E|]. split; [|split; [exact F|]].
  - split; [exact S|]. intros p. destruct (String.eqb_spec p path) as [->|N]; [right; split; [exact Hp|exact F]|].
    destruct (B p) as [Q|[I Q]]; [left; intros; rewrite (O p N); apply Q|right; split; [exact I|]]. intros a j i. rewrite (O p N). apply Q.
  - intros p Q. destruct (String.eqb_spec p path) as [->|N]; [exact F|]. intros a j i. rewrite (O p N). apply Q.
Qed.
Lemma write_slices_ok f : slab (comps_of fts) sh f1 f -> f = f0 ->
  exists f', write_slices fts data lo hi f = Ok f' /\ slab (comps_of fts) sh f1 f' /\ 
    (forall p, In p (comps_of fts) -> flushed f' p) /\ (forall p, ~ In p (comps_of fts) -> forall a j i, val f' p a j i = val f0 p a j i).
Proof.
  intros HS0 ->. unfold write_slices.
  assert (AL : forall ft p, In ft fts -> In p (comps ft) -> In p (comps_of fts)) by (intros ft p Hft Hp; apply comps_of_comps; [exact V|]; exists ft; auto).
  match goal with |- context[foldM ?g fts f0] => destruct (foldM_inv g Inv (fun ft f => forall p, In p (comps ft) -> flushed f p) fts f0) as (f' & E & I' & Q & _) end.
  - split; [exact HS0|]. intros p. left. reflexivity.
  - intros ft f Hft Hf. pose proof (V ft Hft) as Vf. destruct (String.eqb ft "rho") eqn:QR.
    + apply String.eqb_eq in QR. subst ft. destruct (slice_step2 f "rho"%string Hf) as (f' & E & A & B & K); [apply (AL "rho"%string); [exact Hft|left; reflexivity]|].
      exists f'. split; [exact E|]. split; [exact A|]. split; [intros p [<-|[]]; exact B|]. intros b Hb p Hp. apply K, Hb, Hp.
    + assert (VE : ft = "E"%string \/ ft = "B"%string \/ ft = "J"%string).
      { unfold field_valid in Vf. cbn [In] in Vf. destruct Vf as [<-|[<-|[<-|[<-|[]]]]]; auto; discriminate. }
      assert (VI : isin ft ["E"; "B"; "J"]%string = true) by (destruct VE as [->|[->| ->]]; reflexivity). rewrite VI.
      assert (CE : comps ft = map (fun c => ft ++ "/" ++ c)%string coords) by (destruct VE as [->|[->| ->]]; reflexivity).
      assert (QE : forall co, In co coords -> qof (ft ++ "/" ++ co) = (ft ++ co)%string) by (intros co Hco; unfold coords in Hco; cbn [In] in Hco; destruct VE as [->|[->| ->]]; destruct Hco as [<-|[<-|[<-|[]]]]; reflexivity).
      assert (ST : forall co f, In co coords -> Inv f -> exists f', write_field_slices (data (ft ++ co)%string) (ft ++ "/" ++ co)%string lo hi f = Ok f' /\ Inv f' /\ flushed f' (ft ++ "/" ++ co)%string /\ forall p, flushed f p -> flushed f' p).
      { intros co fa Hco Ha. rewrite <- (QE co Hco). apply slice_step2; [exact Ha|]. apply (AL ft); [exact Hft|]. rewrite CE. apply in_map_iff. exists co; auto. }
      match goal with |- context[foldM ?g coords f] => destruct (foldM_inv g Inv (fun co f => flushed f (ft ++ "/" ++ co)%string) coords f Hf) as (f' & F1 & F2 & F3 & _) end.
      { intros co fa Hco Ha. destruct (ST co fa Hco Ha) as (f' & A & B & D & K). exists f'. split; [exact A|]. split; [exact B|]. split; [exact D|]. intros b. apply K. }
      exists f'. split; [exact F1|]. split; [exact F2|]. split.
      * intros p Hp. rewrite CE in Hp. apply in_map_iff in Hp as (co & <- & Hco). apply F3. exact Hco.
      * intros b Hb p Hp. refine (foldM_keep _ Inv (fun f => flushed f p) coords _ f f' Hf F1 (Hb p Hp)).
        intros co fa Hco Ha. destruct (ST co fa Hco Ha) as (fb & A & B & D & K). exists fb. split; [exact A|]. split; [exact B|]. apply K.
  - exists f'. destruct I' as (A & B). split; [exact E|]. split; [exact A|]. split.
    + intros p Hp. apply comps_of_comps in Hp as (ft & Hft & Hp); [|exact V]. apply (Q ft Hft p Hp).
    + intros p Hp. destruct (B p) as [X|[X _]]; [exact X|contradiction].
Qed.
End Slices.

Definition flushes_of (s : string) (l : list (Z * Z * (string -> Z -> Z -> Z -> R))) := map (fun '(lo, hi, data) => (lo, hi, data s)) l.
Lemma flush_all fts sh f1 : (forall ft, In ft fts -> field_valid ft) -> forall l f, slab (comps_of fts) sh f1 f ->
  exists f', foldM (fun f '(lo, hi, data) => write_slices fts data lo hi f) l f = Ok f' /\ slab (comps_of fts) sh f1 f' /\
   forall p a j i, In p (comps_of fts) -> val f' p a j i =
     fold_left (fun v '(lo, hi, data) => if (lo <=? i) && (i <? hi) then data a j (i - lo) else v)%bool (flushes_of (qof p) l) (val f p a j i).
Proof.
  intros V l. induction l as [|[[lo hi] data] l IH]; intros f HS; [exists f; split; [reflexivity|split; [exact HS|reflexivity]]|].
  destruct (write_slices_ok fts sh f1 f data lo hi V f HS eq_refl) as (f2 & E & S2 & U & _). cbn [foldM]. rewrite E. cbn [bind].
  destruct (IH f2 S2) as (f' & E' & S' & U'). exists f'. split; [exact E'|]. split; [exact S'|].
  intros p a j i Hp. rewrite (U' p a j i Hp), (U p Hp). reflexivity.
Qed.

Lemma lab_main Nm Nr g0 fts t_lab zmin_lab v_lab Nz dz_lab dt flushes : (forall ft, In ft fts -> field_valid ft) ->
  exists f0 f, lab_create Nm Nr g0 fts None t_lab zmin_lab v_lab Nz dz_lab dt = Ok f0 /\
    foldM (fun f '(lo, hi, data) => write_slices fts data lo hi f) flushes f0 = Ok f /\
    forall rec comp fn s, In rec fts -> In (rec, comp, fn) documented_fields -> In (fn, s) names ->
      pmd_time f rec = Some t_lab /\ (exists d, In (rec, d) dimension_of /\ pmd_dimension f rec d) /\
      forall z r theta x, pmd_read f rec comp z r theta x <-> exists j i, 0 <= j < Nr /\ 0 <= i < Nz /\
        z = (zmin_lab + v_lab * t_lab + (1/2 + IZR i) * dz_lab)%R /\ r = (g_rmin g0 + (1/2 + IZR j) * g_dr g0)%R /\
        x = at_angle Nm (fun p => stored (map (fun '(lo, hi, data) => (lo, hi, data s)) flushes) p j i) theta.
Proof.
  intros V. set (zm := (zmin_lab + v_lab * t_lab)%R). set (sh := (2 * Nm - 1, Nr, Nz)).
  set (start := setup_openpmd_meshes_group (setup_openpmd_file t_lab dt new_file)).
  destruct (create_ok Nm g0 dz_lab zm sh (fun _ => True) fts start) as (f1 & E1 & X1 & D1).
  { intros ft Hft. split; [apply field_valid_valid, V, Hft|]. split; [exact I|]. intros p Hp. split; [exact I|]. intros d Ed. discriminate Ed. }
  assert (S1 : slab (comps_of fts) sh f1 f1).
  { split; [reflexivity|]. intros p Hp. apply comps_of_comps in Hp as (ft & Hft & Hp); [|exact V]. apply (D1 ft Hft). exact Hp. }
  destruct (flush_all fts sh f1 V flushes f1 S1) as (f & E & (SA & SS) & U). exists f1, f. split; [exact E1|]. split; [exact E|].
  intros rec comp fn s Hr Hd Hn. pose proof (V rec Hr) as Vr.
  destruct (documented_comps rec comp fn Hd) as (Hc & s' & n & I1 & I2).
  assert (Hq : qof comp = s).
  { assert (Qs : qof comp = s'). { clear -I1. unfold paths in I1. cbn [In] in I1. destruct I1 as [Q|[Q|[Q|[Q|[Q|[Q|[Q|[Q|[Q|[Q|[]]]]]]]]]]]; injection Q as <- <- _; reflexivity. }
    rewrite Qs. clear -I1 Hn. unfold paths in I1. cbn [In] in I1. unfold names in Hn. cbn [In] in Hn.
    destruct I1 as [Q|[Q|[Q|[Q|[Q|[Q|[Q|[Q|[Q|[Q|[]]]]]]]]]]]; injection Q as _ <- <-;
    destruct Hn as [Q|[Q|[Q|[Q|[Q|[Q|[Q|[Q|[Q|[Q|[]]]]]]]]]]]; (discriminate Q || (injection Q as <-; reflexivity)). }
  destruct (D1 rec Hr) as (RR & RC). destruct (RC comp Hc) as (CC & _).
  destruct (proj2 (field_valid_valid rec Vr)) as (d & Ed). destruct X1 as [XA XD].
  assert (RF : has_rec Nm g0 dz_lab zm f rec) by (intros k v Hk; rewrite SA; apply RR; exact Hk).
  assert (CF : has_comp f comp) by (intros k v Hk; rewrite SA; apply CC; exact Hk).
  assert (Hin : In comp (comps_of fts)) by (apply comps_of_comps; [exact V|]; exists rec; auto).
  split; [|split].
  - unfold pmd_time. rewrite !SA.
    assert (T1 : attrs f1 Iteration "time"%string = Some (ANum t_lab)) by (destruct (XA Iteration "time"%string) as [Q|(p & _ & Q & _)]; [rewrite Q; reflexivity|discriminate]).
    assert (T2 : attrs f1 Iteration "timeUnitSI"%string = Some (ANum 1)) by (destruct (XA Iteration "timeUnitSI"%string) as [Q|(p & _ & Q & _)]; [rewrite Q; reflexivity|discriminate]).
    rewrite T1, T2, (RR "timeOffset"%string (ANum 0)); [f_equal; ring|]. unfold rec_attrs. rewrite Ed. cbn. auto.
  - exists d. split; [|unfold pmd_dimension; apply RF; unfold rec_attrs; rewrite Ed; cbn; auto].
    unfold field_valid in Vr. cbn [In] in Vr. destruct Vr as [<-|[<-|[<-|[<-|[]]]]]; vm_compute in Ed; injection Ed as <-; vm_compute; tauto.
  - intros z r theta x. destruct (SS comp Hin) as (dd & Edd & Hsh).
    rewrite (read_raw Nm g0 dz_lab zm Nr Nz f rec comp dd RF CF Edd Hsh).
    assert (VV : forall p j i, h_val dd p j i = stored (map (fun '(lo, hi, data) => (lo, hi, data s)) flushes) p j i).
    { intros p j i. transitivity (val f comp p j i); [unfold val; rewrite Edd; reflexivity|]. rewrite (U comp p j i Hin), Hq. unfold stored, flushes_of. f_equal.
      unfold val. destruct (XD comp) as [Q|(_ & _ & d' & Q & _ & Q0)]; rewrite Q; [reflexivity|apply Q0]. }
    assert (AA : forall j i, at_angle Nm (fun p => h_val dd p j i) theta = at_angle Nm (fun p => stored (map (fun '(lo, hi, data) => (lo, hi, data s)) flushes) p j i) theta).
    { intros j i. unfold at_angle. rewrite VV. f_equal. unfold rsum. f_equal. apply map_ext. intros m. rewrite !VV. reflexivity. }
    split; intros (j & i & H1 & H2 & H3 & H4 & ->); exists j, i; (split; [exact H1|]; split; [exact H2|]; split; [exact H3|]; split; [exact H4|]); [apply AA|symmetry; apply AA].
Qed.
