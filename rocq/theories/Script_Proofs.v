From Coq Require Import ZArith Reals List String Ascii Lia.
From Coquelicot Require Import Complex.
From Verif Require Import Base Decomp_Model GGrid_Model Pdiag_Model Pmd_Model Pmd_Spec Pmd_Proofs Script_Model Script_Spec.
Import ListNotations.

Lemma index_app sub : forall a, exists n, index 0 sub (a ++ sub) = Some n.
Proof.
  induction a as [|c a [n IH]].
  - exists 0%nat. destruct sub as [|d sub]; [reflexivity|]. cbn [append index]. rewrite (proj2 (prefix_correct (String d sub) (String d sub))); [reflexivity|].
    cbn. f_equal. clear. induction sub as [|e s IH]; [reflexivity|]. cbn. f_equal. exact IH.
  - cbn [append index]. destruct (prefix sub (String c (a ++ sub))) eqn:P.
    + exists 0%nat. destruct sub; reflexivity.
    + rewrite IH. exists (S n). reflexivity.
Qed.
Lemma py_contains s : py_name s -> contains ".py" s = true.
Proof. intros [a ->]. unfold contains. destruct (index_app ".py" a) as [n ->]. reflexivity. Qed.
Lemma plain_np s : plain s -> np_string s = Ok (AStr s).
Proof.
  intros H. unfold np_string. replace (forallb is_ascii (list_ascii_of_string s)) with true; [reflexivity|]. symmetry. apply forallb_forall.
  intros c Hc. apply Nat.ltb_lt, H, Hc.
Qed.
Lemma not_plain_np s : ~ plain s -> np_string s = Err ValueError.
Proof.
  intros H. unfold np_string. destruct (forallb is_ascii (list_ascii_of_string s)) eqn:E; [|reflexivity]. exfalso. apply H. intros c Hc.
  rewrite forallb_forall in E. apply Nat.ltb_lt, E, Hc.
Qed.
Lemma attr_stands v a : stands_for v a -> attr_of v = Ok a.
Proof. intros [s P|x|l]; cbn [attr_of]; [apply plain_np, P|reflexivity|reflexivity]. Qed.
Definition put := fun f (kv : string * value) => bind (attr_of (snd kv)) (fun a => Ok (set_attr Root f (fst kv, a))).
Lemma put_all : forall l f, NoDup (map fst l) -> (forall k v, In (k, v) l -> exists a, stands_for v a) ->
  exists f', foldM put l f = Ok f' /\ dsets f' = dsets f /\ (forall k v, In (k, v) l -> exists a, stands_for v a /\ attrs f' Root k = Some a) /\
  forall o k, ~ (o = Root /\ In k (map fst l)) -> attrs f' o k = attrs f o k.
Proof.
  induction l as [|[k0 v0] l IH]; intros f N H; cbn [foldM].
  - exists f. split; [reflexivity|]. split; [reflexivity|]. split; [intros k v []|reflexivity].
  - destruct (H k0 v0 (or_introl eq_refl)) as [a0 S0]. unfold put at 1. cbn [fst snd]. rewrite (attr_stands v0 a0 S0). cbn [bind].
    cbn [map fst] in N. inversion N as [|? ? N0 N1]; subst.
    destruct (IH (set_attr Root f (k0, a0)) N1) as (f' & E & D & A & R); [intros k v I; apply (H k v); right; exact I|].
    exists f'. split; [exact E|]. split; [exact D|]. split.
    + intros k v [I|I]; [injection I as <- <-|apply A, I]. exists a0. split; [exact S0|]. rewrite R; [|intros [_ I]; exact (N0 I)].
      rewrite set_attr_get. cbn [obj_eqb fst snd]. rewrite String.eqb_refl. reflexivity.
    + intros o k Hk. rewrite R; [|intros [-> I]; apply Hk; split; [reflexivity|right; exact I]]. rewrite set_attr_get. cbn [fst snd].
      destruct (obj_eqb o Root && String.eqb k k0)%bool eqn:B; [|reflexivity]. exfalso. apply andb_prop in B. destruct B as [B1 B2].
      apply obj_eqb_eq in B1. apply String.eqb_eq in B2. apply Hk. split; [exact B1|left; symmetry; exact B2].
Qed.
Lemma put_strings : forall l f k s, In (k, VStrs s) l -> (forall k v, In (k, v) l -> (exists a, stands_for v a) \/ exists s, v = VStrs s) -> foldM put l f = Err TypeError.
Proof.
  induction l as [|[k0 v0] l IH]; intros f k s I H; [destruct I|]. cbn [foldM]. unfold put at 1. cbn [fst snd].
  destruct (H k0 v0 (or_introl eq_refl)) as [[a S0]|[s0 ->]]; [|reflexivity]. rewrite (attr_stands _ _ S0). cbn [bind]. apply (IH _ k s).
  - destruct I as [I|I]; [|exact I]. injection I as -> ->. inversion S0.
  - intros k' v' I'. apply (H k' v'). right. exact I'.
Qed.
Lemma write_ok d old text l : input_script d = Some text -> params_of (param_dict d) = l -> plain text -> NoDup (map fst l) -> (forall k v, In (k, v) l -> exists a, stands_for v a) ->
  exists f, script_write_hdf5 d old = Ok (Some f) /\ (~ In "inputScript"%string (map fst l) -> attrs f Root "inputScript"%string = Some (AStr text)) /\
  (forall k v, In (k, v) l -> exists a, stands_for v a /\ attrs f Root k = Some a) /\ dsets f = dsets (opened old) /\
  forall o k, ~ (o = Root /\ In k ("inputScript"%string :: map fst l)) -> attrs f o k = attrs (opened old) o k.
Proof.
  intros T P A N H. unfold script_write_hdf5. rewrite T, (plain_np text A). cbn [bind]. fold (opened old).
  destruct (put_all l (set_attr Root (opened old) ("inputScript"%string, AStr text)) N H) as (f & E & D & Q & R).
  exists f. split; [|split; [|split; [exact Q|split; [exact D|]]]].
  - destruct (param_dict d) as [l'|]; cbn [params_of] in P; subst l.
    + fold put. rewrite E. reflexivity.
    + cbn [foldM] in E. injection E as <-. reflexivity.
  - intros K. rewrite R; [reflexivity|intros [_ I]; exact (K I)].
  - intros o k K. rewrite R; [|intros [-> I]; apply K; split; [reflexivity|right; exact I]]. rewrite set_attr_get. cbn [fst snd].
    destruct (obj_eqb o Root && String.eqb k "inputScript")%bool eqn:B; [|reflexivity]. exfalso. apply andb_prop in B. destruct B as [B1 B2].
    apply obj_eqb_eq in B1. apply String.eqb_eq in B2. apply K. split; [exact B1|left; symmetry; exact B2].
Qed.
Lemma read_same f f' : dsets f' = dsets f -> (forall p k, attrs f' (Path p) k = attrs f (Path p) k) -> forall rec comp z r th x, pmd_read f' rec comp z r th x <-> pmd_read f rec comp z r th x.
Proof. intros D A rec comp z r th x. unfold pmd_read. rewrite D. setoid_rewrite A. reflexivity. Qed.

(** The field diagnostic keeps the other attributes of the root. *)
Lemma foldM_pres {A S} (g : S -> A -> res S) (I : S -> Prop) : (forall s a s', g s a = Ok s' -> I s -> I s') -> forall l s s', foldM g l s = Ok s' -> I s -> I s'.
Proof.
  intros H. induction l as [|a l IH]; intros s s' E Is; cbn [foldM] in E; [injection E as <-; exact Is|].
  destruct (g s a) as [s1|e] eqn:G; cbn [bind] in E; [|discriminate E]. apply (IH s1 s' E). apply (H s a s1 G Is).
Qed.
Section Keep.
Context (k : string) (v : option attr).
Definition keeps (f : file) : Prop := attrs f Root k = v.
Lemma keep_path p l f : keeps f -> keeps (set_attrs (Path p) l f).
Proof. unfold keeps. intros <-. unfold set_attrs. revert f. induction l as [|a l IH]; intros f; [reflexivity|]. cbn [fold_left]. rewrite IH. reflexivity. Qed.
Lemma keep_other o l f : o <> Root -> keeps f -> keeps (set_attrs o l f).
Proof.
  unfold keeps. intros N <-. unfold set_attrs. revert f. induction l as [|a l IH]; intros f; [reflexivity|]. cbn [fold_left]. rewrite IH, set_attr_get.
  destruct (obj_eqb Root o) eqn:E; [exfalso; apply N; symmetry; apply obj_eqb_eq, E|reflexivity].
Qed.
Lemma keep_root l f : ~ In k (map fst l) -> keeps f -> keeps (set_attrs Root l f).
Proof.
  unfold keeps. intros N <-. unfold set_attrs. revert f N. induction l as [|a l IH]; intros f N; [reflexivity|]. cbn [fold_left]. rewrite IH, set_attr_get.
  - cbn [obj_eqb]. destruct (String.eqb k (fst a)) eqn:E; [exfalso; apply N; left; symmetry; apply String.eqb_eq, E|reflexivity].
  - intros I. apply N. right. exact I.
Qed.
Lemma keep_require p sh f f' : require_dataset p sh f = Ok f' -> keeps f -> keeps f'.
Proof. unfold require_dataset. destruct (dsets f p) as [d|]; [destruct (shape_eqb _ _); [|discriminate]|]; intros E K; injection E as <-; exact K. Qed.
Lemma keep_record Nm g0 p q dz zm f f' : setup_openpmd_mesh_record Nm g0 (Path p) q dz zm f = Ok f' -> keeps f -> keeps f'.
Proof.
  unfold setup_openpmd_mesh_record, Pmd_Model.setup_openpmd_record. destruct (Pdiag_Model.setup_openpmd_record q) as [d|e]; cbn [bind]; [|discriminate].
  intros E K. injection E as <-. exact K.
Qed.
Lemma keep_create Nm g0 fts old time Nr Nz zm dz dt f' : ~ In k openpmd_keys -> keeps (opened old) ->
  create_file_empty_meshes Nm g0 fts old time Nr Nz zm dz dt = Ok f' -> keeps f'.
Proof.
  intros N K E. unfold create_file_empty_meshes in E. refine (foldM_pres _ keeps _ _ _ _ E _); clear E.
  - intros f ft f2 E Kf. destruct (prefix "rho" ft || endswith "_pml" ft)%bool.
    + destruct (require_dataset _ _ _) as [f1|e] eqn:R; cbn [bind] in E; [|discriminate E]. apply (keep_record _ _ _ _ _ _ _ _ E).
      unfold setup_openpmd_mesh_component, setup_openpmd_component. apply keep_path, keep_path. apply (keep_require _ _ _ _ R Kf).
    + destruct (isin ft _); [|discriminate E]. destruct (foldM _ coords f) as [f1|e] eqn:R; cbn [bind] in E; [|discriminate E]. apply (keep_record _ _ _ _ _ _ _ _ E).
      refine (foldM_pres _ keeps _ _ _ _ R Kf). intros s c s' E2 Ks. destruct (require_dataset _ _ s) as [s1|e] eqn:R2; cbn [bind] in E2; [|discriminate E2]. injection E2 as <-.
      unfold setup_openpmd_mesh_component, setup_openpmd_component. apply keep_path, keep_path. apply (keep_require _ _ _ _ R2 Ks).
  - unfold setup_openpmd_meshes_group. apply keep_other; [discriminate|]. unfold setup_openpmd_file. apply keep_other; [discriminate|]. apply keep_root; [exact N|exact K].
Qed.
Lemma keep_write dom Nm G pml p q f f' : write_dataset dom Nm G pml p q f = Ok f' -> keeps f -> keeps f'.
Proof.
  unfold write_dataset. destruct (dsets f p) as [d|]; [|discriminate]. destruct (mapM _ _) as [l|e]; cbn [bind]; [|discriminate]. intros E K. injection E as <-. exact K.
Qed.
Lemma keep_field dom Nm dt G pml fts it old f' : ~ In k openpmd_keys -> keeps (opened old) -> field_write_hdf5 dom Nm dt G pml fts it old = Ok f' -> keeps f'.
Proof.
  intros N K E. unfold field_write_hdf5 in E. destruct (extent dom (G 0%Z 0%Z)) as [[[zm Nz] Nr]|e]; cbn [bind] in E; [|discriminate E].
  destruct (create_file_empty_meshes _ _ _ _ _ _ _ _ _ _) as [f1|e] eqn:C; cbn [bind] in E; [|discriminate E].
  refine (foldM_pres _ keeps _ _ _ _ E (keep_create _ _ _ _ _ _ _ _ _ _ _ N K C)).
  intros s ft s' E2 Ks. destruct (String.eqb ft "rho"); [apply (keep_write _ _ _ _ _ _ _ _ E2 Ks)|]. destruct (isin ft _).
  - refine (foldM_pres _ keeps _ _ _ _ E2 Ks). intros a c a' E3 Ka. apply (keep_write _ _ _ _ _ _ _ _ E3 Ka).
  - destruct (endswith "_pml" ft); [apply (keep_write _ _ _ _ _ _ _ _ E2 Ks)|discriminate E2].
Qed.
Lemma keep_density c q Nm dt G rho sp it old f' : ~ In k openpmd_keys -> keeps (opened old) -> density_write_hdf5 c q Nm dt G rho sp it old = Ok f' -> keeps f'.
Proof.
  intros N K E. unfold density_write_hdf5 in E. destruct (extent _ (G 0%Z 0%Z)) as [[[zm Nz] Nr]|e]; cbn [bind] in E; [|discriminate E].
  destruct (create_file_empty_meshes _ _ _ _ _ _ _ _ _ _) as [f1|e] eqn:C; cbn [bind] in E; [|discriminate E].
  refine (foldM_pres _ keeps _ _ _ _ E (keep_create _ _ _ _ _ _ _ _ _ _ _ N K C)). intros s x s' E2 Ks. apply (keep_write _ _ _ _ _ _ _ _ E2 Ks).
Qed.
End Keep.
