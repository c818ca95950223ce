(** C107: the input script in the output files. *)
From Coq Require Import ZArith Reals List String Ascii Lia.
From Coquelicot Require Import Complex.
From Verif Require Import Base Decomp_Model GGrid_Model Pdiag_Model Pmd_Model Pmd_Spec Script_Model Script_Spec Script_Proofs.
Import ListNotations.

(** A script in ASCII whose name ends with .py, run as `python script.py ...`: each file that is written has the text of the script and the parameters as attributes;
    nothing else changes in the file, and a reader finds the same fields. Missing: other scripts (refuted below). *)
Theorem C107_saved_partial : forall fs script args text params old, py_name script -> fs script = Some text -> plain text ->
  NoDup (map fst (params_of params)) -> (forall k v, In (k, v) (params_of params) -> exists a, stands_for v a) -> ~ In "inputScript"%string (map fst (params_of params)) ->
  exists d f, script_init fs (script :: args) params = Ok d /\ script_write_hdf5 d old = Ok (Some f) /\
  attrs f Root "inputScript"%string = Some (AStr text) /\
  (forall k v, In (k, v) (params_of params) -> exists a, stands_for v a /\ attrs f Root k = Some a) /\
  dsets f = dsets (opened old) /\
  (forall o k, ~ (o = Root /\ In k ("inputScript"%string :: map fst (params_of params))) -> attrs f o k = attrs (opened old) o k) /\
  (forall rec comp z r theta x, pmd_read f rec comp z r theta x <-> pmd_read (opened old) rec comp z r theta x).
Proof.
  intros fs script args text params old P T A N H K. exists (mkScript (Some text) params).
  destruct (write_ok (mkScript (Some text) params) old text _ eq_refl eq_refl A N H) as (f & E & S & Q & D & R). exists f.
  split; [unfold script_init, _get_input_script; cbn [filter]; rewrite (py_contains _ P), T; reflexivity|]. split; [exact E|]. split; [exact (S K)|]. split; [exact Q|].
  split; [exact D|]. split; [exact R|]. apply read_same; [exact D|]. intros p k. apply R. intros [F _]. discriminate F.
Qed.
Print Assumptions C107_saved_partial.
Example C107_met : py_name "lwfa.py" /\ plain "sim.step(100)" /\ NoDup (map fst (params_of (Some [("a0"%string, VNum 4%R); ("runName"%string, VStr "test")]))) /\
  (forall k v, In (k, v) [("a0"%string, VNum 4%R); ("runName"%string, VStr "test")] -> exists a, stands_for v a).
Proof.
  assert (P : forall s, forallb is_ascii (list_ascii_of_string s) = true -> plain s).
  { intros s E c Hc. rewrite forallb_forall in E. apply PeanoNat.Nat.ltb_lt, E, Hc. }
  split; [exists "lwfa"%string; reflexivity|]. split; [apply P; reflexivity|]. split.
  - repeat constructor; cbn; intros I; repeat destruct I as [I|I]; try discriminate I; exact I.
  - intros k v [E|[E|[]]]; injection E as <- <-; eexists; constructor. apply P. reflexivity.
Qed.

(** The field and density diagnostics that write in the same file afterwards keep the script and the parameters. *)
Theorem C107_kept : forall f k f', ~ In k openpmd_keys ->
  (exists dom Nm dt G pml fts it, field_write_hdf5 dom Nm dt G pml fts it (Some f) = Ok f') \/
  (exists c q Nm dt G rho sp it, density_write_hdf5 c q Nm dt G rho sp it (Some f) = Ok f') ->
  attrs f' Root k = attrs f Root k.
Proof.
  intros f k f' N [(dom & Nm & dt & G & pml & fts & it & E)|(c & q & Nm & dt & G & rho & sp & it & E)].
  - exact (keep_field k (attrs f Root k) _ _ _ _ _ _ _ (Some f) f' N eq_refl E).
  - exact (keep_density k (attrs f Root k) _ _ _ _ _ _ _ _ (Some f) f' N eq_refl E).
Qed.
Print Assumptions C107_kept.
Example C107_kept_met : ~ In "inputScript"%string openpmd_keys.
Proof. cbn. intros I. repeat destruct I as [I|I]; try discriminate I. exact I. Qed.

(** Without Python file on the command line (interactive use) nothing is written. *)
Theorem C107_interactive : forall fs args params, (forall a, In a args -> contains ".py" a = false) ->
  exists d, script_init fs args params = Ok d /\ forall old, script_write_hdf5 d old = Ok old.
Proof.
  intros fs args params H. exists (mkScript None params). split; [|reflexivity]. unfold script_init, _get_input_script.
  replace (filter (contains ".py") args) with (@nil string); [reflexivity|]. symmetry. induction args as [|a args IH]; [reflexivity|]. cbn [filter].
  rewrite (H a (or_introl eq_refl)). apply IH. intros b I. apply H. right. exact I.
Qed.
Print Assumptions C107_interactive.

(** One accent or Greek letter in the script, even in a comment, stops the run at the first output. *)
Theorem C107_unicode_refuted : forall fs script args text params, py_name script -> fs script = Some text -> ~ plain text ->
  exists d, script_init fs (script :: args) params = Ok d /\ forall old, script_write_hdf5 d old = Err ValueError.
Proof.
  intros fs script args text params P T A. exists (mkScript (Some text) params). split.
  - unfold script_init, _get_input_script. cbn [filter]. rewrite (py_contains _ P), T. reflexivity.
  - intros old. unfold script_write_hdf5. cbn [input_script]. rewrite (not_plain_np text A). reflexivity.
Qed.
Print Assumptions C107_unicode_refuted.
(** # waist of 5 (mu)m *)
Example C107_unicode_met : ~ plain ("# waist of 5 " ++ String (ascii_of_nat 181) "m").
Proof. intros H. specialize (H (ascii_of_nat 181)). cut (181 < 128)%nat; [lia|]. apply H. vm_compute. tauto. Qed.

(** So does a list of strings among the parameters. *)
Theorem C107_strings_refuted : forall text params old k s, plain text -> In (k, VStrs s) params ->
  (forall k v, In (k, v) params -> (exists a, stands_for v a) \/ exists s, v = VStrs s) -> script_write_hdf5 (mkScript (Some text) (Some params)) old = Err TypeError.
Proof.
  intros text params old k s A I H. unfold script_write_hdf5. cbn [input_script param_dict]. rewrite (plain_np text A). cbn [bind]. fold put.
  rewrite (put_strings params _ k s I H). reflexivity.
Qed.
Print Assumptions C107_strings_refuted.

(** The saved text may be that of another file: the only Python file of the command line is not saved. *)
Theorem C107_which_refuted : exists fs args script text t, In script args /\ py_name script /\ fs script = Some text /\
  (forall a, In a args -> a <> script -> endswith ".py" a = false) /\ script_init fs args None = Ok (mkScript (Some t) None) /\ t <> text.
Proof.
  exists (fun p => if String.eqb p "lwfa.py" then Some "sim.step(100)"%string else Some "launcher"%string), ["/home/me/.pyenv/bin/run"; "lwfa.py"]%string,
    "lwfa.py"%string, "sim.step(100)"%string, "launcher"%string.
  split; [right; left; reflexivity|]. split; [exists "lwfa"%string; reflexivity|]. split; [reflexivity|]. split.
  - intros a [<-|[<-|[]]] N; [reflexivity|exfalso; apply N; reflexivity].
  - split; [reflexivity|discriminate].
Qed.
Print Assumptions C107_which_refuted.

(** At an iteration at which no other diagnostic writes, the diagnostic leaves a file that is not an openPMD file. *)
Theorem C107_alone_refuted : forall text params, plain text -> NoDup (map fst params) -> (forall k v, In (k, v) params -> exists a, stands_for v a) ->
  ~ In "openPMD"%string (map fst params) ->
  exists f, script_write_hdf5 (mkScript (Some text) (Some params)) None = Ok (Some f) /\ attrs f Root "openPMD"%string = None /\ attrs f Iteration "time"%string = None.
Proof.
  intros text params A N H K. destruct (write_ok (mkScript (Some text) (Some params)) None text params eq_refl eq_refl A N H) as (f & E & _ & _ & _ & R).
  exists f. split; [exact E|]. split.
  - rewrite R; [reflexivity|]. intros [_ [I|I]]; [discriminate I|exact (K I)].
  - rewrite R; [reflexivity|]. intros [I _]. discriminate I.
Qed.
Print Assumptions C107_alone_refuted.
