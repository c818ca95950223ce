(** Proofs on the place of the data. *)
From Verif Require Import Base GData_Model GData_Spec.
From Coq Require Import String ZArith List Bool Lia.
Import ListNotations.
Open Scope string_scope.
Open Scope list_scope.

Fixpoint nodupb (l : list string) : bool := match l with [] => true | x :: l => negb (existsb (String.eqb x) l) && nodupb l end.
Lemma nodupb_ok : forall l, nodupb l = true -> NoDup l.
Proof.
  induction l as [|x l IH]; intros H; [constructor|]. cbn [nodupb] in H. apply andb_true_iff in H. destruct H as [H1 H2]. constructor; [|auto].
  intros Hin. apply negb_true_iff in H1. assert (existsb (String.eqb x) l = true); [|congruence]. apply existsb_exists. exists x. split; [exact Hin|apply String.eqb_refl].
Qed.

Section P.
Context {A : Type}.
Notation obj := (obj A). Notation species := (species A). Notation fields := (fields A). Notation sim := (sim A).

Lemma set_val : forall (o : obj) n a k, val a = val (o n) -> val (set o n a k) = val (o k).
Proof. intros o n a k H. unfold set. destruct (String.eqb_spec k n); [subst; exact H|reflexivity]. Qed.
Lemma send_spec : forall ns (o : obj) n, val (send_attrs ns o n) = val (o n) /\ (In n ns -> gpu (send_attrs ns o n) = true) /\
  (gpu (o n) = true -> gpu (send_attrs ns o n) = true) /\ (~ In n ns -> send_attrs ns o n = o n).
Proof.
  unfold send_attrs. induction ns as [|k ns IH]; intros o n; cbn [fold_left].
  - repeat split; auto; intros [].
  - destruct (IH (set o k (asarray (o k))) n) as (V & I1 & I2 & I3). split; [|split; [|split]].
    + rewrite V. apply set_val. reflexivity.
    + intros [->|Hin]; [|auto]. apply I2. unfold set. rewrite String.eqb_refl. reflexivity.
    + intros Hg. apply I2. unfold set. destruct (String.eqb_spec n k); [reflexivity|exact Hg].
    + intros Hn. rewrite I3 by (intros H; apply Hn; right; exact H). unfold set. destruct (String.eqb_spec n k); [|reflexivity]. subst. exfalso. apply Hn. left. reflexivity.
Qed.
Lemma receive_spec : forall ns (o : obj), NoDup ns -> (forall n, In n ns -> gpu (o n) = true) ->
  exists o', receive_attrs ns o = Ok o' /\ forall n, val (o' n) = val (o n) /\ (In n ns -> gpu (o' n) = false) /\ (~ In n ns -> o' n = o n).
Proof.
  induction ns as [|k ns IH]; intros o ND H; cbn [receive_attrs].
  - exists o. split; [reflexivity|]. intros n. repeat split; auto; intros [].
  - unfold GData_Model.get. rewrite (H k) by (left; reflexivity). cbn [bind]. inversion ND; subst.
    destruct (IH (set o k {| gpu := false; val := val (o k) |})) as (o' & E & S'); [assumption| |].
    { intros n Hn. unfold set. destruct (String.eqb_spec n k); [subst; contradiction|]. apply H. right. exact Hn. }
    exists o'. split; [exact E|]. intros n. destruct (S' n) as (V & I1 & I2). split; [|split].
    + rewrite V. apply set_val. reflexivity.
    + intros [->|Hin]; [|auto]. rewrite I2 by assumption. unfold set. rewrite String.eqb_refl. reflexivity.
    + intros Hn. rewrite I2 by (intros Hx; apply Hn; right; exact Hx). unfold set. destruct (String.eqb_spec n k); [|reflexivity]. subst. exfalso. apply Hn. left. reflexivity.
Qed.

(** The lists of the code are the arrays of the objects. *)
Lemma psend_iff : forall (s : species) n, In n (particles_send s) <-> species_array s n.
Proof.
  intros s n. unfold particles_send, species_array, tracker_send, ionizer_send. rewrite !in_app_iff.
  destruct (Z.ltb_spec 0 (sp_n_int s)), (sp_tracker s), (sp_ionizer s); cbn [In]; intuition (try congruence; try lia).
Qed.
Lemma precv_iff : forall (s : species) n, In n (particles_receive s) <-> species_array s n.
Proof. exact psend_iff. Qed.
Lemma precv_nodup : forall s : species, NoDup (particles_receive s).
Proof.
  intros s. unfold particles_receive. destruct (0 <? sp_n_int s)%Z, (sp_tracker s), (sp_ionizer s); apply nodupb_ok; vm_compute; reflexivity.
Qed.
Lemma isend_iff : forall (f : fields) n, In n (interp_send (f_pml f)) <-> interp_array f n.
Proof. intros f n. unfold interp_send, interp_array. rewrite in_app_iff. destruct (f_pml f); cbn [In]; intuition congruence. Qed.
Lemma irecv_iff : forall (f : fields) n, In n (interp_receive (f_pml f)) <-> interp_array f n.
Proof. exact isend_iff. Qed.
Lemma irecv_nodup : forall b, NoDup (interp_receive b).
Proof. intros []; apply nodupb_ok; vm_compute; reflexivity. Qed.
Lemma ssend_iff : forall (f : fields) n, In n (spect_send (f_pml f) (f_cross f)) <-> spect_array f n.
Proof. intros f n. unfold spect_send, spect_array. rewrite !in_app_iff. destruct (f_pml f), (f_cross f); cbn [In]; intuition congruence. Qed.
Lemma srecv_iff : forall (f : fields) n, In n (spect_receive (f_pml f) (f_cross f)) <-> spect_array f n.
Proof. intros f n. unfold spect_receive, spect_array. rewrite !in_app_iff. destruct (f_pml f), (f_cross f); cbn [In]; intuition congruence. Qed.
Lemma srecv_nodup : forall b c, NoDup (spect_receive b c).
Proof. intros [] []; apply nodupb_ok; vm_compute; reflexivity. Qed.

Lemma same_species_refl : forall s : species, same_species s s. Proof. intros s. repeat split. Qed.
Lemma same_species_sym : forall s t : species, same_species s t -> same_species t s.
Proof. intros s t (A1 & A2 & A3 & A4 & A5). repeat split; intros; symmetry; auto. Qed.
Lemma same_species_trans : forall s t u : species, same_species s t -> same_species t u -> same_species s u.
Proof. intros s t u (A1 & A2 & A3 & A4 & A5) (B1 & B2 & B3 & B4 & B5). repeat split; try congruence. Qed.
Lemma same_fields_refl : forall s : fields, same_fields s s. Proof. intros s. repeat split. Qed.
Lemma same_fields_trans : forall s t u : fields, same_fields s t -> same_fields t u -> same_fields s u.
Proof. intros s t u (A1 & A2 & A3 & A4 & A5) (B1 & B2 & B3 & B4 & B5). repeat split; try congruence; destruct (A5 m n), (B5 m n); congruence. Qed.

Lemma send_species : forall s : species, sp_cuda s = true -> species_at true (send_particles_to_gpu s) /\ same_species s (send_particles_to_gpu s).
Proof.
  intros s H. unfold send_particles_to_gpu. rewrite H. split; [split|]; cbn [with_arr sp_on_gpu sp_arr].
  - reflexivity.
  - intros n Hn. destruct (send_spec (particles_send s) (sp_arr s) n) as (_ & G & _). apply G. apply psend_iff. exact Hn.
  - repeat split; try reflexivity. intros n. destruct (send_spec (particles_send s) (sp_arr s) n) as (V & _). symmetry. exact V.
Qed.
Lemma receive_species : forall s : species, sp_cuda s = true -> species_at true s ->
  exists s', receive_particles_from_gpu s = Ok s' /\ species_at false s' /\ same_species s s'.
Proof.
  intros s H [_ Hg]. unfold receive_particles_from_gpu. rewrite H.
  destruct (receive_spec (particles_receive s) (sp_arr s) (precv_nodup s)) as (o & E & S'). { intros n Hn. apply Hg, precv_iff, Hn. }
  rewrite E. cbn [bind]. eexists. split; [reflexivity|]. split; [split; [reflexivity|]|].
  - intros n Hn. destruct (S' n) as (_ & G & _). apply G. apply precv_iff. exact Hn.
  - repeat split; try reflexivity. intros n. destruct (S' n) as (V & _). symmetry. exact V.
Qed.
Lemma receive_species_cpu : forall s : species, sp_cuda s = true -> species_at false s -> receive_particles_from_gpu s = Err AttributeError.
Proof.
  intros s H [_ Hg]. unfold receive_particles_from_gpu. rewrite H. unfold particles_receive. cbn [receive_attrs app].
  unfold GData_Model.get. rewrite (Hg "x") by (left; left; reflexivity). reflexivity.
Qed.

Lemma send_modes_spec : forall pml cross ms (i s : Z -> obj) k n,
  let is' := fold_left (fun is m => (set_mode (fst is) m (send_attrs (interp_send pml) (fst is m)),
         set_mode (snd is) m (send_attrs (spect_send pml cross) (snd is m)))) ms (i, s) in
  val (fst is' k n) = val (i k n) /\ val (snd is' k n) = val (s k n) /\
  (gpu (i k n) = true \/ (In k ms /\ In n (interp_send pml)) -> gpu (fst is' k n) = true) /\
  (gpu (s k n) = true \/ (In k ms /\ In n (spect_send pml cross)) -> gpu (snd is' k n) = true).
Proof.
  intros pml cross. induction ms as [|m ms IH]; intros i s k n; cbn [fold_left].
  - cbn [fst snd]. split; [reflexivity|]. split; [reflexivity|]. split; (intros [H|[[] _]]; exact H).
  - cbn [fst snd]. specialize (IH (set_mode i m (send_attrs (interp_send pml) (i m))) (set_mode s m (send_attrs (spect_send pml cross) (s m))) k n).
    cbv zeta in IH |- *. destruct IH as (V1 & V2 & G1 & G2). rewrite V1, V2. unfold set_mode in *.
    destruct (send_spec (interp_send pml) (i m) n) as (W1 & X1 & Y1 & _). destruct (send_spec (spect_send pml cross) (s m) n) as (W2 & X2 & Y2 & _).
    destruct (Z.eqb_spec k m).
    + subst k. split; [exact W1|]. split; [exact W2|]. split; intros [Hg|[_ Hn]]; [apply G1|apply G1|apply G2|apply G2]; left; auto.
    + split; [reflexivity|]. split; [reflexivity|]. split; (intros [Hg|[[Hk|Hk] Hn]]; [|congruence|]); [apply G1|apply G1|apply G2|apply G2]; tauto.
Qed.
Lemma send_fields : forall f : fields, f_cuda f = true -> fields_at true (send_fields_to_gpu f) /\ same_fields f (send_fields_to_gpu f).
Proof.
  intros f H. unfold send_fields_to_gpu. rewrite H.
  assert (S' := send_modes_spec (f_pml f) (f_cross f) (range (f_Nm f)) (f_interp f) (f_spect f)). cbv zeta in S'.
  destruct (fold_left _ _ _) as [i s]. cbn [fst snd] in S'. split; [split; [reflexivity|]|].
  - intros m Hm. cbn [with_grids f_interp f_spect f_Nm] in *. split; intros n Hn; destruct (S' m n) as (_ & _ & G1 & G2).
    + apply G1. right. split; [apply in_range; exact Hm|]. apply isend_iff. exact Hn.
    + apply G2. right. split; [apply in_range; exact Hm|]. apply ssend_iff. exact Hn.
  - repeat split; cbn [with_grids f_interp f_spect]; destruct (S' m n) as (V1 & V2 & _); congruence.
Qed.
Lemma receive_modes_spec : forall pml cross ms (i s : Z -> obj), NoDup ms ->
  (forall m, In m ms -> (forall n, In n (interp_receive pml) -> gpu (i m n) = true) /\ (forall n, In n (spect_receive pml cross) -> gpu (s m n) = true)) ->
  exists i' s', receive_modes pml cross ms i s = Ok (i', s') /\ forall k n, val (i' k n) = val (i k n) /\ val (s' k n) = val (s k n) /\
    (In k ms -> In n (interp_receive pml) -> gpu (i' k n) = false) /\ (In k ms -> In n (spect_receive pml cross) -> gpu (s' k n) = false) /\
    (~ In k ms -> i' k n = i k n /\ s' k n = s k n).
Proof.
  intros pml cross. induction ms as [|m ms IH]; intros i s ND H; cbn [receive_modes].
  - exists i, s. split; [reflexivity|]. intros k n. repeat split; intros [].
  - inversion ND; subst. destruct (H m (or_introl eq_refl)) as [Hi Hs].
    destruct (receive_spec _ (i m) (irecv_nodup pml) Hi) as (oi & Ei & Si). destruct (receive_spec _ (s m) (srecv_nodup pml cross) Hs) as (os & Es & Ss).
    rewrite Ei. cbn [bind]. rewrite Es. cbn [bind].
    destruct (IH (set_mode i m oi) (set_mode s m os)) as (i' & s' & E & S'); [assumption| |].
    { intros k Hk. unfold set_mode. destruct (Z.eqb_spec k m); [subst; contradiction|]. apply H. right. exact Hk. }
    exists i', s'. split; [exact E|]. intros k n. destruct (S' k n) as (V1 & V2 & G1 & G2 & U). unfold set_mode in *.
    destruct (Si n) as (Wi & Xi & _). destruct (Ss n) as (Ws & Xs & _). rewrite V1, V2. destruct (Z.eqb_spec k m).
    + subst k. destruct (U H2) as [U1 U2]. rewrite U1, U2. split; [exact Wi|]. split; [exact Ws|]. split; [auto|]. split; [auto|]. intros F; exfalso; apply F; left; reflexivity.
    + split; [reflexivity|]. split; [reflexivity|]. split; [intros [Hk|Hk]; [congruence|auto]|]. split; [intros [Hk|Hk]; [congruence|auto]|].
      intros Hk. apply U. intros F. apply Hk. right. exact F.
Qed.
Lemma receive_fields : forall f : fields, f_cuda f = true -> fields_at true f ->
  exists f', receive_fields_from_gpu f = Ok f' /\ fields_at false f' /\ same_fields f f'.
Proof.
  intros f H [_ Hg]. unfold receive_fields_from_gpu. rewrite H.
  destruct (receive_modes_spec (f_pml f) (f_cross f) (range (f_Nm f)) (f_interp f) (f_spect f)) as (i & s & E & S').
  - apply NoDup_range.
  - intros m Hm. apply in_range in Hm. destruct (Hg m Hm) as [Hi Hs]. split; intros n Hn; [apply Hi, irecv_iff, Hn|apply Hs, srecv_iff, Hn].
  - rewrite E. cbn [bind fst snd]. eexists. split; [reflexivity|]. split; [split; [reflexivity|]|].
    + intros m Hm. cbn [with_grids f_interp f_spect f_Nm] in *. split; intros n Hn; destruct (S' m n) as (_ & _ & G1 & G2 & _).
      * apply G1; [apply in_range; exact Hm|]. apply irecv_iff. exact Hn.
      * apply G2; [apply in_range; exact Hm|]. apply srecv_iff. exact Hn.
    + repeat split; cbn [with_grids f_interp f_spect]; destruct (S' m n) as (V1 & V2 & _); congruence.
Qed.
Lemma range_pos : forall n, (0 < n)%Z -> exists l, range n = 0%Z :: l.
Proof.
  intros n Hn. destruct (range n) as [|a l] eqn:E.
  - assert (H : In 0%Z (range n)) by (apply in_range; lia). rewrite E in H. destruct H.
  - unfold range in E. destruct (Z.to_nat n) eqn:En; [lia|]. cbn in E. injection E as <- <-. eexists. reflexivity.
Qed.
Lemma receive_fields_cpu : forall f : fields, f_cuda f = true -> fields_at false f -> (0 < f_Nm f)%Z -> receive_fields_from_gpu f = Err AttributeError.
Proof.
  intros f H [_ Hg] Hn. unfold receive_fields_from_gpu. rewrite H. destruct (range_pos _ Hn) as [l ->]. cbn [receive_modes].
  destruct (Hg 0%Z ltac:(lia)) as [Hi _]. unfold interp_receive. cbn [receive_attrs app]. unfold GData_Model.get. rewrite (Hi "Er") by (left; left; reflexivity). reflexivity.
Qed.

(** ** Simulation *)
Lemma send_list : forall p : list species, Forall (fun sp => sp_cuda sp = true) p ->
  Forall (species_at true) (map (fun sp => if sp_cuda sp then send_particles_to_gpu sp else sp) p) /\
  Forall2 same_species p (map (fun sp => if sp_cuda sp then send_particles_to_gpu sp else sp) p).
Proof.
  induction p as [|s p IH]; intros H; cbn [map]; [split; constructor|]. inversion H; subst. destruct (IH H3) as [I1 I2].
  rewrite H2. destruct (send_species s H2). split; constructor; assumption.
Qed.
Lemma mapM_receive : forall p : list species, Forall (fun sp => sp_cuda sp = true) p -> Forall (species_at true) p ->
  exists p', mapM (fun sp => if sp_cuda sp then receive_particles_from_gpu sp else Ok sp) p = Ok p' /\ Forall (species_at false) p' /\ Forall2 same_species p p'.
Proof.
  induction p as [|s p IH]; intros H H'; cbn [mapM]; [exists []; repeat constructor|]. inversion H; subst. inversion H'; subst.
  destruct (IH H3 H5) as (p' & E & I1 & I2). rewrite H2. destruct (receive_species s H2 H4) as (s' & Es & J1 & J2).
  rewrite Es. cbn [bind]. rewrite E. cbn [bind]. exists (s' :: p'). split; [reflexivity|]. split; constructor; assumption.
Qed.
Lemma send_all : forall s : sim, uses_cuda true s -> sim_at true (send_data_to_gpu s) /\ same_data s (send_data_to_gpu s).
Proof.
  intros s (H1 & H2 & H3). destruct (send_list (s_ptcl s) H2) as [A1 A2]. destruct (send_fields (s_fld s) H3) as [B1 B2].
  split; [split|split; [|split]]; try assumption. reflexivity.
Qed.
Lemma receive_all : forall s : sim, uses_cuda true s -> sim_at true s -> exists s', receive_data_from_gpu s = Ok s' /\ sim_at false s' /\ same_data s s'.
Proof.
  intros s (H1 & H2 & H3) [G1 G2]. unfold receive_data_from_gpu. destruct (mapM_receive _ H2 G1) as (p & Ep & A1 & A2).
  destruct (receive_fields _ H3 G2) as (f & Ef & B1 & B2). rewrite Ep. cbn [bind]. rewrite Ef. cbn [bind]. eexists. split; [reflexivity|].
  split; [split|split; [|split]]; try assumption. reflexivity.
Qed.
Theorem step_places : forall (body : sim -> res sim) s, uses_cuda true s ->
  exists s1, sim_at true s1 /\ same_data s s1 /\
  (forall s2, body s1 = Ok s2 -> uses_cuda true s2 -> sim_at true s2 -> exists s3, step body s = Ok s3 /\ sim_at false s3 /\ same_data s2 s3) /\
  (forall e, body s1 = Err e -> step body s = Err e).
Proof.
  intros body s H. destruct (send_all s H) as [A1 A2]. exists (send_data_to_gpu s). split; [exact A1|]. split; [exact A2|].
  unfold step. destruct H as (H1 & H2 & H3). rewrite H1. split.
  - intros s2 E U G. rewrite E. cbn [bind]. destruct U as (U1 & U2 & U3). rewrite U1. apply receive_all; [split; auto|exact G].
  - intros e E. rewrite E. reflexivity.
Qed.

(** ** Manager *)
Lemma for_send : forall (p : list species), Forall (fun sp => sp_cuda sp = true) p -> Forall (fun sp => species_at (sp_on_gpu sp) sp) p ->
  exists p', for_species (fun sp => Ok (send_particles_to_gpu sp)) (map sp_on_gpu p) p = Ok p' /\ Forall (species_at true) p' /\ Forall2 same_species p p'.
Proof.
  induction p as [|s p IH]; intros H K; cbn [for_species map]; [exists []; repeat constructor|]. inversion H; subst. inversion K; subst.
  destruct (IH H3 H5) as (p' & E & I1 & I2). destruct (sp_on_gpu s) eqn:Es; cbn [negb bind]; rewrite E; cbn [bind].
  - exists (s :: p'). split; [reflexivity|]. split; constructor; try assumption. apply same_species_refl.
  - destruct (send_species s H2). exists (send_particles_to_gpu s :: p'). split; [reflexivity|]. split; constructor; assumption.
Qed.
Lemma for_receive : forall (p0 p : list species), List.length p0 = List.length p -> Forall (fun sp => sp_cuda sp = true) p -> Forall (species_at true) p ->
  exists p', for_species receive_particles_from_gpu (map sp_on_gpu p0) p = Ok p' /\ Forall2 (fun s0 s' => species_at (sp_on_gpu s0) s') p0 p' /\ Forall2 same_species p p'.
Proof.
  induction p0 as [|s0 p0 IH]; intros [|s p] L H K; try discriminate; cbn [for_species map]; [exists []; repeat constructor|].
  inversion H; subst. inversion K; subst. injection L as L. destruct (IH p L H3 H5) as (p' & E & I1 & I2).
  destruct (sp_on_gpu s0) eqn:Es; cbn [negb bind].
  - rewrite E. cbn [bind]. exists (s :: p'). split; [reflexivity|]. split; constructor; try assumption. rewrite Es. assumption. apply same_species_refl.
  - destruct (receive_species s H2 H4) as (s' & Er & J1 & J2). rewrite Er. cbn [bind]. rewrite E. cbn [bind].
    exists (s' :: p'). split; [reflexivity|]. split; constructor; try assumption. rewrite Es. assumption.
Qed.
Lemma enter_places : forall s : sim, uses_cuda true s -> knows s -> exists s1, manager_enter (manager_init s) s = Ok s1 /\ sim_at true s1 /\ same_data s s1.
Proof.
  intros s (H1 & H2 & H3) [K1 K2]. unfold manager_enter, manager_init. rewrite H1. cbn [fields_were_on_gpu species_were_on_gpu].
  destruct (for_send _ H2 K1) as (p & E & A1 & A2). rewrite E. cbn [bind]. eexists. split; [reflexivity|].
  destruct (f_on_gpu (s_fld s)) eqn:Ef; cbn [negb].
  - split; split; try assumption; cbn; auto. split; [assumption|apply same_fields_refl].
  - destruct (send_fields _ H3). split; split; try assumption; cbn; auto.
Qed.
Lemma exit_places : forall s0 s : sim, uses_cuda true s -> sim_at true s -> List.length (s_ptcl s0) = List.length (s_ptcl s) ->
  exists s', manager_exit (manager_init s0) s = Ok s' /\ same_data s s' /\
    Forall2 (fun sp0 sp' => species_at (sp_on_gpu sp0) sp') (s_ptcl s0) (s_ptcl s') /\ fields_at (f_on_gpu (s_fld s0)) (s_fld s').
Proof.
  intros s0 s (H1 & H2 & H3) [G1 G2] L. unfold manager_exit, manager_init. rewrite H1. cbn [fields_were_on_gpu species_were_on_gpu].
  destruct (for_receive _ _ L H2 G1) as (p & E & A1 & A2). destruct (f_on_gpu (s_fld s0)) eqn:Ef; cbn [negb bind].
  - rewrite E. cbn [bind]. eexists. split; [reflexivity|]. split; [split; [reflexivity|]; split; [exact A2|apply same_fields_refl]|]. split; assumption.
  - destruct (receive_fields _ H3 G2) as (f & Er & B1 & B2). rewrite Er. cbn [bind]. rewrite E. cbn [bind].
    eexists. split; [reflexivity|]. split; [split; [reflexivity|]; split; assumption|]. split; assumption.
Qed.
Theorem manager_places : forall (body : sim -> sim * option exc) s, uses_cuda true s -> knows s ->
  exists s1, sim_at true s1 /\ same_data s s1 /\
  forall s2 e, body s1 = (s2, e) -> uses_cuda true s2 -> sim_at true s2 -> List.length (s_ptcl s2) = List.length (s_ptcl s) ->
  exists s3, with_manager body s = Ok (s3, e) /\ same_data s2 s3 /\
    Forall2 (fun sp0 sp' => species_at (sp_on_gpu sp0) sp') (s_ptcl s) (s_ptcl s3) /\ fields_at (f_on_gpu (s_fld s)) (s_fld s3).
Proof.
  intros body s U K. destruct (enter_places s U K) as (s1 & E & A1 & A2). exists s1. split; [exact A1|]. split; [exact A2|].
  intros s2 e Eb U2 G2 L. unfold with_manager. rewrite E. cbn [bind]. rewrite Eb. destruct (exit_places s s2 U2 G2 (eq_sym L)) as (s3 & E3 & B1 & B2).
  rewrite E3. cbn [bind]. exists s3. split; [reflexivity|]. split; assumption.
Qed.
Theorem step_in_manager : forall (body : sim -> res sim) s, uses_cuda true s -> sim_at false s ->
  (forall s1, sim_at true s1 -> same_data s s1 -> exists s2, body s1 = Ok s2 /\ uses_cuda true s2 /\ sim_at true s2 /\ (0 < f_Nm (s_fld s2))%Z) ->
  with_manager (fun s => match step body s with Ok s' => (s', None) | Err e => (s, Some e) end) s = Err AttributeError.
Proof.
  intros body s U G HB.
  assert (K : knows s). { destruct G as [G1 G2]. split; [|destruct G2 as [E ?]; rewrite E; split; assumption]. apply Forall_forall. intros sp Hsp. rewrite Forall_forall in G1. destruct (G1 sp Hsp) as [E ?]. rewrite E. split; assumption. }
  destruct (enter_places s U K) as (s1 & E & A1 & A2). unfold with_manager. rewrite E. cbn [bind].
  assert (U1 : uses_cuda true s1).
  { destruct U as (X1 & X2 & X3). destruct A2 as (Y1 & Y2 & Y3). split; [congruence|]. split; [|destruct Y3; congruence].
    clear -X2 Y2. induction Y2; [constructor|]. inversion X2; subst. constructor; [destruct H; congruence|auto]. }
  destruct (step_places body s1 U1) as (s1' & C1 & C2 & C3 & _).
  assert (D : same_data s s1').
  { destruct A2 as (Y1 & Y2 & Y3), C2 as (Z1 & Z2 & Z3). split; [congruence|]. split; [|eapply same_fields_trans; eauto].
    clear -Y2 Z2. revert Z2. generalize (s_ptcl s1'). induction Y2; intros l0 Hl; inversion Hl; subst; constructor; [eapply same_species_trans; eauto|auto]. }
  destruct (HB s1' C1 D) as (s2 & Eb & U2 & G2 & Hm). destruct (C3 s2 Eb U2 G2) as (s3 & Es & G3 & S3). rewrite Es.
  unfold manager_exit, manager_init. cbn [fields_were_on_gpu species_were_on_gpu]. destruct G as [_ [Gf _]]. rewrite Gf. cbn [negb].
  destruct S3 as (S31 & _ & (S32 & S33 & _)). destruct U2 as (U21 & _ & U22). rewrite <- S31, U21.
  rewrite receive_fields_cpu; [reflexivity|congruence|apply G3|rewrite <- S33; exact Hm].
Qed.
Theorem add_in_manager : forall (new : species) s, uses_cuda true s -> knows s ->
  with_manager (fun s => (with_data s (s_ptcl s ++ [new]) (s_fld s), None)) s = Err IndexError.
Proof.
  intros new s U K. destruct (enter_places s U K) as (s1 & E & A1 & A2). unfold with_manager. rewrite E. cbn [bind].
  unfold manager_exit, manager_init. cbn [fields_were_on_gpu species_were_on_gpu with_data s_cuda s_fld s_ptcl].
  destruct U as (X1 & X2 & X3). destruct A2 as (Y1 & Y2 & Y3). rewrite <- Y1, X1.
  assert (F : for_species receive_particles_from_gpu (map sp_on_gpu (s_ptcl s)) (s_ptcl s1 ++ [new]) = Err IndexError).
  { destruct A1 as [A1 _]. clear -X2 A1 Y2. revert A1. induction Y2; intros A1; cbn [app map for_species]; [reflexivity|].
    inversion A1; subst. inversion X2; subst. rewrite IHY2 by assumption. destruct (sp_on_gpu x); cbn [negb bind]; [reflexivity|].
    destruct H as [Hc _]. destruct (receive_species y) as (s' & -> & _); [congruence|assumption|]. reflexivity. }
  destruct (f_on_gpu (s_fld s)); cbn [negb bind]; [rewrite F; reflexivity|].
  destruct (receive_fields (s_fld s1)) as (f & -> & _); [destruct Y3; congruence|apply A1|]. cbn [bind]. rewrite F. reflexivity.
Qed.

(** ** Diagnostics *)
Lemma nth_update : forall (p : list species) i sp j, (i < List.length p)%nat -> nth_error (update_nth p i sp) j = if Nat.eqb j i then Some sp else nth_error p j.
Proof.
  induction p as [|x p IH]; intros i sp j H; [cbn in H; lia|]. destruct i as [|i], j as [|j]; cbn; try reflexivity. apply IH. cbn in H. lia.
Qed.
Lemma length_update : forall (p : list species) i sp, List.length (update_nth p i sp) = List.length p.
Proof. induction p as [|x p IH]; intros [|i] sp; cbn; auto. Qed.
Lemma diag_receive_spec : forall ixs (p : list species), NoDup ixs -> (forall i, In i ixs -> exists s, nth_error p i = Some s /\ sp_cuda s = true /\ species_at true s) ->
  exists p', diag_receive ixs p = Ok p' /\ List.length p' = List.length p /\
  (forall i, In i ixs -> exists s s', nth_error p i = Some s /\ nth_error p' i = Some s' /\ species_at false s' /\ same_species s s') /\
  (forall i, ~ In i ixs -> nth_error p' i = nth_error p i).
Proof.
  induction ixs as [|i ixs IH]; intros p ND H; cbn [diag_receive].
  - exists p. repeat split; auto; intros i [].
  - inversion ND; subst. destruct (H i (or_introl eq_refl)) as (s & E & Hc & Hg). rewrite E, Hc.
    destruct (receive_species s Hc Hg) as (s' & Er & G & SS). rewrite Er. cbn [bind].
    assert (Li : (i < List.length p)%nat) by (apply nth_error_Some; congruence).
    destruct (IH (update_nth p i s')) as (p' & E' & L & I1 & I2); [assumption| |].
    { intros j Hj. rewrite nth_update by assumption. destruct (Nat.eqb_spec j i); [subst; contradiction|]. apply H. right. exact Hj. }
    exists p'. split; [exact E'|]. split; [rewrite L; apply length_update|]. split.
    + intros j [->|Hj].
      * exists s, s'. rewrite I2, nth_update, Nat.eqb_refl by assumption. auto.
      * destruct (I1 j Hj) as (t & t' & T1 & T2 & T3 & T4). rewrite nth_update in T1 by assumption.
        destruct (Nat.eqb_spec j i); [subst; contradiction|]. exists t, t'. auto.
    + intros j Hj. rewrite I2 by (intros F; apply Hj; right; exact F). rewrite nth_update by assumption.
      destruct (Nat.eqb_spec j i); [subst; exfalso; apply Hj; left; reflexivity|reflexivity].
Qed.
Lemma diag_send_spec : forall ixs (p : list species), NoDup ixs -> (forall i, In i ixs -> exists s, nth_error p i = Some s /\ sp_cuda s = true) ->
  List.length (diag_send ixs p) = List.length p /\
  (forall i, In i ixs -> exists s s', nth_error p i = Some s /\ nth_error (diag_send ixs p) i = Some s' /\ species_at true s' /\ same_species s s') /\
  (forall i, ~ In i ixs -> nth_error (diag_send ixs p) i = nth_error p i).
Proof.
  induction ixs as [|i ixs IH]; intros p ND H; cbn [diag_send].
  - repeat split; auto; intros i [].
  - inversion ND; subst. destruct (H i (or_introl eq_refl)) as (s & E & Hc). rewrite E, Hc.
    destruct (send_species s Hc) as (G & SS). assert (Li : (i < List.length p)%nat) by (apply nth_error_Some; congruence).
    destruct (IH (update_nth p i (send_particles_to_gpu s))) as (L & I1 & I2); [assumption| |].
    { intros j Hj. rewrite nth_update by assumption. destruct (Nat.eqb_spec j i); [subst; contradiction|]. apply H. right. exact Hj. }
    split; [rewrite L; apply length_update|]. split.
    + intros j [->|Hj].
      * exists s, (send_particles_to_gpu s). rewrite I2, nth_update, Nat.eqb_refl by assumption. auto.
      * destruct (I1 j Hj) as (t & t' & T1 & T2 & T3 & T4). rewrite nth_update in T1 by assumption.
        destruct (Nat.eqb_spec j i); [subst; contradiction|]. exists t, t'. auto.
    + intros j Hj. rewrite I2 by (intros F; apply Hj; right; exact F). rewrite nth_update by assumption.
      destruct (Nat.eqb_spec j i); [subst; exfalso; apply Hj; left; reflexivity|reflexivity].
Qed.
Lemma Forall2_nth : forall (R : species -> species -> Prop) p p', List.length p' = List.length p ->
  (forall i s, nth_error p i = Some s -> exists s', nth_error p' i = Some s' /\ R s s') -> Forall2 R p p'.
Proof.
  intros R. induction p as [|s p IH]; intros [|s' p'] L H; try discriminate; constructor.
  - destruct (H 0%nat s eq_refl) as (t & [= <-] & Hr). exact Hr.
  - apply IH; [injection L; auto|]. intros i t Ht. exact (H (S i) t Ht).
Qed.
Theorem particle_diag_places : forall ixs (s : sim), uses_cuda true s -> sim_at true s -> NoDup ixs -> Forall (fun i => (i < List.length (s_ptcl s))%nat) ixs ->
  exists seen s', particle_diag_write ixs s = Ok (seen, s') /\
  Forall2 (fun i o => exists sp sp', nth_error (s_ptcl s) i = Some sp /\ o = Some sp' /\ species_at false sp' /\ same_species sp sp') ixs seen /\
  sim_at true s' /\ same_data s s'.
Proof.
  intros ixs s (U1 & U2 & U3) [G1 G2] ND V. rewrite Forall_forall in U2, G1, V.
  assert (H : forall i, In i ixs -> exists sp, nth_error (s_ptcl s) i = Some sp /\ sp_cuda sp = true /\ species_at true sp).
  { intros i Hi. specialize (V i Hi). apply nth_error_Some in V. destruct (nth_error (s_ptcl s) i) as [sp|] eqn:E; [|contradiction].
    exists sp. split; [reflexivity|]. apply nth_error_In in E. auto. }
  destruct (diag_receive_spec ixs (s_ptcl s) ND H) as (p & E & L & I1 & I2). unfold particle_diag_write. rewrite E. cbn [bind].
  destruct (diag_send_spec ixs p ND) as (L2 & J1 & J2).
  { intros i Hi. destruct (I1 i Hi) as (sp & sp' & T1 & T2 & T3 & T4). exists sp'. split; [exact T2|]. destruct (H i Hi) as (sp1 & T5 & T6 & _). destruct T4. congruence. }
  eexists _, _. split; [reflexivity|].
  assert (S' : forall i sp, nth_error (s_ptcl s) i = Some sp -> exists sp', nth_error (diag_send ixs p) i = Some sp' /\ same_species sp sp' /\ species_at true sp').
  { intros i sp Hsp. destruct (in_dec Nat.eq_dec i ixs) as [Hi|Hi].
    - destruct (I1 i Hi) as (t & t' & T1 & T2 & T3 & T4). destruct (J1 i Hi) as (u & u' & Q1 & Q2 & Q3 & Q4). exists u'. split; [exact Q2|]. split; [|exact Q3].
      assert (t = sp) by congruence. assert (u = t') by congruence. subst. eapply same_species_trans; eauto.
    - exists sp. rewrite J2, I2 by assumption. split; [exact Hsp|]. split; [apply same_species_refl|]. apply G1. eapply nth_error_In; eauto. }
  split.
  - assert (W : forall l, (forall i, In i l -> In i ixs) -> Forall2 (fun i o => exists sp sp', nth_error (s_ptcl s) i = Some sp /\ o = Some sp' /\ species_at false sp' /\ same_species sp sp') l (map (fun i => nth_error p i) l)).
    { induction l as [|i l IH]; intros Hl; constructor.
      - destruct (I1 i (Hl i (or_introl eq_refl))) as (t & t' & T1 & T2 & T3 & T4). exists t, t'. auto.
      - apply IH. intros j Hj. apply Hl. right. exact Hj. }
    apply W. auto.
  - split; [split; [|exact G2]|split; [reflexivity|split; [|apply same_fields_refl]]]; cbn [with_data s_ptcl].
    + apply Forall_forall. intros sp Hsp. apply In_nth_error in Hsp. destruct Hsp as [i Hi].
      destruct (nth_error (s_ptcl s) i) as [sp0|] eqn:E0.
      * destruct (S' i sp0 E0) as (sp' & T1 & _ & T2). congruence.
      * apply nth_error_None in E0. assert (i < List.length (diag_send ixs p))%nat by (apply nth_error_Some; congruence). lia.
    + apply Forall2_nth; [lia|]. intros i sp Hi. destruct (S' i sp Hi) as (sp' & T1 & T2 & _). eauto.
Qed.
(** A name on the list that has already been received. *)
Lemma diag_receive_bad : forall ixs (p : list species),
  (forall i, In i ixs -> exists s, nth_error p i = Some s /\ sp_cuda s = true /\ (species_at true s \/ species_at false s)) ->
  ~ NoDup ixs \/ (exists i s, In i ixs /\ nth_error p i = Some s /\ species_at false s) -> diag_receive ixs p = Err AttributeError.
Proof.
  induction ixs as [|i ixs IH]; intros p H B.
  - destruct B as [B|(i & s & [] & _)]. exfalso. apply B. constructor.
  - cbn [diag_receive]. destruct (H i (or_introl eq_refl)) as (s & E & Hc & [Hg|Hg]); rewrite E, Hc.
    2:{ rewrite receive_species_cpu by assumption. reflexivity. }
    destruct (receive_species s Hc Hg) as (s' & Er & G & SS). rewrite Er. cbn [bind].
    assert (Li : (i < List.length p)%nat) by (apply nth_error_Some; congruence). apply IH.
    + intros j Hj. rewrite nth_update by assumption. destruct (Nat.eqb_spec j i).
      * exists s'. split; [reflexivity|]. destruct SS as (S1 & _). split; [congruence|right; exact G].
      * apply H. right. exact Hj.
    + destruct (in_dec Nat.eq_dec i ixs) as [Hi|Hi].
      * right. exists i, s'. rewrite nth_update, Nat.eqb_refl by assumption. auto.
      * destruct B as [B|(j & t & [Hj|Hj] & T1 & T2)].
        -- left. intros ND. apply B. constructor; assumption.
        -- exfalso. subst j. assert (t = s) by congruence. subst t. destruct Hg as [F1 _], T2 as [F2 _]. congruence.
        -- right. exists j, t. split; [exact Hj|]. rewrite nth_update by assumption. destruct (Nat.eqb_spec j i); [subst; contradiction|]. auto.
Qed.
Lemma all_known : forall b ixs (s : sim), uses_cuda true s -> sim_at b s -> Forall (fun i => (i < List.length (s_ptcl s))%nat) ixs ->
  forall i, In i ixs -> exists sp, nth_error (s_ptcl s) i = Some sp /\ sp_cuda sp = true /\ species_at b sp.
Proof.
  intros b ixs s (U1 & U2 & U3) [G1 G2] V i Hi. rewrite Forall_forall in U2, G1, V. specialize (V i Hi). apply nth_error_Some in V.
  destruct (nth_error (s_ptcl s) i) as [sp|] eqn:E; [|contradiction]. exists sp. split; [reflexivity|]. apply nth_error_In in E. auto.
Qed.
Theorem two_names : forall ixs (s : sim), uses_cuda true s -> sim_at true s -> Forall (fun i => (i < List.length (s_ptcl s))%nat) ixs -> ~ NoDup ixs ->
  particle_diag_write ixs s = Err AttributeError.
Proof.
  intros ixs s U G V ND. unfold particle_diag_write. rewrite diag_receive_bad; [reflexivity| |left; exact ND].
  intros i Hi. destruct (all_known true ixs s U G V i Hi) as (sp & T1 & T2 & T3). eauto.
Qed.
Theorem outside_step : forall ixs (s : sim), uses_cuda true s -> sim_at false s ->
  (ixs <> [] -> Forall (fun i => (i < List.length (s_ptcl s))%nat) ixs -> particle_diag_write ixs s = Err AttributeError) /\
  ((0 < f_Nm (s_fld s))%Z -> field_diag_write (fun f => f) s = Err AttributeError).
Proof.
  intros ixs s U G. split.
  - intros Hn V. unfold particle_diag_write. rewrite diag_receive_bad; [reflexivity| |].
    + intros i Hi. destruct (all_known false ixs s U G V i Hi) as (sp & T1 & T2 & T3). eauto.
    + right. destruct ixs as [|i ixs]; [contradiction|]. destruct (all_known false (i :: ixs) s U G V i (or_introl eq_refl)) as (sp & T1 & T2 & T3).
      exists i, sp. split; [left; reflexivity|]. auto.
  - intros Hm. destruct U as (U1 & U2 & U3). unfold field_diag_write. rewrite U3, receive_fields_cpu; [reflexivity|assumption|apply G|assumption].
Qed.
Theorem field_diag_places : forall prepare (s : sim), uses_cuda true s -> sim_at true s ->
  f_cuda (prepare (s_fld s)) = true -> fields_at true (prepare (s_fld s)) ->
  exists seen s', field_diag_write prepare s = Ok (seen, s') /\ fields_at false seen /\ same_fields (prepare (s_fld s)) seen /\
  uses_cuda true s' /\ sim_at true s' /\ s_ptcl s' = s_ptcl s /\ same_fields (prepare (s_fld s)) (s_fld s').
Proof.
  intros prepare s (U1 & U2 & U3) [G1 G2] Hc Hg. unfold field_diag_write. rewrite Hc.
  destruct (receive_fields _ Hc Hg) as (f & E & A1 & A2). rewrite E. cbn [bind].
  assert (Hf : f_cuda f = true) by (destruct A2; congruence). rewrite Hf. destruct (send_fields f Hf) as [B1 B2].
  exists f, (with_data s (s_ptcl s) (send_fields_to_gpu f)). split; [reflexivity|]. split; [exact A1|]. split; [exact A2|].
  split; [split; [exact U1|]; split; [exact U2|]; destruct B2 as [B2 _]; cbn; congruence|]. split; [split; assumption|]. split; [reflexivity|].
  eapply same_fields_trans; eauto.
Qed.
Theorem density_diag_places : forall deposits (s : sim), uses_cuda true s -> sim_at true s ->
  Forall (fun d => forall f, f_cuda f = true -> fields_at true f -> f_cuda (d f) = true /\ fields_at true (d f)) deposits ->
  exists seen s', density_diag_write deposits s = Ok (seen, s') /\ written_in_turn (s_fld s) deposits seen /\
  uses_cuda true s' /\ sim_at true s' /\ s_ptcl s' = s_ptcl s.
Proof.
  induction deposits as [|d ds IH]; intros s U G H; cbn [density_diag_write].
  - exists [], s. split; [reflexivity|]. split; [exact I|]. split; [exact U|]. split; [exact G|reflexivity].
  - inversion H; subst. destruct (H2 (s_fld s)) as [Hc Hg]; [apply U|apply G|].
    destruct (field_diag_places d s U G Hc Hg) as (f & s1 & E & A1 & A2 & U1 & G1 & P1 & A3). rewrite E. cbn [bind snd fst].
    destruct (IH s1 U1 G1 H3) as (fs & s2 & E2 & L & U2 & G2 & P2). rewrite E2. cbn [bind fst snd].
    exists (f :: fs), s2. split; [reflexivity|]. split.
    { cbn [written_in_turn]. split; [exact A1|]. split; [exact A2|]. exists (s_fld s1). split; [apply G1|]. split; [exact A3|exact L]. }
    split; [exact U2|]. split; [exact G2|]. congruence.
Qed.

(** ** CPU *)
Lemma update_same : forall (p : list species) i s, nth_error p i = Some s -> update_nth p i s = p.
Proof. induction p as [|x p IH]; intros [|i] s H; cbn in *; try congruence. f_equal. auto. Qed.
Theorem cpu_noop : forall s : sim, uses_cuda false s ->
  (forall body, (forall s', body s = Ok s' -> s_cuda s' = false) -> step body s = body s) /\
  (forall body, s_cuda (fst (body s)) = false -> with_manager body s = Ok (body s)) /\
  (forall ixs, Forall (fun i => (i < List.length (s_ptcl s))%nat) ixs -> particle_diag_write ixs s = Ok (map (fun i => nth_error (s_ptcl s) i) ixs, s)) /\
  field_diag_write (fun f => f) s = Ok (s_fld s, s).
Proof.
  intros s (U1 & U2 & U3). destruct s as [c p f]. cbn [s_cuda s_ptcl s_fld] in *. subst c. split; [|split; [|split]].
  - intros body H. unfold step. cbn [s_cuda]. destruct (body _) as [s'|e] eqn:E; cbn [bind]; [|reflexivity]. rewrite (H s' eq_refl). reflexivity.
  - intros body H. unfold with_manager, manager_enter, manager_exit. cbn [s_cuda bind]. destruct (body _) as [s' e]. cbn [fst] in H. rewrite H. reflexivity.
  - intros ixs V. unfold particle_diag_write. cbn [s_ptcl].
    assert (R : forall l, Forall (fun i => (i < List.length p)%nat) l -> diag_receive l p = Ok p).
    { induction l as [|i l IH]; intros Hl; [reflexivity|]. inversion Hl; subst. cbn [diag_receive]. apply nth_error_Some in H1.
      destruct (nth_error p i) as [sp|] eqn:E; [|contradiction]. assert (Hc : sp_cuda sp = false) by (rewrite Forall_forall in U2; apply U2; eapply nth_error_In; eauto).
      rewrite Hc. cbn [bind]. rewrite (update_same _ _ _ E). apply IH. assumption. }
    assert (W : forall l, Forall (fun i => (i < List.length p)%nat) l -> diag_send l p = p).
    { induction l as [|i l IH]; intros Hl; [reflexivity|]. inversion Hl; subst. cbn [diag_send]. apply nth_error_Some in H1.
      destruct (nth_error p i) as [sp|] eqn:E; [|contradiction]. assert (Hc : sp_cuda sp = false) by (rewrite Forall_forall in U2; apply U2; eapply nth_error_In; eauto).
      rewrite Hc. rewrite (update_same _ _ _ E). apply IH. assumption. }
    rewrite R by assumption. cbn [bind]. rewrite W by assumption. reflexivity.
  - unfold field_diag_write. cbn [s_fld]. rewrite U3. cbn [bind]. rewrite U3. reflexivity.
Qed.
End P.
