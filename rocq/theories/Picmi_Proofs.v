(** Proofs about the PICMI interface (C70-C74). *)
From Verif Require Import Base Fourier_Lib Boost_Model Smooth_Model Laser_Model Laser_Spec Laser_Calc Laser_Wave Laser_Final Bunch_Model Picmi_Model Picmi_Spec.
From Verif Require ExtField_Model ExtField_Spec ExtField_Proofs.
From Coq Require Import Reals String Lra Lia Psatz.
From Coquelicot Require Import Complex.
Import ListNotations.
Open Scope R_scope.
Open Scope list_scope.

(** ** Laser *)
Lemma polar_angle (p : R * R) : p <> (0, 0) -> cos (angle (RtoC (fst p) + Ci * RtoC (snd p))%C) = fst p / norm2 p /\ sin (angle (RtoC (fst p) + Ci * RtoC (snd p))%C) = snd p / norm2 p.
Proof.
  intros N. set (X := (RtoC (fst p) + Ci * RtoC (snd p))%C).
  assert (EX : X = p) by (destruct p as [a b]; unfold X, Cplus, Cmult, Ci, RtoC; cbn; f_equal; ring).
  assert (CX : Cmod X = norm2 p) by (rewrite EX; reflexivity).
  assert (P : 0 < norm2 p).
  { unfold norm2. apply sqrt_lt_R0. destruct p as [a b]. cbn [fst snd]. destruct (Req_dec a 0) as [->|Ha]; [|nra]. destruct (Req_dec b 0) as [->|Hb]; [exfalso; apply N; reflexivity|nra]. }
  pose proof (angle_spec X) as A. rewrite CX in A. set (th := angle X) in *. rewrite EX in A. clearbody th. clear EX CX. generalize dependent (norm2 p). intros n P A.
  assert (A1 := f_equal fst A). assert (A2 := f_equal snd A). unfold cis, Cmult, RtoC in A1, A2. cbn [fst snd] in A1, A2. unfold Rdiv. split.
  - rewrite A1. field. lra.
  - rewrite A2. field. lra.
Qed.

(** ** Bunch *)
Lemma avg_ext {A} (f g : A -> R) l : (forall a, In a l -> f a = g a) -> avg f l = avg g l.
Proof. intros H. unfold avg. f_equal. induction l as [|a l IH]; [reflexivity|]. cbn. rewrite (H a) by (left; reflexivity). rewrite IH; [reflexivity|]. intros b Hb. apply H. right. exact Hb. Qed.
Lemma avg_map {A B} (f : B -> R) (g : A -> B) l : avg f (map g l) = avg (fun a => f (g a)) l.
Proof. unfold avg. rewrite map_length. f_equal. induction l as [|a l IH]; [reflexivity|]. cbn. rewrite IH. reflexivity. Qed.
Lemma avg_lin3 {A} (f g h : A -> R) a b d l : avg (fun x => a * f x + b * g x + d * h x) l = a * avg f l + b * avg g l + d * avg h l.
Proof.
  unfold avg.
  assert (E : fold_right (fun x s => a * f x + b * g x + d * h x + s) 0 l = a * fold_right (fun x s => f x + s) 0 l + b * fold_right (fun x s => g x + s) 0 l + d * fold_right (fun x s => h x + s) 0 l).
  { induction l as [|x l IH]; cbn; [ring|]. rewrite IH. ring. }
  rewrite E. unfold Rdiv. ring.
Qed.
Lemma gaussian_all c sr sz em g0 sg n N tf zf draws l :
  gaussian_beam c sr sz em g0 sg n N tf zf false draws = Ok l -> (forall d, In d (draws N) -> physical g0 sg sr em d <> None) ->
  l = map (fun d => match physical g0 sg sr em d with
    | Some (ux, uy, uz, ig) => {| b_x := sr * s_x d - ux * ig * c * tf; b_y := sr * s_y d - uy * ig * c * tf; b_z := zf + sz * s_z d - uz * ig * c * tf;
                                  b_ux := ux; b_uy := uy; b_uz := uz; b_w := n / INR (List.length (draws N)) |}
    | None => {| b_x := 0; b_y := 0; b_z := 0; b_ux := 0; b_uy := 0; b_uz := 0; b_w := 0 |} end) (draws N).
Proof.
  unfold gaussian_beam. cbn [bind]. set (D := draws N). intros H P.
  assert (L : forall D' : list draw, (forall d, In d D' -> physical g0 sg sr em d <> None) -> List.length (flat_map (fun d => match physical g0 sg sr em d with Some u => [(d, u)] | None => [] end) D') = List.length D').
  { induction D' as [|d D' IH]; [reflexivity|]. intros Q. cbn [flat_map]. rewrite app_length, IH by (intros; apply Q; right; assumption). specialize (Q d (or_introl eq_refl)). destruct (physical g0 sg sr em d); [reflexivity|congruence]. }
  rewrite (L D P) in H. destruct (Z.of_nat (List.length D) =? 0)%Z; [discriminate|]. injection H as <-.
  rewrite <- INR_IZR_INZ. generalize (n / INR (List.length D)) as w. intros w. clear L.
  induction D as [|d D IH]; [reflexivity|]. cbn [flat_map map]. rewrite map_app, IH by (intros; apply P; right; assumption). specialize (P d (or_introl eq_refl)).
  destruct (physical g0 sg sr em d) as [[[[ux uy] uz] ig]|]; [|congruence]. cbn [map app]. f_equal. destruct (Req_EM_T tf 0) as [->|]; [|reflexivity]. f_equal; ring.
Qed.
(** A physical particle with a positive drawn gamma has that gamma. *)
Lemma physical_gamma g0 sg sr em d ux uy uz ig : 0 < (if Rlt_dec 0 sg then s_gamma d else g0) ->
  physical g0 sg sr em d = Some (ux, uy, uz, ig) ->
  ux = em / sr * s_ux d /\ uy = em / sr * s_uy d /\ sqrt (1 + ux ^ 2 + uy ^ 2 + uz ^ 2) = (if Rlt_dec 0 sg then s_gamma d else g0) /\
  ig = / sqrt (1 + ux ^ 2 + uy ^ 2 + uz ^ 2) /\ 0 <= uz.
Proof.
  intros Pg. unfold physical. set (gm := if Rlt_dec 0 sg then s_gamma d else g0) in *. set (U := (gm ^ 2 - 1) - _ - _). destruct (Rle_dec 0 U) as [HU|]; [|discriminate]. intros H. injection H as <- <- <- <-.
  assert (E : sqrt (1 + (em / sr * s_ux d) ^ 2 + (em / sr * s_uy d) ^ 2 + sqrt U ^ 2) = gm).
  { rewrite pow2_sqrt by exact HU. unfold U. replace (1 + (em / sr * s_ux d) ^ 2 + (em / sr * s_uy d) ^ 2 + (gm ^ 2 - 1 - (em / sr * s_ux d) ^ 2 - (em / sr * s_uy d) ^ 2)) with (gm ^ 2) by ring. apply sqrt_pow2. lra. }
  rewrite E. repeat split; [unfold Rdiv; ring|apply sqrt_pos].
Qed.

(** ** Species *)
Lemma set_cm e m_e s s' : set_charge_mass e m_e s = Ok s' ->
  ps_charge s' = requested_charge e s /\ ps_mass s' = requested_mass m_e s /\ ps_table s' = ps_table s /\ ps_charge_state s' = ps_charge_state s.
Proof.
  destruct s as [tb cs q m]. unfold set_charge_mass, requested_charge, requested_mass. cbn. destruct tb as [[q0 m0]|]; cbn; destruct cs as [k|]; cbn; try (destruct m as [m|]; cbn); intros H; try discriminate; injection H as <-; cbn; auto.
Qed.
Lemma foldM_app {A S} (f : S -> A -> res S) l1 l2 s : foldM f (l1 ++ l2) s = bind (foldM f l1 s) (foldM f l2).
Proof. revert s. induction l1 as [|a l1 IH]; intros s; [reflexivity|]. cbn. destruct (f s a); cbn; [apply IH|reflexivity]. Qed.
Lemma foldM_inv {A S} (P : S -> Prop) (f : S -> A -> res S) l s s' : (forall s a s', P s -> In a l -> f s a = Ok s' -> P s') -> P s -> foldM f l s = Ok s' -> P s'.
Proof.
  revert s. induction l as [|a l IH]; intros s H P0 E; [injection E as <-; exact P0|]. cbn in E. destruct (f s a) as [s1|] eqn:Fa; [|discriminate]. cbn in E.
  apply (IH s1); [intros; eapply H; eauto; right; assumption| |exact E]. eapply H; eauto. left. reflexivity.
Qed.

(** ** Diagnostics *)
Lemma written_spec l : (forall f, In f l -> In f ["B"; "E"; "J"; "rho"]%string) ->
  written (Some l) = Ok (flat_map records_of l).
Proof.
  unfold written. intros H. assert (G : forall acc, foldM (fun acc f => if String.eqb f "rho" then Ok (acc ++ [f]) else
      if existsb (String.eqb f) ["E"; "B"; "J"]%string then Ok (acc ++ [(f ++ "/r"); (f ++ "/t"); (f ++ "/z")]%string)%list
      else Err ValueError) l acc = Ok (acc ++ flat_map records_of l)).
  { induction l as [|f l IH]; intros acc; [cbn; rewrite app_nil_r; reflexivity|]. cbn [foldM flat_map].
    assert (Hl : forall g, In g l -> In g ["B"; "E"; "J"; "rho"]%string) by (intros; apply H; right; assumption).
    destruct (H f (or_introl eq_refl)) as [<-|[<-|[<-|[<-|[]]]]]; cbn [String.eqb Ascii.eqb Bool.eqb existsb orb bind]; rewrite IH by exact Hl; rewrite <- app_assoc; reflexivity. }
  apply G.
Qed.


(** ** Applied fields *)
Import ExtField_Model ExtField_Spec ExtField_Proofs.
Definition cf (ft : fieldtype) (value : R) : ExtField_Model.external_field :=
  {| ext_func := fun F _ _ _ _ amplitude _ => F + amplitude * value; ext_scale := 0; ext_species := None; ext_fields := [(ft, 1)] |}.
Definition val (v : fieldtype -> option R) ft : R := match v ft with Some a => a | None => 0 end.
Lemma constant_list c v fts st : (forall ft, In ft fts -> ft <> OtherField) ->
  foldM (fun st ft => match v ft with None => Ok st | Some value =>
      bind (Picmi_Model.external_field c (Some (fun F _ _ _ _ amplitude _ => F + amplitude * value)) ft) (fun x =>
      Ok {| external_fields := external_fields st ++ [x]; mirrors := mirrors st |}) end) fts st =
  Ok {| external_fields := external_fields st ++ flat_map (fun ft => match v ft with Some a => [cf ft a] | None => [] end) fts; mirrors := mirrors st |}.
Proof.
  revert st. induction fts as [|ft fts IH]; intros st H; [cbn; rewrite app_nil_r; destruct st; reflexivity|].
  assert (H' : forall f, In f fts -> f <> OtherField) by (intros; apply H; right; assumption). assert (Hf : ft <> OtherField) by (apply H; left; reflexivity).
  cbn [foldM flat_map]. destruct (v ft) as [a|]; cbn [bind]; [|apply IH, H'].
  assert (E : Picmi_Model.external_field c (Some (fun F _ _ _ _ amplitude _ => F + amplitude * a)) ft = Ok (cf ft a)) by (destruct ft; try reflexivity; congruence).
  rewrite E. cbn [bind]. rewrite IH by exact H'. cbn [external_fields mirrors]. rewrite <- app_assoc. reflexivity.
Qed.
Lemma cf_apply ft a ptcl t : apply_expression (cf ft a) ptcl t = map (fun s => (fst s, map (fun p => set ft (get ft p + a) p) (snd s))) ptcl.
Proof.
  unfold apply_expression. apply map_ext. intros s. rewrite apply_species_eq. cbn. f_equal. apply map_ext. intros p. unfold apply_one. cbn [fst snd ext_func cf]. rewrite Rmult_1_l. reflexivity.
Qed.
Lemma constant_apply v fts ptcl t : apply_all (flat_map (fun ft => match v ft with Some a => [cf ft a] | None => [] end) fts) ptcl t =
  map (fun s => (fst s, map (fun p => fold_left (fun p ft => set ft (get ft p + val v ft) p) fts p) (snd s))) ptcl.
Proof.
  revert ptcl. induction fts as [|ft fts IH]; intros ptcl.
  - cbn. rewrite <- (map_id ptcl) at 1. apply map_ext. intros [i s]. cbn. rewrite map_id. reflexivity.
  - cbn [flat_map fold_left]. unfold apply_all in *. rewrite fold_left_app, IH. assert (V : val v ft = match v ft with Some a => a | None => 0 end) by reflexivity. destruct (v ft) as [a|]; cbn [fold_left].
    + rewrite cf_apply, map_map. apply map_ext. intros [i s]. cbn [fst snd]. rewrite map_map. f_equal. apply map_ext. intros p. rewrite V. reflexivity.
    + apply map_ext. intros [i s]. cbn [fst snd]. f_equal. apply map_ext. intros p. rewrite V. f_equal. destruct p, ft; cbn; rewrite ?Rplus_0_r; reflexivity.
Qed.
Lemma six_ok ft : In ft six -> ft <> OtherField.
Proof. cbn. intros H. repeat destruct H as [<-|H]; try discriminate; destruct H. Qed.
Lemma constant_ok c v : exists st', add_applied_field c None {| external_fields := []; mirrors := [] |} (PConstant v) = Ok st' /\
  mirrors st' = [] /\
  forall (ptcl : list species) t, apply_all (external_fields st') ptcl t = map (fun s => (fst s, map (fun p => {| x := x p; y := y p; z := z p;
      fEx := fEx p + match v Ex with Some a => a | None => 0 end; fEy := fEy p + match v Ey with Some a => a | None => 0 end; fEz := fEz p + match v Ez with Some a => a | None => 0 end;
      fBx := fBx p + match v Bx with Some a => a | None => 0 end; fBy := fBy p + match v By with Some a => a | None => 0 end; fBz := fBz p + match v Bz with Some a => a | None => 0 end |}) (snd s))) ptcl.
Proof.
  eexists. split; [unfold add_applied_field; apply constant_list, six_ok|]. cbn [external_fields mirrors]. rewrite app_nil_l. split; [reflexivity|].
  intros ptcl t. rewrite constant_apply. apply map_ext. intros [i s]. cbn [fst snd]. f_equal. apply map_ext. intros p. destruct p. reflexivity.
Qed.
Lemma boost_refuted c g : 0 < c -> 1 < g -> exists v st', add_applied_field c (Some (boost_converter g)) {| external_fields := []; mirrors := [] |} (PConstant v) = Ok st' /\
  exists p, apply_all (external_fields st') [(0%Z, [p])] 0 <> [(0%Z, [add_field p (transform c g (sqrt (1 - 1 / g ^ 2)) (single Ex 1))])] /\ v Ex = Some 1 /\ (forall f, f <> Ex -> v f = None).
Proof.
  intros Hc Hg. exists (fun f => match f with Ex => Some 1 | _ => None end). eexists. split; [unfold add_applied_field; apply constant_list, six_ok|].
  exists {| x := 0; y := 0; z := 0; fEx := 0; fEy := 0; fEz := 0; fBx := 0; fBy := 0; fBz := 0 |}. split; [|split; [reflexivity|intros f Hf; destruct f; congruence]].
  cbn [external_fields]. rewrite app_nil_l, constant_apply. cbn. intros H. injection H. intros. lra.
Qed.
Lemma applied_refuted c boost st :
  (forall ex, (exists ft, In ft six /\ ex ft <> None) -> add_applied_field c boost st (PAnalytic ex) = Err TypeError) /\
  (forall z n, exists exn, add_applied_field c boost st (PMirror z n) = Err exn).
Proof.
  split.
  - intros ex (ft & Hi & He). unfold add_applied_field. generalize st. induction six as [|f l IH]; [destruct Hi|]. intros s. cbn [foldM]. destruct (ex f) eqn:Ef; [reflexivity|]. cbn [bind]. apply IH. destruct Hi as [->|Hi]; [congruence|exact Hi].
  - intros [z|] n; cbn; [|eauto]. destruct boost; eauto.
Qed.

(** ** Species *)
Lemma updn_same {A} (f : nat -> A) i v : updn f i v i = v.
Proof. unfold updn. rewrite Nat.eqb_refl. reflexivity. Qed.
Lemma updn_other {A} (f : nat -> A) i j v : j <> i -> updn f i v j = f j.
Proof. intros H. unfold updn. destruct (Nat.eqb_spec j i); [contradiction|reflexivity]. Qed.
Lemma add_all e m_e l : forall st st', foldM (add_one e m_e) l st = Ok st' -> NoDup l ->
  p_inter st' = p_inter st /\ (forall i, ~ In i l -> p_spec st' i = p_spec st i /\ p_fbpic st' i = p_fbpic st i) /\
  (forall i, In i l -> exists s', set_charge_mass e m_e (p_spec st i) = Ok s' /\ p_spec st' i = s' /\ p_fbpic st' i = Some {| fs_q := ps_charge s'; fs_m := ps_mass s'; fs_ion := None |}).
Proof.
  induction l as [|a l IH]; intros st st' H ND; [injection H as <-; repeat split; intros i []|]. cbn in H. unfold add_one in H at 1.
  destruct (set_charge_mass e m_e (p_spec st a)) as [s|] eqn:Es; [|discriminate]. cbn [bind] in H. inversion ND as [|? ? Na ND']. subst. destruct (IH _ _ H ND') as (I1 & I2 & I3). cbn [p_inter p_spec p_fbpic] in *.
  split; [exact I1|]. split.
  - intros i Hi. destruct (I2 i) as [-> ->]; [intros X; apply Hi; right; exact X|]. rewrite !updn_other by (intros ->; apply Hi; left; reflexivity). auto.
  - intros i [<-|Hi].
    + exists s. destruct (I2 a Na) as [-> ->]. rewrite !updn_same. auto.
    + destruct (I3 i Hi) as (s' & A & B & D). rewrite updn_other in A by congruence. eauto.
Qed.
Lemma inter_all e its : forall st st', foldM (apply_interaction e) its st = Ok st' -> p_spec st' = p_spec st /\ p_inter st' = p_inter st /\
  forall i f, p_fbpic st i = Some f -> (fs_ion f <> None -> fs_q f = Some e) -> exists f', p_fbpic st' i = Some f' /\ fs_m f' = fs_m f /\ (fs_ion f' = None -> fs_q f' = fs_q f) /\ (fs_ion f' <> None -> fs_q f' = Some e).
Proof.
  induction its as [|[src tgt] its IH]; intros st st' H; [injection H as <-; repeat split; intros i f Hf Hq; exists f; auto|]. cbn [foldM] in H. unfold apply_interaction in H at 1.
  destruct (p_fbpic st tgt) as [ft0|]; [|discriminate]. destruct (p_fbpic st src) as [g|] eqn:Eg; [|discriminate]. destruct (ps_charge_state (p_spec st src)) as [k|]; [|discriminate]. cbn [bind] in H.
  destruct (IH _ _ H) as (I1 & I2 & I3). cbn [p_spec p_inter p_fbpic] in *. split; [exact I1|]. split; [exact I2|]. intros i f Hf Hq.
  destruct (Nat.eq_dec i src) as [->|Ni].
  - rewrite Hf in Eg. injection Eg as <-. destruct (I3 src {| fs_q := Some e; fs_m := fs_m f; fs_ion := Some (Some k, tgt) |}) as (f' & F1 & F2 & F3 & F4); [apply updn_same|reflexivity|].
    exists f'. split; [exact F1|]. split; [exact F2|]. split; [|exact F4]. intros N. exfalso. revert N. clear - H F1.
    assert (G : forall its st st' f, foldM (apply_interaction e) its st = Ok st' -> p_fbpic st src = Some f -> fs_ion f <> None -> exists f', p_fbpic st' src = Some f' /\ fs_ion f' <> None).
    { clear. induction its as [|[a b] its IH]; intros st st' f H Hf Hn; [injection H as <-; eauto|]. cbn [foldM] in H. unfold apply_interaction in H at 1.
      destruct (p_fbpic st b); [|discriminate]. destruct (p_fbpic st a) eqn:Ea; [|discriminate]. destruct (ps_charge_state (p_spec st a)); [|discriminate]. cbn [bind] in H.
      destruct (Nat.eq_dec src a) as [->|Na]; eapply IH; try exact H; cbn [p_fbpic].
      - apply updn_same.
      - discriminate.
      - rewrite updn_other by exact Na. exact Hf.
      - exact Hn. }
    destruct (G _ _ _ {| fs_q := Some e; fs_m := fs_m f; fs_ion := Some (Some k, tgt) |} H) as (f2 & A & B); [apply updn_same|discriminate|]. rewrite F1 in A. injection A as <-. exact B.
  - apply I3; [rewrite updn_other by exact Ni; exact Hf|exact Hq].
Qed.
Lemma species_ok e m_e st l st' : do_call e m_e st (AddSpecies l) = Ok st' -> NoDup l -> forall i, In i l ->
  exists f, p_fbpic st' i = Some f /\ fs_m f = requested_mass m_e (p_spec st i) /\
    (fs_ion f = None -> fs_q f = requested_charge e (p_spec st i)) /\ (fs_ion f <> None -> fs_q f = Some e) /\
    (ps_table (p_spec st i) <> None -> requested_mass m_e (p_spec st' i) = requested_mass m_e (p_spec st i) /\ requested_charge e (p_spec st' i) = requested_charge e (p_spec st i)).
Proof.
  intros H ND i Hi. cbn [do_call] in H. destruct (foldM (add_one e m_e) l st) as [s1|] eqn:E1; [|discriminate]. cbn [bind] in H.
  destruct (add_all _ _ _ _ _ E1 ND) as (_ & _ & A). destruct (A i Hi) as (s' & A1 & A2 & A3). destruct (set_cm _ _ _ _ A1) as (Q & M & T & K).
  destruct (inter_all _ _ _ _ H) as (B1 & _ & B2). destruct (B2 i _ A3) as (f & F1 & F2 & F3 & F4); [intros X; cbn in X; congruence|]. cbn [fs_m fs_q] in *. exists f. split; [exact F1|].
  split; [rewrite F2; exact M|]. split; [intros N; rewrite (F3 N); exact Q|]. split; [exact F4|]. intros NT. rewrite B1, A2. unfold requested_mass, requested_charge. rewrite T, K. destruct (ps_table (p_spec st i)) as [[q m]|]; [split; reflexivity|congruence].
Qed.
Lemma add_typed e m_e st i : (exists q m, ps_table (p_spec st i) = Some (q, m)) ->
  exists s', set_charge_mass e m_e (p_spec st i) = Ok s' /\ ps_mass s' = requested_mass m_e (p_spec st i) /\ ps_charge_state s' = ps_charge_state (p_spec st i).
Proof.
  intros (q & m & E). unfold set_charge_mass, requested_mass. rewrite E. cbn. destruct (ps_charge_state (p_spec st i)) eqn:K; cbn; eexists; (split; [reflexivity|]); split; try reflexivity.
Qed.
Lemma ionization_ok e m_e st src tgt k : src <> tgt -> p_inter st = [] ->
  (exists q m, ps_table (p_spec st src) = Some (q, m)) -> (exists q m, ps_table (p_spec st tgt) = Some (q, m)) -> ps_charge_state (p_spec st src) = Some k ->
  exists st' f, do_calls e m_e st [AddSpecies [tgt]; AddInteraction src tgt; AddSpecies [src]] = Ok st' /\
    p_fbpic st' src = Some f /\ fs_ion f = Some (Some k, tgt) /\ fs_q f = Some e /\ fs_m f = requested_mass m_e (p_spec st src).
Proof.
  intros N I0 T1 T2 K. destruct (add_typed e m_e st src T1) as (s1 & S1 & S1m & S1k). destruct (add_typed e m_e st tgt T2) as (s2 & S2 & _).
  unfold do_calls. cbn [foldM do_call bind]. unfold add_one at 1. rewrite S2. cbn [bind p_inter]. rewrite I0. cbn [foldM bind p_inter p_spec p_fbpic app].
  unfold add_one at 1. cbn [p_spec]. rewrite updn_other by exact N. rewrite S1. cbn [bind p_inter p_spec p_fbpic foldM apply_interaction].
  rewrite (updn_other _ src tgt) by congruence. rewrite updn_same, updn_same. cbn [p_spec]. rewrite updn_same, S1k, K. cbn [bind]. do 2 eexists. split; [reflexivity|]. cbn [p_fbpic]. rewrite updn_same. split; [reflexivity|]. cbn. auto.
Qed.
Lemma order_refuted e m_e st src tgt k : src <> tgt -> p_inter st = [] -> p_fbpic st src = None -> p_fbpic st tgt = None ->
  (exists q m, ps_table (p_spec st src) = Some (q, m)) -> (exists q m, ps_table (p_spec st tgt) = Some (q, m)) -> ps_charge_state (p_spec st src) = Some k ->
  do_calls e m_e st [AddInteraction src tgt; AddSpecies [tgt]; AddSpecies [src]] = Err AttributeError /\
  do_calls e m_e st [AddInteraction src tgt; AddSpecies [src]; AddSpecies [tgt]] = Err RuntimeError /\
  exists st' f, do_calls e m_e st [AddSpecies [tgt]; AddSpecies [src]; AddInteraction src tgt] = Ok st' /\ p_fbpic st' src = Some f /\ fs_ion f = None.
Proof.
  intros N I0 F1 F2 T1 T2 K. destruct (add_typed e m_e st src T1) as (s1 & S1 & S1m & S1k). destruct (add_typed e m_e st tgt T2) as (s2 & S2 & _).
  unfold do_calls. cbn [foldM do_call bind]. split; [|split].
  - unfold add_one at 1. cbn [p_spec]. rewrite S2. cbn [bind p_inter]. rewrite I0. cbn [app foldM apply_interaction p_fbpic]. rewrite updn_same, updn_other, F1 by exact N. reflexivity.
  - unfold add_one at 1. cbn [p_spec]. rewrite S1. cbn [bind p_inter]. rewrite I0. cbn [app foldM apply_interaction p_fbpic]. rewrite updn_other, F2 by congruence. reflexivity.
  - unfold add_one at 1. rewrite S2. cbn [bind p_inter]. rewrite I0. cbn [foldM bind p_inter p_spec p_fbpic]. unfold add_one at 1. cbn [p_spec]. rewrite updn_other by exact N. rewrite S1. cbn [bind p_inter p_spec p_fbpic foldM].
    do 2 eexists. split; [reflexivity|]. cbn [p_fbpic]. rewrite updn_same. split; reflexivity.
Qed.

(** ** Time step and diagnostics *)
Lemma Rmin_scale k a b : 0 < k -> Rmin (k * a) (k * b) = k * Rmin a b.
Proof. intros H. unfold Rmin. destruct (Rle_dec (k * a) (k * b)) as [X|X], (Rle_dec a b) as [Y|Y]; try reflexivity; exfalso; nra. Qed.
Lemma cfl_ok c k tss g zmin zmax rmax nz nr dt zmin' zmax' dt' : 0 < c -> (match g with Some g => 1 <= g | None => True end) -> (0 < nz)%Z -> (0 < nr)%Z ->
  picmi_dt c (Some k) tss g (zmax - zmin) (rmax - 0) nz nr = Ok dt -> sim_frame g zmin zmax dt = Some (zmin', zmax', dt') ->
  c * dt' = k * Rmin ((zmax' - zmin') / IZR nz) (rmax / IZR nr).
Proof.
  intros Hc Hg Hz Hr H F. assert (IZ : 0 < IZR nz) by (apply IZR_lt; exact Hz). assert (IR : 0 < IZR nr) by (apply IZR_lt; exact Hr).
  unfold picmi_dt in H. injection H as <-. destruct g as [g|].
  - cbn in F. set (b := sqrt (1 - 1 / (g * (g * 1)))) in *.
    assert (B2 : b ^ 2 = 1 - 1 / g ^ 2).
    { change b with (sqrt (1 - 1 / g ^ 2)). apply pow2_sqrt. assert (1 <= g ^ 2) by nra. assert (1 / g ^ 2 <= 1); [|lra]. apply Rmult_le_reg_r with (g ^ 2); [lra|]. unfold Rdiv. rewrite Rmult_assoc, Rinv_l by lra. lra. }
    assert (Bp : 0 <= b) by apply sqrt_pos. assert (GG : g ^ 2 * b ^ 2 = g ^ 2 - 1) by (rewrite B2; field; lra).
    assert (B1 : b < 1). { apply Rnot_le_lt. intros X. assert (1 <= b ^ 2) by nra. assert (0 < 1 / g ^ 2) by (apply Rdiv_lt_0_compat; [lra|nra]). lra. }
    assert (CF : 1 / (g * (1 - b * 1)) = g * (1 + b)).
    { apply (Rmult_eq_reg_r (g * (1 - b * 1))); [|nra]. transitivity 1; [field; nra|]. transitivity (g ^ 2 - g ^ 2 * b ^ 2); [rewrite GG; ring|ring]. }
    rewrite CF in F. injection F as <- <- <-. set (K := g * (1 + b)). assert (PK : 0 < K) by (unfold K; nra). replace (g * (g * 1)) with (g ^ 2) in * by ring. fold b.
    replace ((zmax * K - zmin * K) / IZR nz) with (K * ((zmax - zmin) / IZR nz)) by (field; lra).
    replace (rmax / IZR nr) with (K * ((rmax - 0) / IZR nr / ((1 + b) * g))) by (unfold K; field; repeat split; nra).
    rewrite Rmin_scale by exact PK. field. lra.
  - injection F as <- <- <-. replace (rmax - 0) with rmax by ring. field. lra.
Qed.
Lemma records_E d f : fieldtype_of d = Some f -> records_of d = records_of f /\ In f ["B"; "E"; "J"; "rho"]%string.
Proof.
  unfold fieldtype_of, records_of at 1. destruct (existsb _ _) eqn:E1; [intros H; injection H as <-; split; [reflexivity|cbn; auto]|].
  destruct (existsb (String.eqb d) ["Bx"; "By"; "Bz"; "B"]%string) eqn:E2; [intros H; injection H as <-; split; [reflexivity|cbn; auto]|].
  destruct (existsb (String.eqb d) ["Jx"; "Jy"; "Jz"; "J"]%string) eqn:E3; [intros H; injection H as <-; split; [reflexivity|cbn; auto]|].
  destruct (String.eqb d "rho") eqn:E4; [|discriminate]. intros H; injection H as <-. split; [reflexivity|cbn; auto].
Qed.
Lemma records_None d : fieldtype_of d = None -> records_of d = [].
Proof.
  unfold fieldtype_of, records_of. destruct (existsb _ _); [discriminate|]. destruct (existsb _ _); [discriminate|]. destruct (existsb _ _); [discriminate|]. destruct (String.eqb d "rho"); [discriminate|reflexivity].
Qed.
Lemma diag_ok l : exists r, picmi_field_diag false (Some l) = Ok r /\ NoDup r /\ forall q, In q r <-> exists d, In d l /\ In q (records_of d).
Proof.
  unfold picmi_field_diag, convert_data_list. set (fs := flat_map _ l).
  assert (S1 : forall f, In f (sorted_set fs) <-> In f fs).
  { intros f. unfold sorted_set. rewrite filter_In, existsb_exists. split.
    - intros (_ & g & Hg & E). apply String.eqb_eq in E. subst g. exact Hg.
    - intros Hf. split; [|exists f; split; [exact Hf|apply String.eqb_refl]]. unfold fs in Hf. apply in_flat_map in Hf. destruct Hf as (d & _ & Hd). destruct (fieldtype_of d) as [g|] eqn:E; [|destruct Hd]. destruct Hd as [<-|[]]. apply (records_E d g E). }
  eexists. split; [apply written_spec; intros f Hf; unfold sorted_set in Hf; apply filter_In in Hf; apply Hf|]. split.
  - unfold sorted_set. cbn [filter]. repeat (destruct (existsb _ fs)); cbn; repeat (apply NoDup_cons; [cbn; intuition discriminate|]); apply NoDup_nil.
  - intros q. rewrite in_flat_map. split.
    + intros (f & Hf & Hq). apply S1 in Hf. unfold fs in Hf. apply in_flat_map in Hf. destruct Hf as (d & Hd & Hf). destruct (fieldtype_of d) as [g|] eqn:E; [|destruct Hf]. destruct Hf as [<-|[]].
      exists d. split; [exact Hd|]. rewrite (proj1 (records_E d g E)). exact Hq.
    + intros (d & Hd & Hq). destruct (fieldtype_of d) as [g|] eqn:E; [|rewrite (records_None d E) in Hq; destruct Hq]. exists g. split; [|rewrite <- (proj1 (records_E d g E)); exact Hq].
      apply S1. unfold fs. apply in_flat_map. exists d. split; [exact Hd|]. rewrite E. left. reflexivity.
Qed.
Lemma lab_diag_refuted : picmi_field_diag true None = Err TypeError /\
  forall l, (exists d, In d l /\ ~ In d ["E"; "B"; "J"; "rho"]%string) -> picmi_field_diag true (Some l) = Err ValueError.
Proof.
  split; [reflexivity|]. intros l (d & Hd & Nd). unfold picmi_field_diag, written.
  match goal with |- foldM ?F l [] = _ => set (G := F); enough (forall acc, foldM G l acc = Err ValueError) by auto end.
  induction l as [|f l IH]; [destruct Hd|]. intros acc. cbn [foldM]. unfold G at 1.
  destruct (String.eqb_spec f "rho") as [->|Nr].
  - cbn [bind]. apply IH. destruct Hd as [<-|Hd]; [exfalso; apply Nd; cbn; auto|exact Hd].
  - destruct (existsb (String.eqb f) ["E"; "B"; "J"]%string) eqn:Ef; [|reflexivity]. cbn [bind]. apply IH. destruct Hd as [<-|Hd]; [|exact Hd].
    exfalso. apply Nd. apply existsb_exists in Ef. destruct Ef as (g & Hg & E). apply String.eqb_eq in E. subst g. cbn in *. tauto.
Qed.
