(** Proofs on the GPU guard-cell exchange. *)
From Verif Require Import Base Decomp_Model Decomp_Proofs Guard_Model Guard_Spec Guard_Proofs Cuda_Model Cuda_Proofs GGuard_Model.
From Coq Require Import Lia Bool.
Open Scope Z_scope.

Section GGuard.
  Context {A : Type} (plus : A -> A -> A).
  Notation prog := (prog gloc A). Notation mem := (@mem gloc A).
  Notation run := (run gloc_dec).

  (** A list of instructions (add?, destination, source). *)
  Fixpoint prog_of (ops : list (bool * gloc * gloc)) : prog :=
    match ops with
    | [] => Done
    | (b, d, s) :: r => if b then addto plus d s (prog_of r) else mov d s (prog_of r)
    end.
  Definition dst (o : bool * gloc * gloc) : gloc := snd (fst o).
  Definition src (o : bool * gloc * gloc) : gloc := snd o.
  Definition sep (ops : list (bool * gloc * gloc)) : Prop :=
    NoDup (map dst ops) /\ forall o o', In o ops -> In o' ops -> src o <> dst o'.

  Lemma run_ops_out : forall ops M l, ~ In l (map dst ops) -> run (prog_of ops) M l = M l.
  Proof.
    induction ops as [|[[b d] s] ops IH]; intros M l Hl; cbn in *; [reflexivity|].
    assert (d <> l /\ ~ In l (map dst ops)) as [H1 H2] by (unfold dst in *; cbn in *; tauto).
    destruct b; cbn; rewrite IH by exact H2; unfold upd; destruct (gloc_dec d l); congruence.
  Qed.
  Lemma run_ops_in : forall ops M b d s, sep ops -> In (b, d, s) ops ->
    run (prog_of ops) M d = if b then plus (M d) (M s) else M s.
  Proof.
    induction ops as [|[[b0 d0] s0] ops IH]; intros M b d s [Hn Hs] Hi; [destruct Hi|].
    cbn [map] in Hn. inversion Hn as [|x xs Hx Hxs]; subst.
    assert (Hsep : sep ops) by (split; [exact Hxs|intros o o' H1 H2; apply Hs; right; assumption]).
    destruct Hi as [E|Hi].
    - injection E as -> -> ->. cbn [prog_of]. destruct b; cbn [run addto mov Cuda_Proofs.run];
        rewrite run_ops_out by exact Hx; unfold upd; destruct (gloc_dec d d); congruence.
    - assert (Hd : d0 <> d) by (intros ->; apply Hx; apply (in_map dst) in Hi; exact Hi).
      assert (Hsd : d0 <> s) by (apply not_eq_sym; apply (Hs (b, d, s) (b0, d0, s0)); [right; exact Hi|left; reflexivity]).
      cbn [prog_of]. destruct b0; cbn [addto mov Cuda_Proofs.run]; rewrite (IH _ _ _ _ Hsep Hi); unfold upd;
        destruct (gloc_dec d0 d); try contradiction; destruct (gloc_dec d0 s); try contradiction; reflexivity.
  Qed.
  Lemma conf_ops : forall (mine shared : gloc -> Prop) ops,
    (forall o, In o ops -> mine (dst o) /\ (mine (src o) \/ shared (src o))) -> confined mine shared (prog_of ops).
  Proof.
    induction ops as [|[[b d] s] ops IH]; intros H; cbn; [constructor|].
    destruct (H (b, d, s) (or_introl eq_refl)) as [H1 H2]. cbn in H1, H2.
    assert (confined mine shared (prog_of ops)) by (apply IH; intros; apply H; right; assumption).
    destruct b; cbn; repeat (constructor; intros; auto).
  Qed.

  (** The instructions of the sending and receiving threads, for k components. *)
  Definition ops_send (k m ns ne Nz : Z) (cl cr : bool) (iz ir : Z) : list (bool * gloc * gloc) :=
    (if cl then map (fun c => (false, SendL (k * m + c) iz ir, Grd m c (ns + iz) ir)) (range k) else []) ++
    (if cr then map (fun c => (false, SendR (k * m + c) iz ir, Grd m c (Nz - ne + iz) ir)) (range k) else []).
  Definition ops_recv (add : bool) (k m n Nz : Z) (cl cr : bool) (iz ir : Z) : list (bool * gloc * gloc) :=
    (if cl then map (fun c => (add, Grd m c iz ir, RecvL (k * m + c) iz ir)) (range k) else []) ++
    (if cr then map (fun c => (add, Grd m c (Nz - n + iz) ir, RecvR (k * m + c) iz ir)) (range k) else []).
  Definition guarded (n Nr iz ir : Z) (p : prog) : prog := if ir <? Nr then if iz <? n then p else Done else Done.

  Lemma thread_send : forall k Nz Nr m cl cr ns ne iz ir,
    (match k with
     | Vec => copy_vec_to_gpu_buffer Nz Nr m cl cr ns ne
     | VecPml => copy_pml_to_gpu_buffer Nz Nr m cl cr ns ne
     | Scal => copy_scal_to_gpu_buffer Nz Nr m cl cr ns ne end) iz ir
    = guarded (ne - ns) Nr iz ir (prog_of (ops_send (ncomp k) m ns ne Nz cl cr iz ir)).
  Proof.
    intros. destruct k; [destruct cl, cr; reflexivity|destruct cl, cr; reflexivity|].
    unfold copy_scal_to_gpu_buffer, guarded, ops_send. cbn [ncomp].
    change (range 1) with [0]. cbn [map]. replace (1 * m + 0) with m by lia. destruct cl, cr; reflexivity.
  Qed.
  Lemma thread_recv : forall me k Nz Nr m cl cr ns ne iz ir, (me = Add -> k <> VecPml) ->
    (match me, k with
      | Replace, Vec => replace_vec_from_gpu_buffer Nz Nr m cl cr ns ne
      | Replace, VecPml => replace_pml_from_gpu_buffer Nz Nr m cl cr ns ne
      | Replace, Scal => replace_scal_from_gpu_buffer Nz Nr m cl cr ns ne
      | Add, Scal => add_scal_from_gpu_buffer plus Nz Nr m cl cr ns ne
      | Add, _ => add_vec_from_gpu_buffer plus Nz Nr m cl cr ns ne end) iz ir
    = guarded (ne - ns) Nr iz ir (prog_of (ops_recv (match me with Add => true | Replace => false end) (ncomp k) m (ne - ns) Nz cl cr iz ir)).
  Proof.
    intros me k Nz Nr m cl cr ns ne iz ir Hk.
    destruct me, k; try (destruct cl, cr; reflexivity); try (exfalso; apply Hk; reflexivity);
      unfold replace_scal_from_gpu_buffer, add_scal_from_gpu_buffer, guarded, ops_recv; cbn [ncomp];
      change (range 1) with [0]; cbn [map]; replace (1 * m + 0) with m by lia; destruct cl, cr; reflexivity.
  Qed.

  Lemma NoDup_map_in : forall {X Y} (f : X -> Y) l, NoDup l -> (forall a b, In a l -> In b l -> f a = f b -> a = b) -> NoDup (map f l).
  Proof.
    intros X Y f. induction l as [|a l IH]; intros Hn Hf; cbn; constructor; inversion Hn; subst.
    - intros H. apply in_map_iff in H. destruct H as (b & E & Hb). assert (b = a) by (apply Hf; [right|left|]; auto). subst. contradiction.
    - apply IH; auto. intros; apply Hf; auto; right; auto.
  Qed.
  Lemma NoDup_app_disj : forall {X} (l1 l2 : list X), NoDup l1 -> NoDup l2 -> (forall x, In x l1 -> ~ In x l2) -> NoDup (l1 ++ l2).
  Proof.
    induction l1; cbn; intros l2' Ha Hb Hab; auto. inversion Ha; subst. constructor.
    - rewrite in_app_iff. intros [H5|H5]; [auto|]. exact (Hab a (or_introl eq_refl) H5).
    - apply IHl1; [assumption|assumption|]. intros x Hx. apply Hab. right; exact Hx.
  Qed.
  Lemma in_send : forall k m ns ne Nz cl cr iz ir o, In o (ops_send k m ns ne Nz cl cr iz ir) <->
    (exists c, 0 <= c < k /\ cl = true /\ o = (false, SendL (k * m + c) iz ir, Grd m c (ns + iz) ir)) \/
    (exists c, 0 <= c < k /\ cr = true /\ o = (false, SendR (k * m + c) iz ir, Grd m c (Nz - ne + iz) ir)).
  Proof.
    intros. unfold ops_send. rewrite in_app_iff. split.
    - intros [H|H]; [left; destruct cl|right; destruct cr]; try (destruct H; fail); apply in_map_iff in H; destruct H as (c & E & Hc);
        apply in_range in Hc; exists c; auto.
    - intros [(c & Hc & -> & ->)|(c & Hc & -> & ->)]; [left|right]; apply in_map_iff; exists c; split; auto; apply in_range; auto.
  Qed.
  Lemma in_recv : forall add k m n Nz cl cr iz ir o, In o (ops_recv add k m n Nz cl cr iz ir) <->
    (exists c, 0 <= c < k /\ cl = true /\ o = (add, Grd m c iz ir, RecvL (k * m + c) iz ir)) \/
    (exists c, 0 <= c < k /\ cr = true /\ o = (add, Grd m c (Nz - n + iz) ir, RecvR (k * m + c) iz ir)).
  Proof.
    intros. unfold ops_recv. rewrite in_app_iff. split.
    - intros [H|H]; [left; destruct cl|right; destruct cr]; try (destruct H; fail); apply in_map_iff in H; destruct H as (c & E & Hc);
        apply in_range in Hc; exists c; auto.
    - intros [(c & Hc & -> & ->)|(c & Hc & -> & ->)]; [left|right]; apply in_map_iff; exists c; split; auto; apply in_range; auto.
  Qed.
  Lemma sep_send : forall k m ns ne Nz cl cr iz ir, sep (ops_send k m ns ne Nz cl cr iz ir).
  Proof.
    intros. split.
    - unfold ops_send. rewrite map_app. apply NoDup_app_disj.
      + destruct cl; [|constructor]. rewrite map_map. apply NoDup_map_in; [apply NoDup_range|]. intros a b _ _ E. cbn in E. injection E. lia.
      + destruct cr; [|constructor]. rewrite map_map. apply NoDup_map_in; [apply NoDup_range|]. intros a b _ _ E. cbn in E. injection E. lia.
      + intros x H1 H2. destruct cl; [|destruct H1]. destruct cr; [|destruct H2]. rewrite map_map in H1, H2.
        apply in_map_iff in H1, H2. destruct H1 as (a & <- & _), H2 as (b & E & _). cbn in E. discriminate.
    - intros o o' H1 H2. apply in_send in H1, H2.
      destruct H1 as [(c & _ & _ & ->)|(c & _ & _ & ->)], H2 as [(c' & _ & _ & ->)|(c' & _ & _ & ->)]; cbn; discriminate.
  Qed.
  Lemma sep_recv : forall add k m n Nz cl cr iz ir, 0 <= iz < n -> 2 * n <= Nz -> sep (ops_recv add k m n Nz cl cr iz ir).
  Proof.
    intros add k m n Nz cl cr iz ir Hi HN. split.
    - unfold ops_recv. rewrite map_app. apply NoDup_app_disj.
      + destruct cl; [|constructor]. rewrite map_map. apply NoDup_map_in; [apply NoDup_range|]. intros a b _ _ E. cbn in E. injection E. lia.
      + destruct cr; [|constructor]. rewrite map_map. apply NoDup_map_in; [apply NoDup_range|]. intros a b _ _ E. cbn in E. injection E. lia.
      + intros x H1 H2. destruct cl; [|destruct H1]. destruct cr; [|destruct H2]. rewrite map_map in H1, H2.
        apply in_map_iff in H1, H2. destruct H1 as (a & <- & _), H2 as (b & E & _). cbn in E. injection E; lia.
    - intros o o' H1 H2. apply in_recv in H1, H2.
      destruct H1 as [(c & _ & _ & ->)|(c & _ & _ & ->)], H2 as [(c' & _ & _ & ->)|(c' & _ & _ & ->)]; cbn; discriminate.
  Qed.

  (** ** One launch of a sending kernel *)
  Definition own_send (l : gloc) : option (Z * Z) :=
    match l with SendL _ iz ir | SendR _ iz ir => Some (iz, ir) | _ => None end.
  Lemma conf_guarded : forall (mine shared : gloc -> Prop) n Nr iz ir p,
    ((ir <? Nr) = true -> (iz <? n) = true -> confined mine shared p) -> confined mine shared (guarded n Nr iz ir p).
  Proof. intros. unfold guarded. destruct (ir <? Nr); [|constructor]. destruct (iz <? n); [auto|constructor]. Qed.

  Lemma launch_send : forall k m ns ne Nz Nr cl cr (thr : Z -> Z -> prog) M M', 0 <= ne - ns <= 2 ^ 52 -> 0 <= Nr <= 2 ^ 52 ->
    (forall iz ir, thr iz ir = guarded (ne - ns) Nr iz ir (prog_of (ops_send k m ns ne Nz cl cr iz ir))) ->
    executes gloc_dec (launch_2d (cuda_tpb_bpg_2d (ne - ns) Nr 1 128) thr) M M' ->
    (forall l, match l with SendL _ _ _ | SendR _ _ _ => False | _ => True end -> M' l = M l) /\
    (forall b iz ir, 0 <= iz < ne - ns -> 0 <= ir < Nr ->
       M' (SendL b iz ir) = (if cl && (k * m <=? b) && (b <? k * m + k) then M (Grd m (b - k * m) (ns + iz) ir) else M (SendL b iz ir)) /\
       M' (SendR b iz ir) = (if cr && (k * m <=? b) && (b <? k * m + k) then M (Grd m (b - k * m) (Nz - ne + iz) ir) else M (SendR b iz ir))).
  Proof.
    intros k m ns ne Nz Nr cl cr thr M M' Hn HN Ht He.
    unfold cuda_tpb_bpg_2d in He.
    assert (Hc := fun Hcf => launch_final gloc_dec own_send _ _ _ _ thr M M' Hcf He). change ((bpg (ne - ns) 1, bpg Nr 128), (1, 128)) with (cuda_tpb_bpg_2d (ne - ns) Nr 1 128) in Hc.
    destruct (cover_two (ne - ns) Nr 128 ltac:(lia) Hn HN) as [Hcov Hpos].
    assert (Hf : forall l, M' l = match own_send l with None => M l
         | Some t => if in_dec zz_dec t (grid_2d (cuda_tpb_bpg_2d (ne - ns) Nr 1 128)) then run (thr (fst t) (snd t)) M l else M l end).
    { apply Hc. intros i j _. rewrite Ht. apply conf_guarded. intros _ _. apply conf_ops. intros o Ho.
      apply in_send in Ho. destruct Ho as [(c & _ & _ & ->)|(c & _ & _ & ->)]; cbn; unfold mine, shared; cbn; auto. }
    split.
    - intros l Hl. rewrite Hf. destruct l; try contradiction; reflexivity.
    - intros b iz ir Hiz Hir.
      assert (Hin : In (iz, ir) (grid_2d (cuda_tpb_bpg_2d (ne - ns) Nr 1 128))) by (apply Hcov; assumption).
      rewrite !Hf. cbn [own_send]. destruct (in_dec zz_dec (iz, ir) _) as [_|n0]; [|contradiction]. cbn [fst snd].
      rewrite Ht. unfold guarded. rewrite (proj2 (Z.ltb_lt ir Nr)) by lia. rewrite (proj2 (Z.ltb_lt iz (ne - ns))) by lia.
      split.
      + destruct (cl && (k * m <=? b) && (b <? k * m + k)) eqn:E.
        * apply andb_true_iff in E. destruct E as [E E3]. apply andb_true_iff in E. destruct E as [E1 E2].
          apply Z.leb_le in E2. apply Z.ltb_lt in E3.
          rewrite (run_ops_in _ M false (SendL b iz ir) (Grd m (b - k * m) (ns + iz) ir)); [reflexivity|apply sep_send|].
          apply in_send. left. exists (b - k * m). split; [lia|]. split; [exact E1|]. do 3 f_equal; lia.
        * apply run_ops_out. intros H. apply in_map_iff in H. destruct H as (o & Eo & Ho). apply in_send in Ho.
          destruct Ho as [(c & Hc1 & Hc2 & ->)|(c & Hc1 & Hc2 & ->)]; cbn in Eo; [|discriminate].
          injection Eo as Eb. subst b cl. rewrite (proj2 (Z.leb_le _ _)), (proj2 (Z.ltb_lt _ _)) in E by lia. discriminate.
      + destruct (cr && (k * m <=? b) && (b <? k * m + k)) eqn:E.
        * apply andb_true_iff in E. destruct E as [E E3]. apply andb_true_iff in E. destruct E as [E1 E2].
          apply Z.leb_le in E2. apply Z.ltb_lt in E3.
          rewrite (run_ops_in _ M false (SendR b iz ir) (Grd m (b - k * m) (Nz - ne + iz) ir)); [reflexivity|apply sep_send|].
          apply in_send. right. exists (b - k * m). split; [lia|]. split; [exact E1|]. do 3 f_equal; lia.
        * apply run_ops_out. intros H. apply in_map_iff in H. destruct H as (o & Eo & Ho). apply in_send in Ho.
          destruct Ho as [(c & Hc1 & Hc2 & ->)|(c & Hc1 & Hc2 & ->)]; cbn in Eo; [discriminate|].
          injection Eo as Eb. subst b cr. rewrite (proj2 (Z.leb_le _ _)), (proj2 (Z.ltb_lt _ _)) in E by lia. discriminate.
  Qed.

  (** ** One launch of a receiving kernel *)
  Definition own_recv (n Nz : Z) (l : gloc) : option (Z * Z) :=
    match l with
    | Grd _ _ z ir => if z <? n then Some (z, ir) else if Nz - n <=? z then Some (z - (Nz - n), ir) else None
    | _ => None end.
  Lemma launch_recv : forall me k m n Nz Nr cl cr (thr : Z -> Z -> prog) M M', 0 <= n <= 2 ^ 52 -> 0 <= Nr <= 2 ^ 52 -> 2 * n <= Nz ->
    let add := match me with Add => true | Replace => false end in
    (forall iz ir, thr iz ir = guarded n Nr iz ir (prog_of (ops_recv add k m n Nz cl cr iz ir))) ->
    executes gloc_dec (launch_2d (cuda_tpb_bpg_2d n Nr 1 128) thr) M M' ->
    (forall l, match l with Grd m' _ _ _ => m' <> m | _ => True end -> M' l = M l) /\
    (forall c z ir, 0 <= c < k -> 0 <= z < Nz -> 0 <= ir < Nr ->
       M' (Grd m c z ir) =
         if cl && (z <? n) then (if add then plus (M (Grd m c z ir)) (M (RecvL (k * m + c) z ir)) else M (RecvL (k * m + c) z ir))
         else if cr && (Nz - n <=? z) then (if add then plus (M (Grd m c z ir)) (M (RecvR (k * m + c) (z - (Nz - n)) ir)) else M (RecvR (k * m + c) (z - (Nz - n)) ir))
         else M (Grd m c z ir)).
  Proof.
    intros me k m n Nz Nr cl cr thr M M' Hn HN H2 add Ht He. clearbody add.
    unfold cuda_tpb_bpg_2d in He.
    assert (Hc := fun Hcf => launch_final gloc_dec (own_recv n Nz) _ _ _ _ thr M M' Hcf He). change ((bpg n 1, bpg Nr 128), (1, 128)) with (cuda_tpb_bpg_2d n Nr 1 128) in Hc.
    destruct (cover_two n Nr 128 ltac:(lia) Hn HN) as [Hcov Hpos].
    assert (Hf : forall l, M' l = match own_recv n Nz l with None => M l
         | Some t => if in_dec zz_dec t (grid_2d (cuda_tpb_bpg_2d n Nr 1 128)) then run (thr (fst t) (snd t)) M l else M l end).
    { apply Hc. intros i j Hij. apply Hpos in Hij. rewrite Ht. apply conf_guarded. intros H1 H3. apply Z.ltb_lt in H1, H3. apply conf_ops. intros o Ho.
      apply in_recv in Ho. destruct Ho as [(c & _ & _ & ->)|(c & _ & _ & ->)]; cbn [dst src fst snd]; unfold mine, shared; cbn; (split; [|auto]).
      - rewrite (proj2 (Z.ltb_lt i n)) by lia. reflexivity.
      - rewrite (proj2 (Z.ltb_ge (Nz - n + i) n)) by lia. rewrite (proj2 (Z.leb_le (Nz - n) (Nz - n + i))) by lia. do 2 f_equal. lia. }
    split.
    - intros l Hl. rewrite Hf. destruct (own_recv n Nz l) as [[i j]|] eqn:Eo; [|reflexivity].
      destruct (in_dec zz_dec (i, j) _) as [Hi|_]; [|reflexivity]. cbn [fst snd]. rewrite Ht. unfold guarded.
      destruct (j <? Nr); [|reflexivity]. destruct (i <? n); [|reflexivity].
      apply run_ops_out. intros H. apply in_map_iff in H. destruct H as (o & Eo' & Ho). apply in_recv in Ho.
      destruct Ho as [(c & Hc1 & Hc2 & ->)|(c & Hc1 & Hc2 & ->)]; cbn in Eo'; subst l; contradiction.
    - intros c z ir Hcc Hz Hir. rewrite Hf. cbn [own_recv].
      destruct (z <? n) eqn:Ezn.
      + apply Z.ltb_lt in Ezn. destruct (in_dec zz_dec (z, ir) _) as [_|n0]; [|exfalso; apply n0; apply Hcov; lia]. cbn [fst snd].
        rewrite Ht. unfold guarded. rewrite (proj2 (Z.ltb_lt ir Nr)) by lia. rewrite (proj2 (Z.ltb_lt z n)) by lia.
        destruct cl; cbn [andb].
        * rewrite (run_ops_in _ M add (Grd m c z ir) (RecvL (k * m + c) z ir)); [reflexivity|apply sep_recv; lia|].
          apply in_recv. left. exists c. auto.
        * rewrite (proj2 (Z.leb_gt (Nz - n) z)) by lia. rewrite andb_false_r.
          apply run_ops_out. intros H. apply in_map_iff in H. destruct H as (o & Eo & Ho). apply in_recv in Ho.
          destruct Ho as [(c' & Hc1 & Hc2 & ->)|(c' & Hc1 & Hc2 & ->)]; cbn in Eo; [discriminate|]. injection Eo; lia.
      + apply Z.ltb_ge in Ezn. rewrite andb_false_r. destruct (Nz - n <=? z) eqn:Ezr.
        2:{ rewrite andb_false_r. reflexivity. }
        apply Z.leb_le in Ezr. destruct (in_dec zz_dec (z - (Nz - n), ir) _) as [_|n0]; [|exfalso; apply n0; apply Hcov; lia]. cbn [fst snd].
        rewrite Ht. unfold guarded. rewrite (proj2 (Z.ltb_lt ir Nr)) by lia. rewrite (proj2 (Z.ltb_lt (z - (Nz - n)) n)) by lia.
        destruct cr; cbn [andb].
        * rewrite (run_ops_in _ M add (Grd m c z ir) (RecvR (k * m + c) (z - (Nz - n)) ir)); [reflexivity|apply sep_recv; lia|].
          apply in_recv. right. exists c. split; [lia|]. split; [reflexivity|]. do 3 f_equal. lia.
        * apply run_ops_out. intros H. apply in_map_iff in H. destruct H as (o & Eo & Ho). apply in_recv in Ho.
          destruct Ho as [(c' & Hc1 & Hc2 & ->)|(c' & Hc1 & Hc2 & ->)]; cbn in Eo; [|discriminate]. injection Eo; lia.
  Qed.

  (** ** All the launches *)
  Lemma div_slot : forall k m b, 0 < k -> (k * m <= b < k * m + k <-> b / k = m).
  Proof.
    intros k m b Hk. split.
    - intros H. symmetry. apply (Z.div_unique_pos b k m (b - k * m)); lia.
    - intros <-. pose proof (Z.mul_div_le b k Hk). pose proof (Z.mul_succ_div_gt b k Hk). lia.
  Qed.
  Lemma stream_send : forall k me ng Nz Nr cl cr ms (M M' : mem), 0 <= ng <= 2 ^ 50 -> 0 <= Nr <= 2 ^ 52 ->
    stream gloc_dec (map (fun m => launch_2d (cuda_tpb_bpg_2d (nz_end me ng - nz_start me ng) Nr 1 128) (match k with
      | Vec => copy_vec_to_gpu_buffer Nz Nr m cl cr (nz_start me ng) (nz_end me ng)
      | VecPml => copy_pml_to_gpu_buffer Nz Nr m cl cr (nz_start me ng) (nz_end me ng)
      | Scal => copy_scal_to_gpu_buffer Nz Nr m cl cr (nz_start me ng) (nz_end me ng) end)) ms) M M' ->
    (forall l, match l with SendL _ _ _ | SendR _ _ _ => False | _ => True end -> M' l = M l) /\
    (forall b iz ir, 0 <= iz < nz_end me ng - nz_start me ng -> 0 <= ir < Nr -> In (b / ncomp k) ms ->
       (cl = true -> M' (SendL b iz ir) = M (Grd (b / ncomp k) (b mod ncomp k) (nz_start me ng + iz) ir)) /\
       (cr = true -> M' (SendR b iz ir) = M (Grd (b / ncomp k) (b mod ncomp k) (Nz - nz_end me ng + iz) ir))).
  Proof.
    intros k me ng Nz Nr cl cr ms M M' Hg HN Hs.
    set (n := nz_end me ng - nz_start me ng) in *.
    assert (Hn : 0 <= n <= 2 ^ 52) by (unfold n, nz_end, nz_start; destruct me; lia).
    assert (Hk : 0 < ncomp k) by (destruct k; reflexivity).
    revert M Hs. induction ms as [|m ms IH]; intros M Hs; cbn [map] in Hs.
    - inversion Hs; subst. split; [reflexivity|]. intros b iz ir _ _ [].
    - inversion Hs as [|x xs y M1 M2 Hx Hxs]; subst. clear Hs.
      destruct (launch_send (ncomp k) m (nz_start me ng) (nz_end me ng) Nz Nr cl cr _ M M1 Hn HN
                  (thread_send k Nz Nr m cl cr _ _) Hx) as [Hfr Hl].
      destruct (IH M1 Hxs) as [Hfr2 Hl2].
      assert (HG : forall a b c d, M1 (Grd a b c d) = M (Grd a b c d)) by (intros; apply Hfr; exact I).
      split.
      + intros l Hll. rewrite Hfr2 by exact Hll. apply Hfr; exact Hll.
      + intros b iz ir Hiz Hir Hin. destruct (in_dec Z.eq_dec (b / ncomp k) ms) as [Hi|Hi].
        * destruct (Hl2 b iz ir Hiz Hir Hi) as [H1 H2]. rewrite !HG in *. auto.
        * destruct Hin as [E|Hin]; [|contradiction].
          assert (Hkeep : M' (SendL b iz ir) = M1 (SendL b iz ir) /\ M' (SendR b iz ir) = M1 (SendR b iz ir)).
          { clear - plus Hxs Hi Hiz Hir Hn HN Hk. revert M1 Hxs. induction ms as [|m' ms IH]; intros M1 Hs; cbn [map] in Hs.
            - inversion Hs; subst. auto.
            - inversion Hs as [|x xs y M2 M3 Hx Hxs]; subst. clear Hs.
              destruct (IH ltac:(intros H; apply Hi; right; exact H) M2 Hxs) as [-> ->].
              destruct (launch_send (ncomp k) m' (nz_start me ng) (nz_end me ng) Nz Nr cl cr _ M1 M2 Hn HN
                  (thread_send k Nz Nr m' cl cr _ _) Hx) as [_ Hl].
              destruct (Hl b iz ir Hiz Hir) as [-> ->].
              assert (Hne : (ncomp k * m' <=? b) && (b <? ncomp k * m' + ncomp k) = false).
              { apply andb_false_iff. destruct (Z.leb_spec (ncomp k * m') b); [|auto]. right. apply Z.ltb_ge.
                destruct (Z_lt_le_dec b (ncomp k * m' + ncomp k)); [|lia]. exfalso. apply Hi. left. symmetry. apply div_slot; lia. }
              rewrite <- !andb_assoc, Hne, !andb_false_r. auto. }
          destruct Hkeep as [-> ->]. destruct (Hl b iz ir Hiz Hir) as [-> ->].
          assert (Hb : ncomp k * m <= b < ncomp k * m + ncomp k) by (apply div_slot; auto).
          rewrite (proj2 (Z.leb_le _ _)), (proj2 (Z.ltb_lt _ _)) by lia. rewrite !andb_true_r.
          assert (Em : b - ncomp k * m = b mod ncomp k) by (rewrite Z.mod_eq by lia; rewrite E; reflexivity).
          rewrite Em, E. split; intros ->; reflexivity.
  Qed.

  Definition row (M : mem) (ir : Z) : Z -> Z -> Z -> A := fun m c z => M (Grd m c z ir).
  Lemma stream_recv : forall k me ng Nz Nr cl cr ms (M M' : mem), 0 <= ng <= 2 ^ 50 -> 0 <= Nr <= 2 ^ 52 -> 4 * ng <= Nz ->
    (me = Add -> k <> VecPml) -> NoDup ms ->
    stream gloc_dec (map (fun m => launch_2d (cuda_tpb_bpg_2d (nz_end me ng - nz_start me ng) Nr 1 128) (match me, k with
      | Replace, Vec => replace_vec_from_gpu_buffer Nz Nr m cl cr (nz_start me ng) (nz_end me ng)
      | Replace, VecPml => replace_pml_from_gpu_buffer Nz Nr m cl cr (nz_start me ng) (nz_end me ng)
      | Replace, Scal => replace_scal_from_gpu_buffer Nz Nr m cl cr (nz_start me ng) (nz_end me ng)
      | Add, Scal => add_scal_from_gpu_buffer plus Nz Nr m cl cr (nz_start me ng) (nz_end me ng)
      | Add, _ => add_vec_from_gpu_buffer plus Nz Nr m cl cr (nz_start me ng) (nz_end me ng) end)) ms) M M' ->
    (forall l, match l with Grd m _ _ _ => ~ In m ms | _ => True end -> M' l = M l) /\
    (forall m c z ir, In m ms -> 0 <= c < ncomp k -> 0 <= z < Nz -> 0 <= ir < Nr ->
       M' (Grd m c z ir) =
         recv_right plus me (ncomp k) ng Nz (if cr then Some (fun b iz => M (RecvR b iz ir)) else None)
            (recv_left plus me (ncomp k) ng (if cl then Some (fun b iz => M (RecvL b iz ir)) else None) (row M ir)) m c z).
  Proof.
    intros k me ng Nz Nr cl cr ms M M' Hg HN H4 Hkk Hnd Hs.
    set (n := nz_end me ng - nz_start me ng) in *.
    assert (Hn : 0 <= n <= 2 ^ 52 /\ 2 * n <= Nz) by (unfold n, nz_end, nz_start; destruct me; lia). destruct Hn as [Hn H2n].
    revert M Hs. induction Hnd as [|m ms Hm Hnd IH]; intros M Hs; cbn [map] in Hs.
    - inversion Hs; subst. split; [reflexivity|]. intros m c z ir [].
    - inversion Hs as [|x xs y M1 M2 Hx Hxs]; subst. clear Hs.
      destruct (launch_recv me (ncomp k) m n Nz Nr cl cr _ M M1 Hn HN H2n
                  (fun iz ir => thread_recv me k Nz Nr m cl cr (nz_start me ng) (nz_end me ng) iz ir Hkk) Hx) as [Hfr Hl].
      destruct (IH M1 Hxs) as [Hfr2 Hl2]. split.
      + intros l Hll. rewrite Hfr2; [apply Hfr|]; destruct l; auto; cbn in Hll; intuition congruence.
      + intros m' c z ir Hin Hc Hz Hir. destruct Hin as [<-|Hin].
        * rewrite Hfr2 by exact Hm. rewrite (Hl c z ir Hc Hz Hir). unfold recv_right, recv_left, row. fold n.
          assert (Ez : (0 <=? z) = true) by (apply Z.leb_le; lia). assert (EN : (z <? Nz) = true) by (apply Z.ltb_lt; lia).
          destruct cl, cr; cbn [andb]; rewrite ?Ez, ?EN, ?andb_true_r; cbn [andb].
          -- destruct (Z.ltb_spec z n); destruct (Z.leb_spec (Nz - n) z); try lia; destruct me; reflexivity.
          -- destruct (Z.ltb_spec z n); destruct me; reflexivity.
          -- destruct (Z.leb_spec (Nz - n) z); destruct me; reflexivity.
          -- reflexivity.
        * rewrite (Hl2 m' c z ir Hin Hc Hz Hir).
          assert (HR : forall b i j, M1 (RecvL b i j) = M (RecvL b i j) /\ M1 (RecvR b i j) = M (RecvR b i j))
            by (intros; split; apply Hfr; exact I).
          assert (HG : forall c z ir, M1 (Grd m' c z ir) = M (Grd m' c z ir)) by (intros; apply Hfr; intros ->; contradiction).
          unfold recv_right, recv_left, row. destruct cl, cr; rewrite ?HG; repeat rewrite (proj1 (HR _ _ _)); repeat rewrite (proj2 (HR _ _ _)); reflexivity.
  Qed.

  (** ** The whole exchange *)
  Definition has (o : option Z) : bool := match o with Some _ => true | None => false end.
  Lemma inside_true : forall x n, 0 <= x < n -> (0 <=? x) = true /\ (x <? n) = true.
  Proof. intros. split; [apply Z.leb_le|apply Z.ltb_lt]; lia. Qed.

  (** What one rank puts in the buffer that it hands to MPI. *)
  Lemma sent : forall (use_cuda gpudirect : bool) k me ng Nz Nr Nm cl cr (M M1 : mem),
    use_cuda = true \/ gpudirect = false -> 0 <= ng <= 2 ^ 50 -> 0 <= Nr <= 2 ^ 52 ->
    before_sending use_cuda gpudirect k me ng Nz Nr Nm cl cr M M1 ->
    (forall m c z ir, M1 (Grd m c z ir) = M (Grd m c z ir)) /\
    (forall b iz ir, 0 <= b < ncomp k * Nm -> 0 <= iz < nz_end me ng - nz_start me ng -> 0 <= ir < Nr ->
      (cl = true -> M1 (if gpudirect then SendL b iz ir else HSendL b iz ir) = send_l me (ncomp k) ng (row M ir) b iz) /\
      (cr = true -> M1 (if gpudirect then SendR b iz ir else HSendR b iz ir) = send_r me (ncomp k) ng Nz (row M ir) b iz)).
  Proof.
    intros uc gd k me ng Nz Nr Nm cl cr M M1 Hor Hg HN Hb. unfold before_sending in Hb.
    assert (Hk : 0 < ncomp k) by (destruct k; reflexivity).
    destruct uc.
    - destruct Hb as (M0 & Hs & ->). unfold gpu_before_sending in Hs.
      destruct (stream_send k me ng Nz Nr cl cr (range Nm) M M0 Hg HN Hs) as [Hfr Hl].
      split.
      + intros m c z ir. destruct gd; cbn [get_send]; apply Hfr; exact I.
      + intros b iz ir Hbb Hiz Hir.
        assert (Hin : In (b / ncomp k) (range Nm)).
        { apply in_range. split; [apply Z.div_pos; lia|]. apply Z.div_lt_upper_bound; lia. }
        destruct (Hl b iz ir Hiz Hir Hin) as [H1 H2]. unfold send_l, send_r, pack, row.
        destruct gd; cbn [get_send]; split; intros E; [rewrite H1 by exact E| rewrite H2 by exact E|rewrite E, H1 by exact E|rewrite E, H2 by exact E]; reflexivity.
    - destruct Hor as [Hor|Hor]; [discriminate|]. subst gd M1. split; [reflexivity|].
      intros b iz ir Hbb Hiz Hir. cbn [cpu_before_sending].
      destruct (inside_true b _ Hbb) as [-> ->], (inside_true iz _ Hiz) as [-> ->], (inside_true ir _ Hir) as [-> ->].
      split; intros ->; reflexivity.
  Qed.
  (** What one rank does with the buffers filled by MPI. *)
  Lemma received : forall (use_cuda gpudirect : bool) k me ng Nz Nr Nm cl cr (M M' : mem),
    use_cuda = true \/ gpudirect = false -> 0 <= ng <= 2 ^ 50 -> 0 <= Nr <= 2 ^ 52 -> 4 * ng <= Nz -> (me = Add -> k <> VecPml) ->
    after_receiving plus use_cuda gpudirect k me ng Nz Nr Nm cl cr M M' ->
    forall m c z ir, 0 <= m < Nm -> 0 <= c < ncomp k -> 0 <= z < Nz -> 0 <= ir < Nr ->
      M' (Grd m c z ir) =
         recv_right plus me (ncomp k) ng Nz (if cr then Some (fun b iz => M (if gpudirect then RecvR b iz ir else HRecvR b iz ir)) else None)
            (recv_left plus me (ncomp k) ng (if cl then Some (fun b iz => M (if gpudirect then RecvL b iz ir else HRecvL b iz ir)) else None) (row M ir)) m c z.
  Proof.
    intros uc gd k me ng Nz Nr Nm cl cr M M' Hor Hg HN H4 Hkk Ha m c z ir Hm Hc Hz Hir. unfold after_receiving in Ha.
    destruct uc.
    - unfold gpu_after_receiving in Ha.
      destruct (stream_recv k me ng Nz Nr cl cr (range Nm) _ M' Hg HN H4 Hkk (NoDup_range Nm) Ha) as [_ Hl].
      rewrite (Hl m c z ir (proj2 (in_range Nm m) Hm) Hc Hz Hir). unfold row. destruct gd; cbn [set_recv]; destruct cl, cr; reflexivity.
    - destruct Hor as [Hor|Hor]; [discriminate|]. subst gd M'. cbn [cpu_after_receiving].
      destruct (inside_true m _ Hm) as [-> ->], (inside_true c _ Hc) as [-> ->], (inside_true ir _ Hir) as [-> ->]. reflexivity.
  Qed.

  Theorem exchange_same : forall (use_cuda gpudirect : bool) size left right k me ng Nz Nr Nm (M M' : Z -> mem),
    use_cuda = true \/ gpudirect = false -> 0 <= ng <= 2 ^ 50 -> 0 <= Nr <= 2 ^ 52 ->
    (forall r, 0 <= r < size -> 4 * ng <= Nz r) -> (me = Add -> k <> VecPml) ->
    (forall r s, 0 <= r < size -> left r = Some s -> 0 <= s < size /\ right s = Some r) ->
    (forall r s, 0 <= r < size -> right r = Some s -> 0 <= s < size /\ left s = Some r) ->
    any_exchange_fields plus use_cuda gpudirect size left right k me ng Nz Nr Nm M M' ->
    forall r m c z ir, 0 <= r < size -> 0 <= m < Nm -> 0 <= c < ncomp k -> 0 <= z < Nz r -> 0 <= ir < Nr ->
      M' r (Grd m c z ir) = exchange_fields plus size left right me (ncomp k) ng Nz (fun r => row (M r) ir) r m c z.
  Proof.
    intros uc gd size left right k me ng Nz Nr Nm M M' Hor Hg HN H4 Hkk Hl Hr Hx r m c z ir Hrr Hm Hc Hz Hir.
    unfold any_exchange_fields in Hx. unfold exchange_fields. destruct (size =? 1) eqn:Es; [subst M'; reflexivity|].
    destruct Hx as (M1 & Hs & Ha).
    assert (Hk : 0 < ncomp k) by (destruct k; reflexivity).
    rewrite (received uc gd k me ng (Nz r) Nr Nm _ _ _ (M' r) Hor Hg HN (H4 r Hrr) Hkk (Ha r Hrr) m c z ir Hm Hc Hz Hir).
    assert (Hrow : forall m c z, row (mpi_swap gd left right M1 r) ir m c z = row (M r) ir m c z).
    { intros m' c' z'. unfold row. cbn [mpi_swap].
      exact (proj1 (sent uc gd k me ng (Nz r) Nr Nm _ _ _ _ Hor Hg HN (Hs r Hrr)) m' c' z' ir). }
    assert (HL : forall s b iz, left r = Some s -> 0 <= b < ncomp k * Nm -> 0 <= iz < nz_end me ng - nz_start me ng ->
        mpi_swap gd left right M1 r (if gd then RecvL b iz ir else HRecvL b iz ir) = send_r me (ncomp k) ng (Nz s) (row (M s) ir) b iz).
    { intros s b iz E Hb Hiz. destruct (Hl r s Hrr E) as [Hs1 E2].
      destruct (sent uc gd k me ng (Nz s) Nr Nm _ _ _ _ Hor Hg HN (Hs s Hs1)) as [_ H1].
      destruct (H1 b iz ir Hb Hiz Hir) as [_ H3]. rewrite E2 in H3. specialize (H3 eq_refl).
      destruct gd; cbn [mpi_swap]; rewrite E; exact H3. }
    assert (HR : forall s b iz, right r = Some s -> 0 <= b < ncomp k * Nm -> 0 <= iz < nz_end me ng - nz_start me ng ->
        mpi_swap gd left right M1 r (if gd then RecvR b iz ir else HRecvR b iz ir) = send_l me (ncomp k) ng (row (M s) ir) b iz).
    { intros s b iz E Hb Hiz. destruct (Hr r s Hrr E) as [Hs1 E2].
      destruct (sent uc gd k me ng (Nz s) Nr Nm _ _ _ _ Hor Hg HN (Hs s Hs1)) as [_ H1].
      destruct (H1 b iz ir Hb Hiz Hir) as [H3 _]. rewrite E2 in H3. specialize (H3 eq_refl).
      destruct gd; cbn [mpi_swap]; rewrite E; exact H3. }
    set (n := nz_end me ng - nz_start me ng) in *.
    assert (Hb : 0 <= ncomp k * m + c < ncomp k * Nm) by nia.
    unfold recv_right, recv_left. fold n.
    destruct (left r) as [l|] eqn:El, (right r) as [s|] eqn:Er; cbn [has].
    - destruct ((Nz r - n <=? z) && (z <? Nz r)) eqn:E1; destruct ((0 <=? z) && (z <? n)) eqn:E2;
        rewrite ?Hrow; destruct me; rewrite ?(HL l _ _ eq_refl), ?(HR s _ _ eq_refl); auto; lia.
    - destruct ((0 <=? z) && (z <? n)) eqn:E2; rewrite ?Hrow; destruct me; rewrite ?(HL l _ _ eq_refl); auto; lia.
    - destruct ((Nz r - n <=? z) && (z <? Nz r)) eqn:E1; rewrite ?Hrow; destruct me; rewrite ?(HR s _ _ eq_refl); auto; lia.
    - apply Hrow.
  Qed.
  Theorem exchange_exists : forall (use_cuda gpudirect : bool) size left right k me ng Nz Nr Nm (M : Z -> mem),
    exists M', any_exchange_fields plus use_cuda gpudirect size left right k me ng Nz Nr Nm M M'.
  Proof.
    intros. unfold any_exchange_fields. destruct (size =? 1); [exists M; reflexivity|].
    assert (Hst : forall (ks : list (list prog)) (m : mem), exists m', stream gloc_dec ks m m').
    { induction ks as [|x ks IH]; intros m; [exists m; constructor|].
      destruct (executes_exists gloc_dec x m) as [m1 H1]. destruct (IH m1) as [m2 H2]. exists m2. econstructor; eauto. }
    assert (Hb : forall (N : Z) (cl cr : bool) (m : mem), exists m', before_sending use_cuda gpudirect k me ng N Nr Nm cl cr m m').
    { intros N cl cr m. unfold before_sending. destruct use_cuda; [|eexists; reflexivity].
      destruct (Hst (gpu_before_sending k me ng N Nr Nm cl cr) m) as [m1 H1]. eexists. exists m1. split; [exact H1|reflexivity]. }
    assert (Hc : forall (N : Z) (cl cr : bool) (m : mem), exists m', after_receiving plus use_cuda gpudirect k me ng N Nr Nm cl cr m m').
    { intros N cl cr m. unfold after_receiving. destruct use_cuda; [|eexists; reflexivity]. apply Hst. }
    assert (Hchoice : forall (P : Z -> mem -> Prop), (forall r, exists m, P r m) -> exists F, forall r, 0 <= r < size -> P r (F r)).
    { intros P HP. clear - HP. destruct (Z_lt_le_dec size 0) as [Hn|Hn].
      - destruct (HP 0) as [m _]. exists (fun _ => m). intros r Hr. lia.
      - revert Hn. apply (natlike_ind (fun size => exists F, forall r, 0 <= r < size -> P r (F r))).
        + destruct (HP 0) as [m _]. exists (fun _ => m). intros r Hr. lia.
        + intros n Hn [F HF]. destruct (HP n) as [m Hm]. exists (fun r => if r =? n then m else F r). intros r Hr.
          destruct (Z.eqb_spec r n) as [->|E]; [exact Hm|apply HF; lia]. }
    destruct (Hchoice _ (fun r => Hb (Nz r) (has (left r)) (has (right r)) (M r))) as [M1 H1].
    destruct (Hchoice _ (fun r => Hc (Nz r) (has (left r)) (has (right r)) (mpi_swap gpudirect left right M1 r))) as [M2 H2].
    exists M2, M1. split; assumption.
  Qed.
  (** A simulation on the CPU with the GPUDirect flag: MPI exchanges the GPU buffers, which nobody fills or reads. *)
  Theorem gpudirect_cpu : forall size left right k ng Nz Nr Nm (M M' : Z -> mem), 2 <= size -> 0 < ng ->
    any_exchange_fields plus false true size left right k Replace ng Nz Nr Nm M M' ->
    forall r m c z ir, 0 <= r < size -> 2 * ng <= Nz r -> left r <> None -> 0 <= m < Nm -> 0 <= c < ncomp k -> 0 <= z < ng -> 0 <= ir < Nr ->
      M' r (Grd m c z ir) = M r (HRecvL (ncomp k * m + c) z ir).
  Proof.
    intros size left right k ng Nz Nr Nm M M' Hs Hg Hx r m c z ir Hr HN Hl Hm Hc Hz Hir.
    unfold any_exchange_fields in Hx. rewrite (proj2 (Z.eqb_neq size 1)) in Hx by lia. destruct Hx as (M1 & H1 & H2).
    specialize (H1 r Hr). specialize (H2 r Hr). unfold before_sending in H1. unfold after_receiving in H2. rewrite H2.
    cbn [cpu_after_receiving].
    destruct (inside_true m _ Hm) as [-> ->], (inside_true c _ Hc) as [-> ->], (inside_true ir _ Hir) as [-> ->]. cbn [andb].
    unfold recv_right, recv_left, nz_end, nz_start.
    assert (E : mpi_swap true left right M1 r (HRecvL (ncomp k * m + c) z ir) = M r (HRecvL (ncomp k * m + c) z ir)).
    { cbn [mpi_swap]. rewrite H1. destruct (left r); reflexivity. }
    destruct (left r) as [l|]; [|contradiction].
    destruct (inside_true z (2 * ng - ng) ltac:(lia)) as [H0z Hzn].
    destruct (right r); rewrite ?H0z, ?Hzn; cbn [andb]; [|exact E].
    rewrite (proj2 (Z.leb_gt _ z)) by lia. cbn [andb]. exact E.
  Qed.
End GGuard.

Lemma replaced_ext : forall {A} b N ng size left right Nz start (old new new' : Z -> Z -> A),
  (forall r i, 0 <= r < size -> 0 <= i < Nz r -> new' r i = new r i) ->
  replaced b N ng size left right Nz start old new -> replaced b N ng size left right Nz start old new'.
Proof.
  intros A b N ng size left right Nz start old new new' He H r i Hr Hi. destruct (H r i Hr Hi) as (H1 & H2 & H3).
  rewrite (He r i Hr Hi). auto.
Qed.
Lemma added_ext : forall {A} (plus : A -> A -> A) b N ng size left right Nz start (old new new' : Z -> Z -> A),
  0 <= ng -> (forall r, 0 <= r < size -> 4 * ng <= Nz r) ->
  (forall r s, 0 <= r < size -> left r = Some s -> 0 <= s < size) -> (forall r s, 0 <= r < size -> right r = Some s -> 0 <= s < size) ->
  (forall r i, 0 <= r < size -> 0 <= i < Nz r -> new' r i = new r i) ->
  added plus b N ng size left right Nz start old new -> added plus b N ng size left right Nz start old new'.
Proof.
  intros A plus b N ng size left right Nz start old new new' Hg H4 Hl Hr He H r i Hr0 Hi. destruct (H r i Hr0 Hi) as (H1 & H2 & H3).
  rewrite (He r i Hr0 Hi). split; [|split].
  - intros l El Hil. destruct (H1 l El Hil) as (j & Hj & Hp & E1 & E2). exists j. split; [exact Hj|]. split; [exact Hp|]. split; [exact E1|].
    assert (Hll := Hl r l Hr0 El). specialize (H4 l Hll). rewrite He by lia. exact E2.
  - intros s Es His. destruct (H2 s Es His) as (j & Hj & Hp & E1 & E2). exists j. split; [exact Hj|]. split; [exact Hp|]. split; [exact E1|].
    assert (Hss := Hr r s Hr0 Es). specialize (H4 s Hss). rewrite He by lia. exact E2.
  - exact H3.
Qed.
