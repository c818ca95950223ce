From Verif Require Import Base Decomp_Model Decomp_Spec Decomp_Proofs PExch_Model PExch_Spec.
From Coq Require Import Reals Lra.
Open Scope Z_scope.

Lemma Rltb_dec x y : Rltb x y = if Rlt_dec x y then true else false.
Proof. reflexivity. Qed.

Lemma select_map {X Y} (f : X -> Y) mask l : select mask (map f l) = map f (select mask l).
Proof.
  revert l. induction mask as [|m mask IH]; [reflexivity|]. intros [|x l]; [reflexivity|].
  cbn [map select]. rewrite IH. destruct m; reflexivity.
Qed.

Lemma select_filter {X} (f : X -> bool) l : select (map f l) l = filter f l.
Proof. induction l as [|x l IH]; [reflexivity|]. cbn. rewrite IH. reflexivity. Qed.

Lemma fill_ok conv tr io l f : Forall (has_attrs tr io) l ->
  fill_buffer conv (arrays tr io l) (map (fun z => f z) (map pz l))
  = buffer tr io (map (conv_ints conv) (filter (fun p => f (pz p)) l)).
Proof.
  intros Hl. unfold fill_buffer, buffer, arrays. cbn [s_x s_y s_z s_ux s_uy s_uz s_inv_gamma s_w s_id s_ion].
  rewrite (map_map pz). rewrite !select_map, !select_filter, !map_map. f_equal.
  - cbn [px py pz pux puy puz pig pw conv_ints]. f_equal. destruct io; [|reflexivity].
    cbn [option_map optlist snd]. rewrite select_map, select_filter. f_equal.
    rewrite ?map_map. apply map_ext. intros p. unfold pwl, conv_ints; cbn. destruct (pion p); reflexivity.
  - f_equal.
    + destruct tr; [|reflexivity]. cbn [option_map optlist]. f_equal.
      rewrite select_map, select_filter, !map_map. apply map_ext_in. intros p Hp.
      apply filter_In in Hp. rewrite Forall_forall in Hl. destruct (Hl p (proj1 Hp)) as [Hid _].
      unfold pid0, conv_ints; cbn. destruct (pid p); [reflexivity|congruence].
    + destruct io; [|reflexivity]. cbn [option_map optlist fst]. f_equal.
      rewrite select_map, select_filter, !map_map. apply map_ext_in. intros p Hp.
      apply filter_In in Hp. rewrite Forall_forall in Hl. destruct (Hl p (proj1 Hp)) as [_ Hid].
      unfold plev, conv_ints; cbn. destruct (pion p); [reflexivity|congruence].
Qed.

Lemma empty_ok tr io l : empty_buffer (arrays tr io l) = buffer tr io [].
Proof. unfold empty_buffer, buffer, arrays. cbn [s_id s_ion]. destruct tr, io; reflexivity. Qed.

Lemma keep_ok tr io l f :
  keep (arrays tr io l) (map (fun z => f z) (map pz l)) = arrays tr io (filter (fun p => f (pz p)) l).
Proof.
  unfold keep, arrays. cbn [s_x s_y s_z s_ux s_uy s_uz s_inv_gamma s_w s_id s_ion].
  rewrite (map_map pz). rewrite !select_map, !select_filter.
  destruct tr, io; cbn [option_map fst snd]; rewrite ?select_map, ?select_filter; reflexivity.
Qed.

Lemma shift_ok tr io d l : shift_z d (buffer tr io l) = buffer tr io (map (moved d) l).
Proof.
  unfold shift_z, buffer. cbn [bf bi app]. rewrite !map_map. cbn [px py pz pux puy puz pig pw moved].
  destruct tr, io; rewrite ?map_map; reflexivity.
Qed.

Lemma add_ok tr io a l r :
  add_buffers_cpu (arrays tr io l) (buffer tr io a) (buffer tr io r) = arrays tr io (a ++ l ++ r).
Proof.
  unfold add_buffers_cpu, arrays, buffer, frow, irow.
  cbn [s_x s_y s_z s_ux s_uy s_uz s_inv_gamma s_w s_id s_ion bf bi nth app].
  rewrite !map_app.
  destruct tr, io; cbn [option_map fst snd optlist length nth app]; rewrite ?map_app; reflexivity.
Qed.

(** The three groups of particles of a rank. *)
Definition outL (lo : R) (p : part) := Rltb (pz p) lo.
Definition outR (hi : R) (p : part) := Rltb hi (pz p).

Section Ranks.
  Variables (b : zbound) (size : Z) (L : R) (lo hi : Z -> R) (conv : Z -> Z).
  Hypothesis lohi : forall r, 0 <= r < size -> (lo r <= hi r)%R.

  Definition goL (P : Z -> list part) (r : Z) := filter (outL (lo r)) (P r).
  Definition goR (P : Z -> list part) (r : Z) := map (conv_ints conv) (filter (outR (hi r)) (P r)).
  Definition stay (P : Z -> list part) (r : Z) :=
    filter (fun p => negb (outL (lo r) p) && negb (outR (hi r) p)) (P r).

  (** Particles held by rank r after the exchange. *)
  Definition fromL (G : Z -> list part) (r : Z) : list part :=
    match left_proc b r size with
    | Some l => if l =? size - 1 then map (moved (- L)) (G l) else G l
    | None => [] end.
  Definition fromR (G : Z -> list part) (r : Z) : list part :=
    match right_proc b r size with
    | Some q => if q =? 0 then map (moved L) (G q) else G q
    | None => [] end.

  (** Where the particles leaving r on each side end up. *)
  Definition toR (G : Z -> list part) (r : Z) : list part :=
    if r =? size - 1 then match b with Open => [] | Periodic => map (moved (- L)) (G r) end else G r.
  Definition toL (G : Z -> list part) (r : Z) : list part :=
    if r =? 0 then match b with Open => [] | Periodic => map (moved L) (G r) end else G r.

  Lemma flat_map_app_perm {X Y} (f g : X -> list Y) l :
    Permutation (flat_map (fun x => f x ++ g x) l) (flat_map f l ++ flat_map g l).
  Proof.
    induction l as [|x l IH]; [reflexivity|]. cbn [flat_map]. rewrite IH, <- !app_assoc.
    apply Permutation_app_head. rewrite !app_assoc. apply Permutation_app_tail, Permutation_app_comm.
  Qed.

  Lemma range_cons n : 0 <= n -> range (n + 1) = 0 :: map (fun k => k + 1) (range n).
  Proof.
    intros Hn. unfold range, zrange. replace (Z.to_nat (n + 1)) with (S (Z.to_nat n)) by lia.
    cbn [seq map]. f_equal. rewrite <- seq_shift, !map_map. apply map_ext. intros k. lia.
  Qed.

  Lemma flat_map_map {X Y W} (f : Y -> list W) (g : X -> Y) l :
    flat_map f (map g l) = flat_map (fun x => f (g x)) l.
  Proof. induction l as [|x l IH]; [reflexivity|]. cbn. rewrite IH. reflexivity. Qed.

  Lemma flat_map_ext_in {X Y} (f g : X -> list Y) l :
    (forall x, In x l -> f x = g x) -> flat_map f l = flat_map g l.
  Proof.
    induction l as [|x l IH]; [reflexivity|]. intros H. cbn.
    rewrite (H x (or_introl eq_refl)), IH; [reflexivity|]. intros y Hy. apply H. right. exact Hy.
  Qed.

  Lemma reindex_R G : 1 <= size -> (b = Periodic -> 2 <= size) ->
    Permutation (flat_map (fromL G) (range size)) (flat_map (toR G) (range size)).
  Proof.
    intros Hs Hper. replace size with ((size - 1) + 1) at 1 2 by lia.
    rewrite range_cons at 1 by lia. rewrite range_succ by lia.
    rewrite flat_map_app. cbn [flat_map]. rewrite app_nil_r, flat_map_map.
    rewrite (flat_map_ext_in (fun x => fromL G (x + 1)) (toR G) (range (size - 1))).
    - rewrite Permutation_app_comm. apply Permutation_app_head.
      unfold fromL, toR, left_proc. rewrite Z.eqb_refl. cbn [Z.eqb].
      destruct b; rewrite ?Z.eqb_refl; reflexivity.
    - intros x Hx. apply in_range in Hx. unfold fromL, toR, left_proc.
      destruct (Z.eqb_spec (x + 1) 0) as [|_]; [lia|]. replace (x + 1 - 1) with x by lia.
      assert (E : (x =? size - 1) = false) by lia. destruct b; rewrite ?E; reflexivity.
  Qed.

  Lemma reindex_L G : 1 <= size -> (b = Periodic -> 2 <= size) ->
    Permutation (flat_map (fromR G) (range size)) (flat_map (toL G) (range size)).
  Proof.
    intros Hs Hper. symmetry. replace size with ((size - 1) + 1) at 1 2 by lia.
    rewrite range_cons at 1 by lia. rewrite range_succ by lia.
    rewrite flat_map_app. cbn [flat_map]. rewrite app_nil_r, flat_map_map.
    rewrite (flat_map_ext_in (fun x => toL G (x + 1)) (fromR G) (range (size - 1))).
    - rewrite Permutation_app_comm. apply Permutation_app_head.
      unfold fromR, toL, right_proc. rewrite Z.eqb_refl. cbn [Z.eqb].
      destruct b; rewrite ?Z.eqb_refl; reflexivity.
    - intros x Hx. apply in_range in Hx. unfold fromR, toL, right_proc.
      destruct (Z.eqb_spec x (size - 1)) as [|_]; [lia|].
      assert (E : (x + 1 =? 0) = false) by lia. destruct b; rewrite ?E; reflexivity.
  Qed.

  (** One rank: the fates of its particles are what it sends and keeps. *)
  Lemma fate_split P r : 0 <= r < size ->
    Permutation (flat_map (fate conv b size L lo hi r) (P r))
                (toR (goR P) r ++ (stay P r ++ toL (goL P) r)).
  Proof.
    intros Hr. unfold toR, toL, goR, goL, stay. pose proof (lohi r Hr) as Hlh.
    induction (P r) as [|p l IH].
    - cbn. destruct (r =? size - 1), (r =? 0), b; reflexivity.
    - cbn [flat_map filter]. rewrite IH. clear IH. unfold fate, outL, outR, Rltb.
      set (A := map (conv_ints conv) (filter (fun p => if Rlt_dec (hi r) (pz p) then true else false) l)).
      set (B := filter (fun p0 => negb (if Rlt_dec (pz p0) (lo r) then true else false) &&
                                  negb (if Rlt_dec (hi r) (pz p0) then true else false)) l).
      set (C := filter (fun p => if Rlt_dec (pz p) (lo r) then true else false) l).
      destruct (Rlt_dec (pz p) (lo r)) as [H1|H1], (Rlt_dec (hi r) (pz p)) as [H2|H2]; try lra;
        cbn [negb andb map]; fold A.
      + destruct (r =? 0) eqn:E0.
        * destruct b; cbn [app map]; [|reflexivity].
          rewrite Permutation_middle. apply Permutation_app_head. apply Permutation_middle.
        * cbn [app]. rewrite Permutation_middle. apply Permutation_app_head. apply Permutation_middle.
      + destruct (r =? size - 1) eqn:E1; [|reflexivity]. destruct b; reflexivity.
      + cbn [app]. apply Permutation_middle.
  Qed.

  Lemma conserve P : 1 <= size -> (b = Periodic -> 2 <= size) ->
    Permutation (all_ranks size (fun r => fromL (goR P) r ++ stay P r ++ fromR (goL P) r))
                (all_ranks size (fun r => flat_map (fate conv b size L lo hi r) (P r))).
  Proof.
    intros Hs Hper. unfold all_ranks. rewrite !flat_map_app_perm, reindex_R, reindex_L by assumption.
    symmetry. transitivity (flat_map (fun r => toR (goR P) r ++ stay P r ++ toL (goL P) r) (range size)).
    - assert (G : forall l, (forall r, In r l -> 0 <= r < size) ->
        Permutation (flat_map (fun r => flat_map (fate conv b size L lo hi r) (P r)) l)
                    (flat_map (fun r => toR (goR P) r ++ stay P r ++ toL (goL P) r) l)).
      { induction l as [|r l IH]; intros Hl; [reflexivity|]. cbn [flat_map]. apply Permutation_app.
        - apply fate_split. apply Hl. left. reflexivity.
        - apply IH. intros x Hx. apply Hl. right. exact Hx. }
      apply G. intros r. apply in_range.
    - rewrite !flat_map_app_perm. reflexivity.
  Qed.
End Ranks.

Lemma conv_ints_id p : conv_ints (fun i => i) p = p.
Proof. destruct p as [x y z ux uy uz g w i [[a c]|]]; unfold conv_ints; cbn; destruct i; reflexivity. Qed.

Lemma conv_left_id l : map (conv_ints conv_left) l = l.
Proof. rewrite <- (map_id l) at 2. apply map_ext. intros p. apply conv_ints_id. Qed.

Lemma attrs_moved tr io d p : has_attrs tr io p -> has_attrs tr io (moved d p).
Proof. exact (fun H => H). Qed.
Lemma attrs_conv tr io f p : has_attrs tr io p -> has_attrs tr io (conv_ints f p).
Proof.
  unfold has_attrs, conv_ints. cbn. destruct tr, io, (pid p), (pion p); cbn; intuition congruence.
Qed.
Lemma attrs_map tr io (f : part -> part) l : (forall p, has_attrs tr io p -> has_attrs tr io (f p)) ->
  Forall (has_attrs tr io) l -> Forall (has_attrs tr io) (map f l).
Proof.
  intros Hf Hl. apply Forall_forall. intros q Hq. apply in_map_iff in Hq as (p & <- & Hp).
  apply Hf. rewrite Forall_forall in Hl. auto.
Qed.
Lemma attrs_filter tr io (f : part -> bool) l :
  Forall (has_attrs tr io) l -> Forall (has_attrs tr io) (filter f l).
Proof. rewrite !Forall_forall. intros H p Hp. apply filter_In in Hp. apply H, Hp. Qed.

(** The code computes [fromL ++ stay ++ fromR]. *)
Lemma exchange_lists b size ng dz L zmin zmax inj tr io P r :
  1 <= size -> (inj <> None -> b = Open) ->
  0 <= r < size ->
  (forall q, 0 <= q < size -> Forall (has_attrs tr io) (P q)) ->
  exchange_particles b size ng dz L zmin zmax (option_map (buffer tr io) inj)
    (fun q => arrays tr io (P q)) r
  = arrays tr io
     (fromL b size L (goR (fun q => (zmax q - IZR ng * dz)%R) conv_right P) r
      ++ stay (fun q => (zmin q + IZR ng * dz)%R) (fun q => (zmax q - IZR ng * dz)%R) P r
      ++ fromR b size L (goL (fun q => (zmin q + IZR ng * dz)%R) P) r ++ injected size inj r).
Proof.
  intros Hs Hinj Hr Hat. unfold exchange_particles.
  set (lo := fun q => (zmin q + IZR ng * dz)%R). set (hi := fun q => (zmax q - IZR ng * dz)%R).
  assert (Hst : fst (fst (remove_particles_cpu (arrays tr io (P r)) (zmin r) (zmax r) dz ng
                  (left_proc b r size) (right_proc b r size))) = arrays tr io (stay lo hi P r)).
  { unfold remove_particles_cpu. cbn [fst]. exact (keep_ok tr io (P r)
      (fun z => negb (Rltb z (lo r)) && negb (Rltb (hi r) z))). }
  rewrite Hst. clear Hst.
  assert (HR : forall l, 0 <= l < size -> right_proc b l size <> None ->
     snd (remove_particles_cpu (arrays tr io (P l)) (zmin l) (zmax l) dz ng
                  (left_proc b l size) (right_proc b l size)) = buffer tr io (goR hi conv_right P l)).
  { intros l Hl Hn. unfold remove_particles_cpu. cbn [snd].
    destruct (right_proc b l size); [|congruence].
    exact (fill_ok conv_right tr io (P l) (fun z => Rltb (hi l) z) (Hat l Hl)). }
  assert (HL : forall l, 0 <= l < size -> left_proc b l size <> None ->
     snd (fst (remove_particles_cpu (arrays tr io (P l)) (zmin l) (zmax l) dz ng
                  (left_proc b l size) (right_proc b l size))) = buffer tr io (goL lo P l)).
  { intros l Hl Hn. unfold remove_particles_cpu. cbn [snd fst].
    destruct (left_proc b l size); [|congruence].
    etransitivity; [exact (fill_ok conv_left tr io (P l) (fun z => Rltb z (lo l)) (Hat l Hl))|].
    rewrite conv_left_id. reflexivity. }
  assert (Hl1 : forall l, left_proc b r size = Some l -> 0 <= l < size /\ right_proc b l size = Some r).
  { intros l Hl. unfold left_proc in Hl. unfold right_proc.
    destruct b, (Z.eqb_spec r 0); try discriminate; injection Hl as <-;
    (split; [lia|]); match goal with |- context [?x =? ?y] => destruct (Z.eqb_spec x y) end;
    f_equal; lia. }
  assert (Hr1 : forall l, right_proc b r size = Some l -> 0 <= l < size /\ left_proc b l size = Some r).
  { intros l Hl. unfold right_proc in Hl. unfold left_proc.
    destruct b, (Z.eqb_spec r (size - 1)); try discriminate; injection Hl as <-;
    (split; [lia|]); match goal with |- context [?x =? ?y] => destruct (Z.eqb_spec x y) end;
    f_equal; lia. }
  (* left buffer *)
  match goal with |- add_buffers_cpu _ ?X _ = _ =>
    assert (EL : X = buffer tr io (fromL b size L (goR hi conv_right P) r)) end.
  { unfold fromL. destruct (left_proc b r size) as [l|] eqn:El; [|apply empty_ok].
    destruct (Hl1 l eq_refl) as [Hlr Hrl]. rewrite HR by (rewrite ?Hrl; auto; congruence).
    destruct (l =? size - 1); [apply shift_ok|reflexivity]. }
  rewrite EL. clear EL.
  match goal with |- add_buffers_cpu _ _ ?X = _ =>
    assert (ER : X = buffer tr io (fromR b size L (goL lo P) r ++ injected size inj r)) end.
  { unfold fromR. destruct inj as [nw|].
    - assert (b = Open) as -> by (apply Hinj; congruence).
      cbn [option_map injected]. unfold right_proc in *.
      destruct (Z.eqb_spec r (size - 1)) as [->|Hne]; [reflexivity|].
      rewrite app_nil_r. destruct (Hr1 (r + 1) eq_refl) as [Hlr Hrl].
      rewrite HL by (rewrite ?Hrl; auto; congruence).
      destruct (r + 1 =? 0); [apply shift_ok|reflexivity].
    - cbn [option_map injected]. rewrite app_nil_r.
      destruct (right_proc b r size) as [l|] eqn:El; [|apply empty_ok].
      destruct (Hr1 l eq_refl) as [Hlr Hrl]. rewrite HL by (rewrite ?Hrl; auto; congruence).
      destruct (l =? 0); [apply shift_ok|reflexivity]. }
  rewrite ER. apply add_ok.
Qed.

Lemma in_fromL b size L G r p : In p (fromL b size L G r) ->
  exists l q, left_proc b r size = Some l /\ In q (G l) /\ p = if l =? size - 1 then moved (- L) q else q.
Proof.
  unfold fromL. destruct (left_proc b r size) as [l|]; [|intros []].
  destruct (l =? size - 1) eqn:E; intros H.
  - apply in_map_iff in H as (q & <- & Hq). exists l, q. rewrite E. auto.
  - exists l, p. rewrite E. auto.
Qed.
Lemma in_fromR b size L G r p : In p (fromR b size L G r) ->
  exists l q, right_proc b r size = Some l /\ In q (G l) /\ p = if l =? 0 then moved L q else q.
Proof.
  unfold fromR. destruct (right_proc b r size) as [l|]; [|intros []].
  destruct (l =? 0) eqn:E; intros H.
  - apply in_map_iff in H as (q & <- & Hq). exists l, q. rewrite E. auto.
  - exists l, p. rewrite E. auto.
Qed.

Lemma attrs_result b size L lo hi tr io P inj r :
  1 <= size -> 0 <= r < size ->
  (forall q, 0 <= q < size -> Forall (has_attrs tr io) (P q)) ->
  (forall l, inj = Some l -> Forall (has_attrs tr io) l) ->
  Forall (has_attrs tr io)
     (fromL b size L (goR hi conv_right P) r ++ stay lo hi P r
      ++ fromR b size L (goL lo P) r ++ injected size inj r).
Proof.
  intros Hs Hr HP Hi. rewrite !Forall_app. repeat split.
  - apply Forall_forall. intros p Hp. apply in_fromL in Hp as (l & q & Hl & Hq & ->).
    assert (0 <= l < size).
    { unfold left_proc in Hl. destruct b, (Z.eqb_spec r 0); try discriminate; injection Hl as <-; lia. }
    assert (has_attrs tr io q).
    { unfold goR in Hq. apply in_map_iff in Hq as (q' & <- & Hq'). apply attrs_conv.
      apply filter_In in Hq'. specialize (HP l H). rewrite Forall_forall in HP. apply HP, Hq'. }
    destruct (l =? size - 1); [apply attrs_moved|]; assumption.
  - apply attrs_filter. auto.
  - apply Forall_forall. intros p Hp. apply in_fromR in Hp as (l & q & Hl & Hq & ->).
    assert (0 <= l < size).
    { unfold right_proc in Hl. destruct b, (Z.eqb_spec r (size - 1)); try discriminate; injection Hl as <-; lia. }
    assert (has_attrs tr io q).
    { unfold goL in Hq. apply filter_In in Hq. specialize (HP l H). rewrite Forall_forall in HP. apply HP, Hq. }
    destruct (l =? 0); [apply attrs_moved|]; assumption.
  - unfold injected. destruct inj as [l|]; [|constructor]. destruct (r =? size - 1); [auto|constructor].
Qed.

Lemma flat_map_nil {X Y} (l : list X) : flat_map (fun _ => @nil Y) l = [].
Proof. induction l; auto. Qed.

Lemma C06_main b size ng dz L zmin zmax inj tr io P :
  1 <= size -> (b = Periodic -> 2 <= size) -> (inj <> None -> b = Open) ->
  (forall q, 0 <= q < size -> (zmin q + IZR ng * dz <= zmax q - IZR ng * dz)%R) ->
  (forall q, 0 <= q < size -> Forall (has_attrs tr io) (P q)) ->
  (forall l, inj = Some l -> Forall (has_attrs tr io) l) ->
  exists P',
    (forall r, 0 <= r < size ->
       exchange_particles b size ng dz L zmin zmax (option_map (buffer tr io) inj)
         (fun q => arrays tr io (P q)) r = arrays tr io (P' r) /\
       Forall (has_attrs tr io) (P' r)) /\
    Permutation (all_ranks size P')
      (all_ranks size (fun r => flat_map
         (fate conv_right b size L (fun q => (zmin q + IZR ng * dz)%R)
               (fun q => (zmax q - IZR ng * dz)%R) r) (P r))
       ++ match inj with Some l => l | None => [] end).
Proof.
  intros Hs Hper Hinj Hbox Hat Hati.
  set (lo := fun q => (zmin q + IZR ng * dz)%R). set (hi := fun q => (zmax q - IZR ng * dz)%R).
  exists (fun r => fromL b size L (goR hi conv_right P) r ++ stay lo hi P r
      ++ fromR b size L (goL lo P) r ++ injected size inj r).
  split.
  - intros r Hr. split; [apply exchange_lists; auto|apply attrs_result; auto].
  - rewrite <- (conserve b size L lo hi conv_right Hbox P Hs Hper).
    unfold all_ranks.
    assert (E : flat_map (injected size inj) (range size) = match inj with Some l => l | None => [] end).
    { destruct inj as [l|]; cbn [injected].
      - assert (Er : range size = range (size - 1) ++ [size - 1])
          by (rewrite <- range_succ by lia; f_equal; lia).
        rewrite Er, flat_map_app. cbn [flat_map injected]. rewrite Z.eqb_refl, app_nil_r.
        rewrite (flat_map_ext_in _ (fun _ => [])).
        + rewrite flat_map_nil. reflexivity.
        + intros x Hx. apply in_range in Hx. cbn [injected]. replace (x =? size - 1) with false by lia. reflexivity.
      - apply flat_map_nil. }
    rewrite <- E, <- flat_map_app_perm.
    rewrite (flat_map_ext_in _ (fun x => (fromL b size L (goR hi conv_right P) x ++ stay lo hi P x
        ++ fromR b size L (goL lo P) x) ++ injected size inj x)); [reflexivity|].
    intros x _. rewrite <- !app_assoc. reflexivity.
Qed.

(** Edges of the physical subdomains. *)
Notation dpart := Decomp_Proofs.part.
Lemma phys_edges c zmin zmax q : valid_comm c ->
  (forall q, 0 <= q < c_size c -> get_zmin_zmax c true true true (Some q) = Ok (zmin q, zmax q)) ->
  0 <= q < c_size c ->
  (zmin q + IZR (c_nguard c) * c_dz c = edge c (snd (dpart c true q)))%R /\
  (zmax q - IZR (c_nguard c) * c_dz c = edge c (snd (dpart c true q) + fst (dpart c true q)))%R.
Proof.
  intros Hv H Hq. specialize (H q Hq).
  rewrite (edges_ok c true true true (Some q) _ (guard_ext c true true (Some q) _ (part_ok c true q))) in H.
  cbn [fst snd] in H.
  pose proof (f_equal (fun r => match r with Ok p => fst p | Err _ => 0%R end) H) as H1.
  pose proof (f_equal (fun r => match r with Ok p => snd p | Err _ => 0%R end) H) as H2.
  cbv beta iota in H1, H2. cbn [fst snd] in H1, H2. rewrite <- H1, <- H2. unfold edge.
  rewrite ?plus_IZR, ?minus_IZR, ?mult_IZR. split; ring.
Qed.

Lemma C07_main b c zmin zmax inj tr io P (D : R) :
  valid_comm c -> (0 < c_dz c)%R ->
  (b = Periodic -> 2 <= c_size c /\ c_nzdamp c = 0 /\ c_ninject c = 0) ->
  (inj <> None -> b = Open) ->
  (forall q, 0 <= q < c_size c -> get_zmin_zmax c true true true (Some q) = Ok (zmin q, zmax q)) ->
  (forall q, 0 <= q < c_size c -> Forall (has_attrs tr io) (P q)) ->
  (forall q, 0 <= q < c_size c ->
     (D <= (zmax q - IZR (c_nguard c) * c_dz c) - (zmin q + IZR (c_nguard c) * c_dz c))%R) ->
  (forall q p, 0 <= q < c_size c -> In p (P q) ->
     ((zmin q + IZR (c_nguard c) * c_dz c) - D <= pz p <= (zmax q - IZR (c_nguard c) * c_dz c) + D)%R) ->
  forall r, 0 <= r < c_size c ->
  exists Q,
    exchange_particles b (c_size c) (c_nguard c) (c_dz c) (IZR (c_Nz c) * c_dz c) zmin zmax
      (option_map (buffer tr io) inj) (fun q => arrays tr io (P q)) r
    = arrays tr io (Q ++ injected (c_size c) inj r) /\
    forall p, In p Q ->
      (zmin r + IZR (c_nguard c) * c_dz c <= pz p <= zmax r - IZR (c_nguard c) * c_dz c)%R.
Proof.
  intros Hv Hdz Hper Hinj Hedg Hat HD Hin r Hr.
  set (lo := fun q => (zmin q + IZR (c_nguard c) * c_dz c)%R).
  set (hi := fun q => (zmax q - IZR (c_nguard c) * c_dz c)%R).
  set (L := (IZR (c_Nz c) * c_dz c)%R).
  assert (Hed : forall q, 0 <= q < c_size c -> lo q = edge c (snd (dpart c true q)) /\
                 hi q = edge c (snd (dpart c true q) + fst (dpart c true q))).
  { intros q Hq. apply phys_edges; auto. }
  pose proof (part_tiles c true Hv) as (_ & _ & _ & Hcons & Hfst & Hlst).
  rewrite whole_form in Hfst, Hlst. cbn [fst snd] in Hfst, Hlst.
  assert (Hadj : forall q, 0 <= q -> q + 1 < c_size c -> hi q = lo (q + 1)).
  { intros q Hq1 Hq2. rewrite (proj2 (Hed q ltac:(lia))), (proj1 (Hed (q + 1) ltac:(lia))).
    f_equal. symmetry. apply Hcons; lia. }
  assert (Hwrap : b = Periodic -> (hi (c_size c - 1)%Z - L = lo 0%Z)%R).
  { intros Hb. destruct (Hper Hb) as (Hs & Hd0 & Hi0).
    rewrite (proj2 (Hed (c_size c - 1) ltac:(lia))), (proj1 (Hed 0 ltac:(lia))), Hfst, Hlst.
    assert (E0 : ext c true = 0) by (unfold ext; lia). rewrite E0. unfold L, edge.
    replace (- 0 + (c_Nz c + 2 * 0)) with (c_Nz c) by lia. replace (- 0) with 0 by lia. ring. }
  exists (fromL b (c_size c) L (goR hi conv_right P) r ++ stay lo hi P r
      ++ fromR b (c_size c) L (goL lo P) r).
  split.
  { rewrite exchange_lists; auto; [|destruct Hv; lia]. f_equal. rewrite <- !app_assoc. reflexivity. }
  intros p Hp. change (lo r <= pz p <= hi r)%R.
  assert (HD' : forall q, 0 <= q < c_size c -> (D <= hi q - lo q)%R) by exact HD.
  assert (Hin' : forall q p, 0 <= q < c_size c -> In p (P q) -> (lo q - D <= pz p <= hi q + D)%R) by exact Hin.
  clearbody lo hi L. clear HD Hin.
  apply in_app_or in Hp as [Hp|Hp]; [|apply in_app_or in Hp as [Hp|Hp]].
  - apply in_fromL in Hp as (l & q & Hl & Hq & ->). unfold goR in Hq.
    apply in_map_iff in Hq as (q' & <- & Hq'). apply filter_In in Hq' as [Hq' Ho].
    unfold outR, Rltb in Ho. destruct (Rlt_dec (hi l) (pz q')) as [Hlt|]; [|discriminate]. clear Ho.
    unfold left_proc in Hl.
    assert (Hc : (r = 0 /\ b = Periodic /\ l = c_size c - 1) \/ (r <> 0 /\ l = r - 1)).
    { destruct b, (Z.eqb_spec r 0); try discriminate; injection Hl as <-; auto. }
    assert (Hlr : 0 <= l < c_size c) by lia.
    pose proof (Hin' l q' Hlr Hq') as Hz. pose proof (HD' r Hr) as HDr.
    destruct Hc as [(-> & Hb & ->)|(Hne & ->)].
    + rewrite Z.eqb_refl. cbn [moved conv_ints pz]. specialize (Hwrap Hb). lra.
    + destruct (Z.eqb_spec (r - 1) (c_size c - 1)) as [|_]; [lia|]. cbn [conv_ints pz].
      specialize (Hadj (r - 1) ltac:(lia) ltac:(lia)). replace (r - 1 + 1) with r in Hadj by lia. lra.
  - unfold stay in Hp. apply filter_In in Hp as [_ Hp]. unfold outL, outR, Rltb in Hp.
    destruct (Rlt_dec (pz p) (lo r)), (Rlt_dec (hi r) (pz p)); try discriminate. lra.
  - apply in_fromR in Hp as (l & q & Hl & Hq & ->). unfold goL in Hq.
    apply filter_In in Hq as [Hq' Ho].
    unfold outL, Rltb in Ho. destruct (Rlt_dec (pz q) (lo l)) as [Hlt|]; [|discriminate]. clear Ho.
    unfold right_proc in Hl.
    assert (Hc : (r = c_size c - 1 /\ b = Periodic /\ l = 0) \/ (r <> c_size c - 1 /\ l = r + 1)).
    { destruct b, (Z.eqb_spec r (c_size c - 1)); try discriminate; injection Hl as <-; auto. }
    assert (Hlr : 0 <= l < c_size c) by lia.
    pose proof (Hin' l q Hlr Hq') as Hz. pose proof (HD' r Hr) as HDr.
    destruct Hc as [(-> & Hb & ->)|(Hne & ->)].
    + rewrite Z.eqb_refl. cbn [moved pz]. specialize (Hwrap Hb). lra.
    + destruct (Z.eqb_spec (r + 1) 0) as [|_]; [lia|].
      specialize (Hadj r ltac:(lia) ltac:(lia)). lra.
Qed.

(** Without integer attributes, the conversion does nothing. *)
Lemma conv_no_ints conv p : has_attrs false false p -> conv_ints conv p = p.
Proof.
  intros [H1 H2]. cbn in H1, H2. destruct p as [x y z ux uy uz g w i j]; cbn in *. subst. reflexivity.
Qed.
Lemma fate_no_ints conv b size L lo hi r l : Forall (has_attrs false false) l ->
  flat_map (fate conv b size L lo hi r) l = flat_map (fate (fun i => i) b size L lo hi r) l.
Proof.
  intros Hl. apply flat_map_ext_in. intros p Hp. rewrite Forall_forall in Hl.
  unfold fate. rewrite !(conv_no_ints _ p (Hl p Hp)). reflexivity.
Qed.

Lemma C06_no_ints b size ng dz L zmin zmax inj P :
  1 <= size -> (b = Periodic -> 2 <= size) -> (inj <> None -> b = Open) ->
  (forall q, 0 <= q < size -> (zmin q + IZR ng * dz <= zmax q - IZR ng * dz)%R) ->
  (forall q, 0 <= q < size -> Forall (has_attrs false false) (P q)) ->
  (forall l, inj = Some l -> Forall (has_attrs false false) l) ->
  exists P',
    (forall r, 0 <= r < size ->
       exchange_particles b size ng dz L zmin zmax (option_map (buffer false false) inj)
         (fun q => arrays false false (P q)) r = arrays false false (P' r)) /\
    Permutation (all_ranks size P')
      (all_ranks size (fun r => flat_map
         (fate (fun i => i) b size L (fun q => (zmin q + IZR ng * dz)%R)
               (fun q => (zmax q - IZR ng * dz)%R) r) (P r))
       ++ match inj with Some l => l | None => [] end).
Proof.
  intros Hs Hper Hinj Hbox Hat Hati.
  destruct (C06_main b size ng dz L zmin zmax inj false false P Hs Hper Hinj Hbox Hat Hati) as (P' & H1 & H2).
  exists P'. split; [intros r Hr; apply H1, Hr|]. rewrite H2. apply Permutation_app_tail.
  unfold all_ranks. rewrite (flat_map_ext_in _ (fun r => flat_map
         (fate (fun i => i) b size L (fun q => (zmin q + IZR ng * dz)%R)
               (fun q => (zmax q - IZR ng * dz)%R) r) (P r))); [reflexivity|].
  intros r Hr. apply fate_no_ints, Hat. apply in_range, Hr.
Qed.

(** Witness: one tracked particle (id 1) crosses from rank 0 to rank 1. *)
Definition wit_part : part := mkPart 0 0 (21/2) 0 0 0 1 1 (Some 1) None.
Definition wit_P (r : Z) : list part := if r =? 0 then [wit_part] else [].
Definition wit_zmin (r : Z) : R := if r =? 0 then (-1)%R else 9%R.
Definition wit_zmax (r : Z) : R := if r =? 0 then 11%R else 21%R.

Lemma wit_after :
  s_id (exchange_particles Open 2 1 1 20 wit_zmin wit_zmax None (fun q => arrays true false (wit_P q)) 0) = Some [] /\
  s_id (exchange_particles Open 2 1 1 20 wit_zmin wit_zmax None (fun q => arrays true false (wit_P q)) 1)
    = Some [4607182418800017408].
Proof.
  assert (Hat : forall q, 0 <= q < 2 -> Forall (has_attrs true false) (wit_P q)).
  { intros q _. unfold wit_P. destruct (q =? 0); [constructor; [|constructor]|constructor].
    split; [discriminate|reflexivity]. }
  pose proof (exchange_lists Open 2 1 1 20 wit_zmin wit_zmax None true false wit_P 0
    ltac:(lia) ltac:(congruence) ltac:(lia) Hat) as E0.
  pose proof (exchange_lists Open 2 1 1 20 wit_zmin wit_zmax None true false wit_P 1
    ltac:(lia) ltac:(congruence) ltac:(lia) Hat) as E1.
  cbn [option_map] in E0, E1. rewrite E0, E1. clear E0 E1.
  assert (Hr : goR (fun q => (wit_zmax q - 1 * 1)%R) conv_right wit_P 0 = [conv_ints conv_right wit_part]).
  { unfold goR, wit_P, wit_zmax, outR, Rltb. cbn [Z.eqb filter wit_part pz].
    destruct (Rlt_dec (11 - 1 * 1) (21 / 2)) as [_|H]; [reflexivity|exfalso; lra]. }
  assert (Hs : stay (fun q => (wit_zmin q + 1 * 1)%R) (fun q => (wit_zmax q - 1 * 1)%R) wit_P 0 = []).
  { unfold stay, wit_P, wit_zmin, wit_zmax, outR, outL, Rltb. cbn [Z.eqb filter wit_part pz].
    destruct (Rlt_dec (11 - 1 * 1) (21 / 2)) as [_|H]; [rewrite andb_false_r; reflexivity|exfalso; lra]. }
  split.
  - unfold fromL, fromR, left_proc, right_proc. cbn [Z.eqb Z.sub Z.opp Z.add Z.pos_sub Pos.pred_double].
    change (2 - 1) with 1. cbn [Z.eqb]. rewrite Hs. cbn [app]. reflexivity.
  - unfold fromL, fromR, left_proc, right_proc. change (2 - 1) with 1. cbn [Z.eqb Pos.eqb].
    change (1 - 1) with 0. cbn [Z.eqb]. rewrite Hr. cbn [app].
    unfold stay. cbn [wit_P Z.eqb filter app]. vm_compute. reflexivity.
Qed.

Lemma wit_boxes q : 0 <= q < 2 -> (wit_zmin q + 1 * 1 <= wit_zmax q - 1 * 1)%R.
Proof. intros _. unfold wit_zmin, wit_zmax. destruct (q =? 0); lra. Qed.
Lemma wit_attrs q : Forall (has_attrs true false) (wit_P q).
Proof. unfold wit_P. destruct (q =? 0); repeat constructor; discriminate. Qed.
