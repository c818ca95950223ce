(** Lemmas for C53. *)
From Verif Require Import Base Decomp_Model Inject_Model Inject_Spec Inject_Proofs Load_Model Load_Spec.
From Coq Require Import Reals Lra.
Open Scope Z_scope.

Lemma sumR_app a b : sumR (a ++ b) = (sumR a + sumR b)%R.
Proof. unfold sumR. induction a; simpl; lra. Qed.
Lemma sumR_flat_map {A} (f : A -> list R) l : sumR (flat_map f l) = sumR (map (fun a => sumR (f a)) l).
Proof. induction l; simpl; [reflexivity|]. rewrite sumR_app, IHl. reflexivity. Qed.
Lemma sumR_scal {A} (c : R) (f : A -> R) l : sumR (map (fun a => c * f a)%R l) = (c * sumR (map f l))%R.
Proof. induction l; simpl; [lra|]. rewrite IHl. lra. Qed.
Lemma sumR_const {A} (c : R) (l : list A) : sumR (map (fun _ => c) l) = (INR (length l) * c)%R.
Proof. induction l as [|a l IH]; [simpl; lra|]. cbn [map length]. rewrite S_INR.
  change (sumR (c :: map (fun _ => c) l)) with (c + sumR (map (fun _ : A => c) l))%R. rewrite IH. lra. Qed.
Lemma sumR_ext {A} (f g : A -> R) l : (forall a, In a l -> f a = g a) -> sumR (map f l) = sumR (map g l).
Proof. intros H. f_equal. apply map_ext_in. exact H. Qed.

(** Intervals of indices. *)
Lemma filter_interval (P : Z -> bool) N : 0 <= N ->
  (forall i j k, 0 <= i <= j -> j <= k < N -> P i = true -> P k = true -> P j = true) ->
  exists lo hi, 0 <= lo <= hi /\ hi <= N /\ filter P (range N) = map (Z.add lo) (range (hi - lo)) /\
    (forall i, 0 <= i < N -> (P i = true <-> lo <= i < hi)).
Proof.
  intros HN. pattern N. apply natlike_ind; [| |exact HN].
  - intros _. exists 0, 0. repeat split; try lia; reflexivity.
  - intros x Hx IH Hc. unfold Z.succ in *.
    destruct IH as (lo & hi & H1 & H2 & H3 & H4); [intros; apply (Hc i j k); auto; lia|].
    rewrite range_succ, filter_app, H3 by exact Hx. simpl.
    destruct (P x) eqn:E.
    + destruct (Z.eq_dec lo hi) as [->|Hne].
      * exists x, (x + 1). rewrite Z.sub_diag. replace (x + 1 - x) with 1 by lia.
        split; [lia|]. split; [lia|]. split; [simpl; f_equal; lia|].
        intros i Hi. destruct (Z.eq_dec i x) as [->|Hi2]; [split; [lia|auto]|].
        split; [|lia]. intros HP. apply H4 in HP; lia.
      * assert (hi = x).
        { destruct (Z.eq_dec hi x) as [|Hx2]; [assumption|]. exfalso.
          assert (P hi = true).
          { apply (Hc (hi - 1) hi x); try lia; apply H4; lia. }
          apply H4 in H; lia. }
        subst hi. exists lo, (x + 1). split; [lia|]. split; [lia|]. split.
        { replace (x + 1 - lo) with ((x - lo) + 1) by lia. rewrite range_succ, map_app by lia.
          f_equal. simpl. f_equal. lia. }
        intros i Hi. destruct (Z.eq_dec i x) as [->|Hi2]; [split; [lia|auto]|].
        rewrite H4 by lia. lia.
    + exists lo, hi. rewrite app_nil_r. split; [lia|]. split; [lia|]. split; [reflexivity|].
      intros i Hi. destruct (Z.eq_dec i x) as [->|Hi2]; [|apply H4; lia].
      rewrite E. split; [discriminate|lia].
Qed.

Lemma rminl_spec l : forall a, (rminl a l <= a)%R /\ (forall x, In x l -> (rminl a l <= x)%R)
  /\ (rminl a l = a \/ In (rminl a l) l).
Proof.
  unfold rminl. induction l as [|y l IH]; intros a; simpl.
  - repeat split; [lra|tauto|auto].
  - destruct (IH (Rmin a y)) as [H1 [H2 H3]]. split; [|split].
    + eapply Rle_trans; [exact H1|apply Rmin_l].
    + intros x [<-|Hx]; [eapply Rle_trans; [exact H1|apply Rmin_r]|auto].
    + destruct H3 as [H3|H3]; [|auto]. rewrite H3. unfold Rmin. destruct (Rle_dec a y); auto.
Qed.

Lemma head_tail_range lo m : 0 < m -> map (Z.add lo) (range m) = lo :: map (Z.add (lo + 1)) (range (m - 1)).
Proof.
  intros H. replace m with (1 + (m - 1)) at 1 by lia. rewrite range_add by lia.
  change (range 1) with [0]. simpl. f_equal; [lia|]. rewrite map_map. apply map_ext. intros; lia.
Qed.

Section Centres.
Variables (x0 dx : R).
Hypothesis Hdx : (0 < dx)%R.
Local Notation f := (fun i : Z => (x0 + (IZR i + 0.5) * dx)%R).

Lemma minmax_centres lo m a l : 0 < m -> map f (map (Z.add lo) (range m)) = a :: l ->
  rminl a l = f lo /\ rmaxl a l = f (lo + m - 1).
Proof.
  intros Hm E.
  assert (Hin : forall x, In x (a :: l) -> exists i, lo <= i < lo + m /\ x = f i).
  { intros x Hx. rewrite <- E in Hx. rewrite map_map in Hx. apply in_map_iff in Hx as [i [<- Hi]].
    apply in_range in Hi. exists (lo + i). split; [lia|reflexivity]. }
  assert (Hin2 : forall i, lo <= i < lo + m -> In (f i) (a :: l)).
  { intros i Hi. rewrite <- E, map_map. apply in_map_iff. exists (i - lo).
    split; [replace (lo + (i - lo)) with i by lia; reflexivity|]. apply in_range. lia. }
  assert (Hmono : forall i j, i <= j -> (f i <= f j)%R).
  { intros i j Hij. apply IZR_le in Hij. nra. }
  split.
  - destruct (rminl_spec l a) as [H1 [H2 H3]]. apply Rle_antisym.
    + destruct (Hin2 lo) as [H|H]; [lia|rewrite <- H; exact H1|apply H2; exact H].
    + assert (H : In (rminl a l) (a :: l)) by (destruct H3 as [->|]; simpl; auto).
      apply Hin in H as [i [Hi ->]]. apply Hmono. lia.
  - destruct (rmaxl_spec l a) as [H1 [H2 H3]]. apply Rle_antisym.
    + assert (H : In (rmaxl a l) (a :: l)) by (destruct H3 as [->|]; simpl; auto).
      apply Hin in H as [i [Hi ->]]. apply Hmono. lia.
    + destruct (Hin2 (lo + m - 1)) as [H|H]; [lia|rewrite <- H; exact H1|apply H2; exact H].
Qed.

(** The cells that are loaded, and the new bounds. *)
Lemma adapt_spec N pmin pmax pn ne : 2 <= N -> 1 <= pn -> 0 <= ne ->
  exists lo hi a b, adapt_to_grid (centres x0 dx N) pmin pmax pn ne = Ok (a, b, (hi - lo) * pn) /\
    0 <= lo <= hi /\ hi <= N /\
    (lo < hi -> a = (x0 + IZR lo * dx)%R /\ b = (x0 + IZR hi * dx)%R) /\
    (forall i, 0 <= i < N -> (lo <= i < hi <-> i < N - ne /\ (pmin < f i < pmax)%R)).
Proof.
  intros HN Hpn Hne. unfold centres.
  assert (E : exists tl, map f (range N) = f 0 :: f 1 :: tl).
  { replace N with (1 + (1 + (N - 2))) by lia. rewrite range_add by lia.
    rewrite range_add by lia. change (range 1) with [0]. simpl.
    eexists. reflexivity. }
  destruct E as [tl E]. unfold adapt_to_grid. rewrite E.
  assert (Hr : range N = map (Z.add 0) (range N)).
  { rewrite <- (map_id (range N)) at 1. apply map_ext. intros; lia. }
  destruct (minmax_centres 0 N (f 0) (f 1 :: tl)) as [Emin Emax]; [lia|rewrite <- Hr; exact E|].
  rewrite Emin, Emax. rewrite <- E.
  set (pmin' := if Rlt_dec pmin _ then _ else _).
  set (pmax' := if Rlt_dec _ pmax then _ else _).
  set (P := fun i => (if Rlt_dec pmin' (f i) then true else false) && (if Rlt_dec (f i) pmax' then true else false)).
  assert (HP : forall i, P i = true <-> (pmin' < f i < pmax')%R).
  { intros i. unfold P. destruct (Rlt_dec pmin' (f i)), (Rlt_dec (f i) pmax'); simpl; split; try tauto; try discriminate. }
  assert (Hfm : filter (fun x => (if Rlt_dec pmin' x then true else false) && (if Rlt_dec x pmax' then true else false))
                  (map f (range N)) = map f (filter P (range N))).
  { apply filter_map_comm. reflexivity. }
  rewrite Hfm.
  assert (Hmono : forall i j, i <= j -> (f i <= f j)%R).
  { intros i j Hij. apply IZR_le in Hij. nra. }
  destruct (filter_interval P N) as (lo & hi & H1 & H2 & H3 & H4); [lia| |].
  { intros i j k Hij Hjk Hi Hk. apply HP in Hi, Hk. apply HP.
    split.
    - apply Rlt_le_trans with (f i); [apply Hi|apply Hmono; lia].
    - apply Rle_lt_trans with (f k); [apply Hmono; lia|apply Hk]. }
  assert (Hiff : forall i, 0 <= i < N -> (lo <= i < hi <-> i < N - ne /\ (pmin < f i < pmax)%R)).
  { intros i Hi. rewrite <- H4 by exact Hi. rewrite HP.
    assert (Hedge : (f 0%Z - 0.5 * (f 1%Z - f 0%Z) = x0)%R) by (simpl; lra).
    assert (Hi0 : (x0 < f i)%R).
    { assert (0 <= IZR i)%R by (apply (IZR_le 0); lia). nra. }
    assert (A : (pmin' < f i <-> pmin < f i)%R).
    { unfold pmin'. match goal with |- context [if ?d then _ else _] => destruct d as [Hl|Hl] end; [|tauto]. rewrite Hedge in *. split; intro; lra. }
    assert (B : (f i < pmax')%R <-> i < N - ne /\ (f i < pmax)%R).
    { assert (Htop : (f (0 + N - 1)%Z + (0.5 - IZR ne) * (f 1%Z - f 0%Z) = x0 + IZR (N - ne) * dx)%R).
      { rewrite !minus_IZR, plus_IZR. lra. }
      assert (C : (f i < x0 + IZR (N - ne) * dx)%R <-> i < N - ne).
      { split; intros HH.
        - destruct (Z.lt_ge_cases i (N - ne)) as [|Hge]; [assumption|exfalso].
          apply IZR_le in Hge. nra.
        - assert (IZR (i + 1) <= IZR (N - ne))%R by (apply IZR_le; lia). rewrite plus_IZR in H. nra. }
      cbv beta in *. unfold pmax'. match goal with |- context [if ?d then _ else _] => destruct d as [Hl|Hl] end.
      - split; [intros Hx; assert (i < N - ne) by (apply C; lra); split; [assumption|lra]
               |intros [Hx _]; apply C in Hx; lra].
      - split; [intros Hx; split; [apply C; lra|exact Hx]|intros [_ Hx]; exact Hx]. }
    tauto. }
  rewrite H3.
  assert (Hlen : Z.of_nat (length (map f (map (Z.add lo) (range (hi - lo))))) = hi - lo).
  { rewrite !map_length, length_range. lia. }
  destruct (map f (map (Z.add lo) (range (hi - lo)))) as [|a l] eqn:El.
  - exists lo, hi, pmin', pmax'. rewrite Hlen. split; [reflexivity|]. split; [lia|]. split; [lia|].
    split; [|exact Hiff]. simpl in Hlen. lia.
  - assert (Hm : 0 < hi - lo) by (simpl in Hlen; lia).
    destruct (minmax_centres lo (hi - lo) a l Hm El) as [E1 E2].
    rewrite Hlen. destruct (Z.ltb_spec 0 ((hi - lo) * pn)); [|nia].
    exists lo, hi. do 2 eexists. split; [reflexivity|]. split; [lia|]. split; [lia|].
    split; [|exact Hiff]. intros _. rewrite E1, E2. split.
    + simpl. lra.
    + replace (lo + (hi - lo) - 1) with (hi - 1) by lia. rewrite minus_IZR. simpl. lra.
Qed.
End Centres.

(** Sums over the particles of one cell. *)
Lemma inside_true a b x : inside a b x = true <-> (a < x < b)%R.
Proof. unfold inside. destruct (Rlt_dec a x), (Rlt_dec x b); simpl; split; try tauto; discriminate. Qed.

(** Lattice points of a sub-interval. *)
Lemma inside_lattice x0 dx p a i : (0 < dx)%R -> 1 <= p ->
  inside (x0 + IZR a * dx) (x0 + IZR (a + 1) * dx) (x0 + dx / IZR p * (IZR i + /2)) = true
  <-> a * p <= i < (a + 1) * p.
Proof.
  intros Hdx Hp. rewrite inside_true.
  assert (HP : (0 < IZR p)%R) by (apply (IZR_lt 0); lia).
  assert (E : (x0 + dx / IZR p * (IZR i + /2) = x0 + (IZR i + / 2) * (dx / IZR p))%R) by ring.
  rewrite E. set (q := (dx / IZR p)%R). assert (Hq : (0 < q)%R) by (apply Rdiv_lt_0_compat; lra).
  replace (IZR a * dx)%R with (IZR (a * p) * q)%R by (unfold q; rewrite mult_IZR; field; lra).
  replace (IZR (a + 1) * dx)%R with (IZR ((a + 1) * p) * q)%R by (unfold q; rewrite mult_IZR; field; lra).
  split.
  - intros [H1 H2]. split.
    + destruct (Z.le_gt_cases (a * p) i) as [|Hlt]; [assumption|exfalso].
      assert (IZR (i + 1) <= IZR (a * p))%R by (apply IZR_le; lia). rewrite plus_IZR in H. nra.
    + destruct (Z.lt_ge_cases i ((a + 1) * p)) as [|Hge]; [assumption|exfalso].
      apply IZR_le in Hge. nra.
  - intros [H1 H2]. apply IZR_le in H1.
    assert (IZR (i + 1) <= IZR ((a + 1) * p))%R by (apply IZR_le; lia). rewrite plus_IZR in H. split; nra.
Qed.

(** sum of [g] over the indices of block [a] selected by an indicator. *)
Lemma sum_block (P : Z -> bool) (g : Z -> R) nc p a : 1 <= p -> 0 <= a < nc ->
  (forall i, P i = true <-> a * p <= i < (a + 1) * p) ->
  sumR (map (fun i => if P i then g i else 0%R) (range (nc * p)))
  = sumR (map (fun i => g (a * p + i)) (range p)).
Proof.
  intros Hp Ha HP.
  replace (nc * p) with (a * p + (p + (nc - a - 1) * p)) by lia.
  rewrite range_add by nia. rewrite map_app, sumR_app.
  rewrite range_add by nia. rewrite !map_app, sumR_app, !map_map.
  assert (E1 : sumR (map (fun i => if P i then g i else 0%R) (range (a * p))) = 0%R).
  { rewrite (sumR_ext _ (fun _ => 0%R)).
    - rewrite sumR_const. lra.
    - intros i Hi. apply in_range in Hi. destruct (P i) eqn:E; [apply HP in E; lia|reflexivity]. }
  assert (E3 : sumR (map (fun i => if P (a * p + (p + i)) then g (a * p + (p + i)) else 0%R) (range ((nc - a - 1) * p))) = 0%R).
  { rewrite (sumR_ext _ (fun _ => 0%R)).
    - rewrite sumR_const. lra.
    - intros i Hi. apply in_range in Hi. destruct (P (a * p + (p + i))) eqn:E; [apply HP in E; nia|reflexivity]. }
  rewrite E1, E3. rewrite (sumR_ext _ (fun i => g (a * p + i))); [lra|].
  intros i Hi. apply in_range in Hi. destruct (P (a * p + i)) eqn:E; [reflexivity|].
  assert (P (a * p + i) = true) by (apply HP; nia). congruence.
Qed.

(** Midpoint sums of a linear function. *)
Lemma sum_midpoints x dx p : 0 <= p ->
  sumR (map (fun i => x + dx * (IZR i + /2))%R (range p)) = (IZR p * x + dx * (IZR p * IZR p) / 2)%R.
Proof.
  intros H. pattern p. apply natlike_ind; [| |exact H].
  - simpl. lra.
  - intros k Hk IH. unfold Z.succ. rewrite range_succ by exact Hk. rewrite map_app, sumR_app, IH.
    simpl. rewrite plus_IZR. lra.
Qed.

Lemma filter_all {A} (P : A -> bool) l : (forall a, In a l -> P a = true) -> filter P l = l.
Proof. induction l; simpl; intros H; [reflexivity|]. rewrite H, IHl; auto. Qed.

Lemma sum_filter {A} (P : A -> bool) (g : A -> R) l :
  sumR (map g (filter P l)) = sumR (map (fun a => if P a then g a else 0%R) l).
Proof. induction l; simpl; [reflexivity|]. destruct (P a); simpl; rewrite IHl; lra. Qed.


Lemma cell_weight z0 dz r0 dr nc mc pz pr pt n ang a b :
  (0 < dz)%R -> (0 < dr)%R -> (0 <= r0)%R -> (0 < n)%R ->
  1 <= pz -> 1 <= pr -> 1 <= pt -> 0 <= a < nc -> 0 <= b < mc ->
  let l := generate_evenly_spaced (nc * pz) z0 (z0 + IZR nc * dz) (mc * pr) r0 (r0 + IZR mc * dr) pt n NoDens ang in
  weight_in l (z0 + IZR a * dz) (z0 + IZR (a + 1) * dz) (r0 + IZR b * dr) (r0 + IZR (b + 1) * dr)
  = (n * (PI * ((r0 + IZR (b + 1) * dr) ^ 2 - (r0 + IZR b * dr) ^ 2) * dz))%R.
Proof.
  intros Hdz Hdr Hr0 Hn Hpz Hpr Hpt Ha Hb l. unfold l.
  assert (HPZ : (0 < IZR pz)%R) by (apply (IZR_lt 0); lia).
  assert (HPR : (0 < IZR pr)%R) by (apply (IZR_lt 0); lia).
  assert (HPT : (0 < IZR pt)%R) by (apply (IZR_lt 0); lia).
  assert (HMC : (0 < IZR mc)%R) by (apply (IZR_lt 0); lia).
  assert (HNC : (0 < IZR nc)%R) by (apply (IZR_lt 0); lia).
  rewrite (loaded_lattice (nc * pz) z0 _ (mc * pr) r0 _ pt n NoDens ang (dz / IZR pz)) by
    (try nia; intros _; rewrite mult_IZR; field; lra).
  unfold weight_in, lattice, plane. rewrite Z.sub_0_r.
  assert (Edr : ((r0 + IZR mc * dr - r0) / IZR (mc * pr) = dr / IZR pr)%R).
  { rewrite mult_IZR. field. lra. }
  rewrite Edr. set (q := (dr / IZR pr)%R). assert (Hq : (0 < q)%R) by (apply Rdiv_lt_0_compat; lra).
  assert (HPI : (0 < PI)%R) by apply PI_RGT_0.
  rewrite (filter_all keep).
  2:{ intros p Hp. apply in_flat_map in Hp as [i [_ Hp]]. apply in_flat_map in Hp as [j [Hj Hp]].
      apply in_map_iff in Hp as [k [<- _]]. apply in_range in Hj. unfold keep. cbn [m_w dens_at].
      destruct (Rlt_dec _ _) as [|H0]; [reflexivity|exfalso; apply H0].
      assert (0 <= IZR j)%R by (apply (IZR_le 0); lia).
      rewrite Rmult_1_r.
      assert (B1 : (0 < r0 + q * (IZR j + /2))%R) by (assert (0 < q * (IZR j + /2))%R by (apply Rmult_lt_0_compat; lra); lra).
      assert (B2 : (0 < 2 * PI / IZR pt)%R) by (apply Rdiv_lt_0_compat; lra).
      assert (B3 : (0 < dz / IZR pz)%R) by (apply Rdiv_lt_0_compat; lra).
      exact (Rmult_lt_0_compat _ _ Hn (Rmult_lt_0_compat _ _ (Rmult_lt_0_compat _ _ (Rmult_lt_0_compat _ _ B1 B2) Hq) B3)). }
  rewrite sum_filter, map_flat_map, sumR_flat_map.
  set (wj := fun j : Z => (n * 1 * ((r0 + q * (IZR j + /2)) * (2 * PI / IZR pt) * q * (dz / IZR pz)))%R).
  rewrite (sumR_ext _ (fun i => if inside (z0 + IZR a * dz) (z0 + IZR (a + 1) * dz) (z0 + dz / IZR pz * (IZR i + /2))
     then sumR (map (fun j => if inside (r0 + IZR b * dr) (r0 + IZR (b + 1) * dr) (r0 + q * (IZR j + /2))
                              then (IZR pt * wj j)%R else 0%R) (range (mc * pr))) else 0%R)).
  2:{ intros i _. rewrite Z.add_0_l. rewrite map_flat_map, sumR_flat_map.
      destruct (inside (z0 + IZR a * dz) (z0 + IZR (a + 1) * dz) _) eqn:Ei.
      - apply sumR_ext. intros j _. rewrite map_map. cbn [m_z m_r m_w dens_at]. rewrite Ei. cbn [andb].
        destruct (inside (r0 + IZR b * dr) _ _).
        + rewrite sumR_const, length_range. f_equal. rewrite INR_IZR_INZ, Z2Nat.id by lia. reflexivity.
        + rewrite sumR_const. lra.
      - rewrite (sumR_ext _ (fun _ => 0%R)); [rewrite sumR_const; lra|]. intros j _. rewrite map_map.
        cbn [m_z m_r m_w dens_at]. rewrite Ei. cbn [andb]. rewrite sumR_const. lra. }
  rewrite (sum_block (fun i => inside (z0 + IZR a * dz) (z0 + IZR (a + 1) * dz) (z0 + dz / IZR pz * (IZR i + /2)))
             (fun _ => sumR (map (fun j => if inside (r0 + IZR b * dr) (r0 + IZR (b + 1) * dr) (r0 + q * (IZR j + /2))
                              then (IZR pt * wj j)%R else 0%R) (range (mc * pr)))) nc pz a)
    by (try assumption; intros; apply inside_lattice; assumption).
  rewrite sumR_const, length_range, INR_IZR_INZ, Z2Nat.id by lia.
  rewrite (sum_block (fun j => inside (r0 + IZR b * dr) (r0 + IZR (b + 1) * dr) (r0 + q * (IZR j + /2)))
             (fun j => (IZR pt * wj j)%R) mc pr b)
    by (try assumption; intros; apply inside_lattice; assumption).
  unfold wj.
  rewrite (sumR_ext _ (fun i => (IZR pt * n * (2 * PI / IZR pt) * q * (dz / IZR pz))
            * ((r0 + IZR b * dr) + q * (IZR i + /2)))%R).
  2:{ intros i _. rewrite plus_IZR, mult_IZR. unfold q. field. lra. }
  rewrite sumR_scal, sum_midpoints by lia. unfold q. rewrite plus_IZR. field. lra.
Qed.

(** Bounds that fall on cell edges are respected exactly. *)
Lemma align_below x0 dx m i : (0 < dx)%R -> (x0 + (IZR i + 0.5) * dx < x0 + IZR m * dx)%R -> i < m.
Proof.
  intros Hd H. destruct (Z.lt_ge_cases i m) as [|Hge]; [assumption|exfalso]. apply IZR_le in Hge. nra.
Qed.
Lemma align_above x0 dx m i : (0 < dx)%R -> (x0 + IZR m * dx < x0 + (IZR i + 0.5) * dx)%R -> m <= i.
Proof.
  intros Hd H. destruct (Z.le_gt_cases m i) as [|Hlt]; [assumption|exfalso].
  assert (IZR (i + 1) <= IZR m)%R by (apply IZR_le; lia). rewrite plus_IZR in H0. nra.
Qed.

Lemma gen_inside Npz zmin zmax Npr rmin rmax Nth n d ang p :
  0 < Npz -> (zmin < zmax)%R -> 0 < Npr -> (rmin < rmax)%R ->
  In p (generate_evenly_spaced Npz zmin zmax Npr rmin rmax Nth n d ang) ->
  (zmin < m_z p < zmax)%R /\ (rmin < m_r p < rmax)%R /\ (0 < m_w p)%R.
Proof.
  intros H1 H2 H3 H4. unfold generate_evenly_spaced. destruct (0 <? _); [|intros []].
  intros Hp. apply filter_In in Hp as [Hp Hk]. unfold keep in Hk.
  destruct (Rlt_dec 0 (m_w p)) as [Hw|]; [|discriminate].
  apply in_flat_map in Hp as [i [Hi Hp]]. apply in_flat_map in Hp as [j [Hj Hp]].
  apply in_map_iff in Hp as [k [<- _]]. apply in_range in Hi, Hj. cbn [m_z m_r] in *.
  assert (gen : forall N x y q, 0 < N -> (x < y)%R -> 0 <= q < N ->
    (x < x + (y - x) * 1 / IZR N * (IZR q + 0.5) < y)%R).
  { intros N x y q HN Hxy Hq.
    assert (HNR : (0 < IZR N)%R) by (apply (IZR_lt 0); lia).
    assert (A : (0 <= IZR q)%R) by (apply (IZR_le 0); lia).
    assert (B : (IZR (q + 1) <= IZR N)%R) by (apply IZR_le; lia). rewrite plus_IZR in B.
    assert (E : ((y - x) * 1 / IZR N * (IZR q + 0.5) = (y - x) * ((IZR q + 0.5) / IZR N))%R) by (field; lra).
    rewrite E.
    assert (0 < (IZR q + 0.5) / IZR N)%R by (apply Rdiv_lt_0_compat; lra).
    assert ((IZR q + 0.5) / IZR N < 1)%R by (apply Rmult_lt_reg_r with (IZR N); [lra|]; field_simplify; lra).
    split; nra. }
  split; [apply gen; assumption|]. split; [apply gen; assumption|exact Hw].
Qed.

(** Everything together. The selected cells are those whose centre is strictly in the requested
    range and in the physical domain. *)
Lemma C53_main gz dz Nz dr Nr mlo mhi nr zmin_loc zmax_loc r_phys p_zmin p_zmax p_rmin p_rmax pz pr pt n ang :
  (0 < dz)%R -> (0 < dr)%R -> 2 <= Nz -> 2 <= Nr -> 1 <= pz -> 1 <= pr -> 1 <= pt -> (0 < n)%R ->
  zmin_loc = (gz + IZR mlo * dz)%R -> zmax_loc = (gz + IZR mhi * dz)%R -> r_phys = (IZR nr * dr)%R ->
  exists l,
    load_uniform gz dz Nz dr Nr zmin_loc zmax_loc r_phys p_zmin p_zmax p_rmin p_rmax pz pr pt n ang = Ok l /\
    (forall p, In p l -> (0 < m_w p)%R /\
       (zmin_loc < m_z p < zmax_loc)%R /\ (gz < m_z p < gz + IZR Nz * dz)%R /\
       (p_zmin - dz / 2 < m_z p < p_zmax + dz / 2)%R /\
       (0 < m_r p < r_phys)%R /\ (m_r p < IZR Nr * dr)%R /\
       (p_rmin - dr / 2 < m_r p < p_rmax + dr / 2)%R) /\
    (forall iz ir, 0 <= iz < Nz -> 0 <= ir < Nr ->
       let zc := (gz + (IZR iz + 0.5) * dz)%R in let rc := ((IZR ir + 0.5) * dr)%R in
       (p_zmin < zc < p_zmax)%R -> (zmin_loc < zc < zmax_loc)%R ->
       (p_rmin < rc < p_rmax)%R -> (rc < r_phys)%R ->
       weight_in l (gz + IZR iz * dz) (gz + IZR (iz + 1) * dz) (IZR ir * dr) (IZR (ir + 1) * dr)
       = (n * (PI * ((IZR (ir + 1) * dr) ^ 2 - (IZR ir * dr) ^ 2) * dz))%R) /\
    (forall iz, 0 <= iz < Nz -> 
       let zc := (gz + (IZR iz + 0.5) * dz)%R in
       ~ ((p_zmin < zc < p_zmax)%R /\ (zmin_loc < zc < zmax_loc)%R) ->
       forall p, In p l -> ~ (gz + IZR iz * dz <= m_z p <= gz + IZR (iz + 1) * dz)%R).
Proof.
  intros Hdz Hdr HNz HNr Hpz Hpr Hpt Hn Ezl Ezh Erp. unfold load_uniform.
  destruct (adapt_spec gz dz Hdz Nz (Rmax zmin_loc p_zmin) (Rmin zmax_loc p_zmax) pz 0 HNz Hpz ltac:(lia))
    as (zlo & zhi & a & b & Ez & Hz1 & Hz2 & Hz3 & Hz4).
  destruct (adapt_spec 0 dr Hdr Nr p_rmin (Rmin r_phys p_rmax) pr 0 HNr Hpr ltac:(lia))
    as (rlo & rhi & a' & b' & Er & Hr1 & Hr2 & Hr3 & Hr4).
  rewrite Ez. cbn [bind]. rewrite Er. cbn [bind].
  eexists. split; [reflexivity|].
  assert (Hz5 : forall i, 0 <= i < Nz -> (zlo <= i < zhi <->
     (p_zmin < gz + (IZR i + 0.5) * dz < p_zmax)%R /\ (zmin_loc < gz + (IZR i + 0.5) * dz < zmax_loc)%R)).
  { intros i Hi. rewrite Hz4 by exact Hi. unfold Rmax, Rmin.
    destruct (Rle_dec zmin_loc p_zmin), (Rle_dec zmax_loc p_zmax); split; intros; split; try lia; lra. }
  assert (Hr5 : forall i, 0 <= i < Nr -> (rlo <= i < rhi <->
     (p_rmin < 0 + (IZR i + 0.5) * dr < p_rmax)%R /\ (0 + (IZR i + 0.5) * dr < r_phys)%R)).
  { intros i Hi. rewrite Hr4 by exact Hi. unfold Rmin.
    destruct (Rle_dec r_phys p_rmax); split; intros; split; try lia; lra. }
  destruct (Z.eq_dec zlo zhi) as [Hez|Hez].
  { (* nothing selected in z *)
    replace ((zhi - zlo) * pz) with 0 by (subst; lia).
    replace (generate_evenly_spaced 0 a b ((rhi - rlo) * pr) a' b' pt n NoDens ang) with (@nil mp) by reflexivity.
    split; [intros p []|]. split; [|intros ? ? ? p []].
    intros iz ir Hiz Hir Hc1 Hc2 Hc3 Hc4.
    assert (zlo <= iz < zhi) by (apply Hz5; [exact Hiz|]; split; assumption). lia. }
  destruct (Z.eq_dec rlo rhi) as [Her|Her].
  { replace ((rhi - rlo) * pr) with 0 by (subst; lia).
    replace (generate_evenly_spaced ((zhi - zlo) * pz) a b 0 a' b' pt n NoDens ang) with (@nil mp)
      by (unfold generate_evenly_spaced; rewrite Z.mul_0_r; reflexivity).
    split; [intros p []|]. split; [|intros ? ? ? p []].
    intros iz ir Hiz Hir Hc1 Hc2 Hc3 Hc4.
    assert (rlo <= ir < rhi) by (apply Hr5; [exact Hir|]; rewrite Rplus_0_l; split; assumption). lia. }
  assert (Hzlt : zlo < zhi) by lia. assert (Hrlt : rlo < rhi) by lia.
  destruct (Hz3 Hzlt) as [-> ->]. destruct (Hr3 Hrlt) as [-> ->].
  (* the first and last selected cells *)
  destruct (proj1 (Hz5 zlo ltac:(lia)) ltac:(lia)) as [Za Zb].
  destruct (proj1 (Hz5 (zhi - 1) ltac:(lia)) ltac:(lia)) as [Zc Zd].
  destruct (proj1 (Hr5 rlo ltac:(lia)) ltac:(lia)) as [Ra Rb].
  destruct (proj1 (Hr5 (rhi - 1) ltac:(lia)) ltac:(lia)) as [Rc Rd].
  rewrite minus_IZR in Zc, Zd, Rc, Rd.
  assert (A1 : mlo <= zlo) by (apply (align_above gz dz mlo zlo Hdz); rewrite <- Ezl; lra).
  assert (A2 : zhi - 1 < mhi) by (apply (align_below gz dz mhi (zhi - 1) Hdz); rewrite <- Ezh, minus_IZR; lra).
  assert (A3 : rhi - 1 < nr) by (apply (align_below 0 dr nr (rhi - 1) Hdr); rewrite minus_IZR; lra).
  assert (I1 : (IZR mlo <= IZR zlo)%R) by (apply IZR_le; lia).
  assert (I2 : (IZR zhi <= IZR mhi)%R) by (apply IZR_le; lia).
  assert (I3 : (IZR rhi <= IZR nr)%R) by (apply IZR_le; lia).
  assert (I4 : (0 <= IZR zlo)%R) by (apply (IZR_le 0); lia).
  assert (I5 : (IZR zhi <= IZR Nz)%R) by (apply IZR_le; lia).
  assert (I6 : (0 <= IZR rlo)%R) by (apply (IZR_le 0); lia).
  assert (I7 : (IZR rhi <= IZR Nr)%R) by (apply IZR_le; lia).
  assert (Hzw : (gz + IZR zlo * dz < gz + IZR zhi * dz)%R) by (apply IZR_lt in Hzlt; nra).
  assert (Hrw : (0 + IZR rlo * dr < 0 + IZR rhi * dr)%R) by (apply IZR_lt in Hrlt; nra).
  assert (HP1 : 0 < (zhi - zlo) * pz) by nia. assert (HP2 : 0 < (rhi - rlo) * pr) by nia.
  split; [|split].
  - intros p Hp.
    destruct (gen_inside ((zhi - zlo) * pz) _ _ ((rhi - rlo) * pr) _ _ _ _ _ _ p HP1 Hzw HP2 Hrw Hp) as [P1 [P2 P3]].
    assert (J1 : (IZR mlo * dz <= IZR zlo * dz)%R) by (apply Rmult_le_compat_r; [lra|exact I1]).
    assert (J2 : (IZR zhi * dz <= IZR mhi * dz)%R) by (apply Rmult_le_compat_r; lra).
    assert (J3 : (IZR rhi * dr <= IZR nr * dr)%R) by (apply Rmult_le_compat_r; lra).
    assert (J4 : (0 <= IZR zlo * dz)%R) by (apply Rmult_le_pos; lra).
    assert (J5 : (IZR zhi * dz <= IZR Nz * dz)%R) by (apply Rmult_le_compat_r; lra).
    assert (J6 : (0 <= IZR rlo * dr)%R) by (apply Rmult_le_pos; lra).
    assert (J7 : (IZR rhi * dr <= IZR Nr * dr)%R) by (apply Rmult_le_compat_r; lra).
    repeat split; lra.
  - intros iz ir Hiz Hir Hc1 Hc2 Hc3 Hc4.
    assert (Bz : zlo <= iz < zhi) by (apply Hz5; [exact Hiz|]; split; assumption).
    assert (Br : rlo <= ir < rhi) by (apply Hr5; [exact Hir|]; rewrite Rplus_0_l; split; assumption).
    pose proof (cell_weight (gz + IZR zlo * dz) dz (0 + IZR rlo * dr) dr (zhi - zlo) (rhi - rlo) pz pr pt n ang
      (iz - zlo) (ir - rlo) Hdz Hdr ltac:(nra) Hn Hpz Hpr Hpt ltac:(lia) ltac:(lia)) as W. cbv zeta in W.
    replace (gz + IZR zlo * dz + IZR (zhi - zlo) * dz)%R with (gz + IZR zhi * dz)%R in W by (rewrite minus_IZR; ring).
    replace (0 + IZR rlo * dr + IZR (rhi - rlo) * dr)%R with (0 + IZR rhi * dr)%R in W by (rewrite minus_IZR; ring).
    replace (gz + IZR zlo * dz + IZR (iz - zlo) * dz)%R with (gz + IZR iz * dz)%R in W by (rewrite minus_IZR; ring).
    replace (gz + IZR zlo * dz + IZR (iz - zlo + 1) * dz)%R with (gz + IZR (iz + 1) * dz)%R in W
      by (rewrite !plus_IZR, minus_IZR; ring).
    replace (0 + IZR rlo * dr + IZR (ir - rlo) * dr)%R with (IZR ir * dr)%R in W by (rewrite minus_IZR; ring).
    replace (0 + IZR rlo * dr + IZR (ir - rlo + 1) * dr)%R with (IZR (ir + 1) * dr)%R in W
      by (rewrite !plus_IZR, minus_IZR; ring).
    exact W.
  - intros iz Hiz Hnot p Hp Hin.
    destruct (gen_inside ((zhi - zlo) * pz) _ _ ((rhi - rlo) * pr) _ _ _ _ _ _ p HP1 Hzw HP2 Hrw Hp) as [P1 [P2 P3]].
    assert (~ (zlo <= iz < zhi)) by (intros HH; apply Hnot; apply Hz5; assumption).
    rewrite plus_IZR in Hin.
    assert (iz < zlo \/ zhi <= iz) as [Hlt|Hge] by lia.
    + assert (IZR (iz + 1) <= IZR zlo)%R by (apply IZR_le; lia). rewrite plus_IZR in H0. nra.
    + apply IZR_le in Hge. nra.
Qed.
