(** Lemmas for C17: lattice algebra and the invariant of the injection histories. *)
From Verif Require Import Base Decomp_Model Inject_Model Inject_Spec.
From Coq Require Import Reals Lra.
From Flocq Require Import Core.Core.
Open Scope Z_scope.

Lemma range_add a b : 0 <= a -> 0 <= b -> range (a + b) = range a ++ map (Z.add a) (range b).
Proof.
  intros Ha Hb. unfold range, zrange.
  replace (Z.to_nat (a + b)) with (Z.to_nat a + Z.to_nat b)%nat by lia.
  rewrite seq_app, map_app. f_equal. rewrite map_map. simpl.
  replace (Z.to_nat a) with (Z.to_nat a + 0)%nat at 1 by lia.
  generalize 0%nat. induction (Z.to_nat b) as [|k IH]; intros s; simpl; [reflexivity|].
  f_equal; [lia|]. replace (S (Z.to_nat a + s))%nat with (Z.to_nat a + S s)%nat by lia. apply IH.
Qed.

Lemma flat_map_ext_in {A B} (f g : A -> list B) l :
  (forall a, In a l -> f a = g a) -> flat_map f l = flat_map g l.
Proof. induction l; simpl; intros H; [reflexivity|]. rewrite H, IHl; auto. Qed.
Lemma flat_map_map {A B X} (f : B -> list X) (g : A -> B) l :
  flat_map f (map g l) = flat_map (fun a => f (g a)) l.
Proof. induction l; simpl; congruence. Qed.
Lemma map_flat_map {A B X} (g : B -> X) (f : A -> list B) l :
  map g (flat_map f l) = flat_map (fun a => map g (f a)) l.
Proof. induction l; simpl; [reflexivity|]. rewrite map_app; congruence. Qed.
Lemma filter_map_comm {A B} (p : B -> bool) (q : A -> bool) (g : A -> B) l :
  (forall a, p (g a) = q a) -> filter p (map g l) = map g (filter q l).
Proof.
  intros H. induction l; simpl; [reflexivity|]. rewrite H. destruct (q a); simpl; congruence.
Qed.
Lemma flat_map_nil {A B} (f : A -> list B) l : (forall a, In a l -> f a = []) -> flat_map f l = [].
Proof. induction l; simpl; intros H; [reflexivity|]. rewrite H, IHl; auto. Qed.

Section L.
Variables (z0 dzp : R) (Npr : Z) (rmin rmax : R) (Nth : Z) (n : R) (d : dens).
Local Notation lat := (lattice z0 dzp Npr rmin rmax Nth n d).
Local Notation pl := (plane z0 dzp Npr rmin rmax Nth n d).

Lemma plane_ext a b k : (forall j, a k j = b k j) -> pl a k = pl b k.
Proof.
  intros H. unfold plane. apply flat_map_ext_in. intros j _. apply map_ext. intros i.
  rewrite H. reflexivity.
Qed.
Lemma lattice_ext a b lo hi : (forall k j, lo <= k < hi -> a k j = b k j) -> lat a lo hi = lat b lo hi.
Proof.
  intros H. unfold lattice. f_equal. apply flat_map_ext_in. intros k Hk. apply in_range in Hk.
  apply plane_ext. intros j. apply H. lia.
Qed.
Lemma lattice_app a lo mid hi : lo <= mid <= hi -> lat a lo mid ++ lat a mid hi = lat a lo hi.
Proof.
  intros H. unfold lattice. rewrite <- filter_app. f_equal.
  replace (hi - lo) with ((mid - lo) + (hi - mid)) by lia.
  rewrite range_add by lia. rewrite flat_map_app, flat_map_map. f_equal.
  apply flat_map_ext_in. intros k _. f_equal. lia.
Qed.
Lemma lattice_empty a lo hi : hi <= lo -> lat a lo hi = [].
Proof. intros H. unfold lattice. rewrite range_0 by lia. reflexivity. Qed.
Lemma lattice_one a k : lat a k (k + 1) = filter keep (pl a k).
Proof.
  unfold lattice. replace (k + 1 - k) with 1 by lia. change (range 1) with [0]. simpl.
  rewrite app_nil_r. do 2 f_equal. lia.
Qed.
Lemma plane_z a k p : In p (pl a k) -> m_z p = (z0 + dzp * (IZR k + /2))%R.
Proof.
  unfold plane. intros H. apply in_flat_map in H as [j [_ H]]. apply in_map_iff in H as [i [<- _]].
  reflexivity.
Qed.
Lemma lattice_z a lo hi p : In p (lat a lo hi) ->
  exists k, lo <= k < hi /\ m_z p = (z0 + dzp * (IZR k + /2))%R.
Proof.
  unfold lattice. intros H. apply filter_In in H as [H _]. apply in_flat_map in H as [k [Hk H]].
  apply in_range in Hk. exists (lo + k). split; [lia|]. eapply plane_z; eauto.
Qed.

(** Trailing empty planes do not matter: the lattice ends at the site of the last particle. *)
Lemma lattice_top a hi : 0 <= hi -> lat a 0 hi <> [] ->
  exists M, 0 < M <= hi /\ lat a 0 hi = lat a 0 M /\ exists p, In p (lat a (M - 1) M).
Proof.
  intros Hh. pattern hi. apply natlike_ind; [| |exact Hh].
  - intros H. exfalso. apply H. apply lattice_empty. lia.
  - intros x Hx IH H. unfold Z.succ in *.
    rewrite <- (lattice_app a 0 x (x + 1)) in H |- * by lia.
    destruct (lat a x (x + 1)) as [|p l] eqn:E.
    + rewrite app_nil_r in *. destruct (IH H) as [M [HM HM2]]. exists M. split; [lia|exact HM2].
    + exists (x + 1). split; [lia|]. split.
      * rewrite <- E. apply lattice_app. lia.
      * exists p. replace (x + 1 - 1) with x by lia. rewrite E. left. reflexivity.
Qed.
End L.

Lemma rmaxl_spec l : forall a, (a <= rmaxl a l)%R /\ (forall x, In x l -> (x <= rmaxl a l)%R)
  /\ (rmaxl a l = a \/ In (rmaxl a l) l).
Proof.
  unfold rmaxl. induction l as [|y l IH]; intros a; simpl.
  - repeat split; [lra|tauto|auto].
  - destruct (IH (Rmax a y)) as [H1 [H2 H3]]. split; [|split].
    + eapply Rle_trans; [apply Rmax_l|exact H1].
    + intros x [<-|Hx]; [eapply Rle_trans; [apply Rmax_r|exact H1]|auto].
    + destruct H3 as [H3|H3]; [|auto]. rewrite H3. unfold Rmax. destruct (Rle_dec a y); auto.
Qed.

Lemma rmaxl_lattice z0 dzp Npr rmin rmax Nth n d a hi p l : (0 < dzp)%R -> 0 <= hi ->
  lattice z0 dzp Npr rmin rmax Nth n d a 0 hi = p :: l ->
  exists M, 0 < M <= hi /\
    lattice z0 dzp Npr rmin rmax Nth n d a 0 hi = lattice z0 dzp Npr rmin rmax Nth n d a 0 M /\
    rmaxl (m_z p) (map m_z l) = (z0 + dzp * (IZR M - /2))%R.
Proof.
  intros Hd Hh E.
  destruct (lattice_top z0 dzp Npr rmin rmax Nth n d a hi Hh) as [M [HM [EM [q Hq]]]];
    [rewrite E; discriminate|].
  exists M. split; [exact HM|]. split; [exact EM|].
  assert (Hqz : m_z q = (z0 + dzp * (IZR M - /2))%R).
  { apply lattice_z in Hq as [k [Hk ->]]. replace M with (k + 1) by lia. rewrite plus_IZR. lra. }
  destruct (rmaxl_spec (map m_z l) (m_z p)) as [H1 [H2 H3]].
  assert (Hall : forall x, In x (p :: l) -> (m_z x <= rmaxl (m_z p) (map m_z l))%R).
  { intros x [<-|Hx]; [exact H1|]. apply H2. apply in_map. exact Hx. }
  assert (Hex : exists x, In x (p :: l) /\ rmaxl (m_z p) (map m_z l) = m_z x).
  { destruct H3 as [->|H3]; [exists p; simpl; auto|]. apply in_map_iff in H3 as [x [<- Hx]].
    exists x. simpl. auto. }
  apply Rle_antisym.
  - destruct Hex as [x [Hx ->]]. rewrite <- E, EM in Hx. apply lattice_z in Hx as [k [Hk ->]].
    apply Rplus_le_compat_l. apply Rmult_le_compat_l; [lra|].
    assert (IZR (k + 1) <= IZR M)%R by (apply IZR_le; lia). rewrite plus_IZR in H. lra.
  - rewrite <- Hqz. apply Hall. rewrite <- E, EM.
    rewrite <- (lattice_app _ _ _ _ _ _ _ _ a 0 (M - 1) M) by lia. apply in_or_app. right. exact Hq.
Qed.

(** The particles created in one call, seen in the plasma frame. *)
Lemma keep_frame vend t p : keep (in_plasma_frame vend (t, p)) = keep p.
Proof. reflexivity. Qed.

Lemma dens_frame d vend t z r th :
  dens_at (moving_dens d vend t) z r th = dens_at d (z - vend * t)%R r th.
Proof. destruct d; reflexivity. Qed.

Lemma gen_block nz zmin zmax Npr rmin rmax Nth n d vend t ang z0 dzp N ang' :
  0 <= nz -> 0 <= Npr -> 0 <= Nth ->
  (nz <> 0 -> zmax = (zmin + IZR nz * dzp)%R) -> (zmin - vend * t = z0 + IZR N * dzp)%R ->
  (forall i j, 0 <= i < nz -> ang' (N + i) j = ang i j) ->
  map (fun p => in_plasma_frame vend (t, p))
      (generate_evenly_spaced nz zmin zmax Npr rmin rmax Nth n (moving_dens d vend t) ang)
  = lattice z0 dzp Npr rmin rmax Nth n d ang' N (N + nz).
Proof.
  intros Hnz HNr HNt Hzm Hz0 Hang. unfold generate_evenly_spaced, lattice.
  replace (N + nz - N) with nz by lia.
  destruct (Z.ltb_spec 0 (nz * Npr * Nth)) as [Hpos|Hneg].
  - assert (nz <> 0) by (intro; subst; lia). specialize (Hzm H).
    rewrite <- filter_map_comm with (p := keep) (q := keep) by reflexivity.
    f_equal. rewrite map_flat_map. apply flat_map_ext_in. intros i Hi. apply in_range in Hi.
    unfold plane. rewrite map_flat_map. apply flat_map_ext_in. intros j Hj. apply in_range in Hj.
    rewrite map_map. apply map_ext. intros k. cbn [in_plasma_frame m_z m_r m_th m_w].
    rewrite dens_frame, Hang by exact Hi. rewrite plus_IZR.
    assert (HI : IZR nz <> 0%R) by (apply not_0_IZR; assumption).
    assert (E1 : ((zmax - zmin) * 1 / IZR nz = dzp)%R) by (rewrite Hzm; field; exact HI).
    rewrite E1.
    assert (E2 : (zmin + dzp * (IZR i + 0.5) - vend * t = z0 + dzp * (IZR N + IZR i + /2))%R) by lra.
    rewrite E2.
    assert (E3 : ((rmax - rmin) * 1 / IZR Npr = (rmax - rmin) / IZR Npr)%R) by (unfold Rdiv; ring).
    rewrite E3. replace 0.5%R with (/2)%R by lra. f_equal. ring.
  - simpl. assert (H : nz = 0 \/ Npr = 0 \/ Nth = 0) by nia.
    destruct H as [->|[->| ->]].
    + reflexivity.
    + rewrite flat_map_nil; [reflexivity|]. intros; reflexivity.
    + rewrite flat_map_nil; [reflexivity|]. intros i _. unfold plane. apply flat_map_nil.
      intros; reflexivity.
Qed.


(** Invariant over a history. *)
Lemma inject_inv v h : forall t j N nz zi ze z0 dzp,
  j_dzp j = Some dzp -> (0 < dzp)%R -> 0 <= j_Npr j -> 0 <= j_Nth j ->
  j_pos j = Some (nz, zi, ze) -> 0 <= nz -> (0 <= zi - ze)%R ->
  (ze = z0 + j_vend j * t + (IZR N + IZR nz) * dzp)%R ->
  (j_vend j <= v)%R -> durations_ok h ->
  exists out t' nz' zi' ze' N' ang,
    inject_run v t h j = Ok (out, t', set_pos (Some (nz', zi', ze')) j) /\
    0 <= nz' /\ N <= N' /\ (t <= t')%R /\
    (zi' = zi + v * (t' - t))%R /\
    (ze' = z0 + j_vend j * t' + (IZR N' + IZR nz') * dzp)%R /\
    (0 <= zi' - ze')%R /\ (moved h = true \/ (zi - ze < dzp)%R -> (zi' - ze' < dzp)%R) /\
    map (in_plasma_frame (j_vend j)) out
      = lattice z0 dzp (j_Npr j) (j_rmin j) (j_rmax j) (j_Nth j) (j_n j) (j_dens j) ang N N'.
Proof.
  induction h as [|o h IH]; intros t j N nz zi ze z0 dzp Hdz Hd HNr HNt Hp Hnz Hgap Hze Hv Hdur.
  - exists [], t, nz, zi, ze, N, (fun _ _ => 0%R). simpl. repeat split; try lra; try lia.
    + f_equal. f_equal. destruct j; unfold set_pos; cbn in *. congruence.
    + rewrite lattice_empty by lia. reflexivity.
  - assert (Hdur' : durations_ok h) by (intros x Hx; apply Hdur; right; exact Hx).
    destruct o as [dur|ang].
    + assert (Hd0 : (0 <= dur)%R) by (apply Hdur; left; reflexivity).
      cbn [inject_run]. unfold increment. rewrite Hp, Hdz. cbn [bind].
      set (zi1 := (zi + v * dur)%R). set (ze1 := (ze + j_vend j * dur)%R).
      set (nn := Ztrunc ((zi1 - ze1) / dzp)).
      assert (Hq : (0 <= (zi1 - ze1) / dzp)%R).
      { apply Rmult_le_pos; [|left; apply Rinv_0_lt_compat; exact Hd].
        unfold zi1, ze1. nra. }
      assert (Hnn : 0 <= nn) by (unfold nn; rewrite Ztrunc_floor by exact Hq; apply Zfloor_lub; exact Hq).
      assert (Hl : (IZR nn * dzp <= zi1 - ze1)%R).
      { replace (zi1 - ze1)%R with ((zi1 - ze1) / dzp * dzp)%R by (field; lra).
        apply Rmult_le_compat_r; [lra|]. unfold nn. rewrite Ztrunc_floor by exact Hq. apply Zfloor_lb. }
      assert (Hu : (zi1 - ze1 < (IZR nn + 1) * dzp)%R).
      { replace (zi1 - ze1)%R with ((zi1 - ze1) / dzp * dzp)%R at 1 by (field; lra).
        apply Rmult_lt_compat_r; [lra|]. unfold nn. rewrite Ztrunc_floor by exact Hq. apply Zfloor_ub. }
      set (j1 := set_pos _ j).
      destruct (IH (t + dur)%R j1 N (nz + nn) zi1 (ze1 + IZR nn * dzp)%R z0 dzp)
        as (out & t' & nz' & zi' & ze' & N' & ang & H1 & H2 & H3 & H4 & H5 & H6 & H7 & H8 & H9);
        try assumption; try reflexivity; try lia; try lra.
      { rewrite plus_IZR. unfold ze1. rewrite Hze. unfold j1. cbn. ring. }
      exists out, t', nz', zi', ze', N', ang. repeat split; try assumption.
      * lra.
      * rewrite H5. unfold zi1. ring.
      * intros _. apply H8. right. lra.
    + cbn [inject_run]. unfold generate_particles. rewrite Hp, Hdz. cbn [bind].
      set (j1 := set_pos (Some (0, zi, ze)) j).
      destruct (IH t j1 (N + nz) 0 zi ze z0 dzp)
        as (out & t' & nz' & zi' & ze' & N' & ang2 & H1 & H2 & H3 & H4 & H5 & H6 & H7 & H8 & H9);
        try assumption; try reflexivity; try lia; try lra.
      { rewrite Hze. unfold j1; cbn. rewrite plus_IZR. ring. }
      rewrite H1. cbn [bind].
      eexists _, t', nz', zi', ze', N',
        (fun k j => if k <? N + nz then ang (k - N) j else ang2 k j).
      split; [reflexivity|]. repeat split; try assumption; try lia.
      unfold j1 in H9. cbn [set_pos j_dzp j_Npr j_rmin j_rmax j_Nth j_n j_dens j_vend] in H9.
      rewrite map_app, H9, map_map.
      rewrite (gen_block nz (ze - IZR nz * dzp)%R ze (j_Npr j) (j_rmin j) (j_rmax j) (j_Nth j) (j_n j)
                 (j_dens j) (j_vend j) t ang z0 dzp N
                 (fun k j => if k <? N + nz then ang (k - N) j else ang2 k j)); try assumption.
      * rewrite (lattice_ext z0 dzp (j_Npr j) (j_rmin j) (j_rmax j) (j_Nth j) (j_n j) (j_dens j)
                   ang2 (fun k j => if k <? N + nz then ang (k - N) j else ang2 k j)).
        -- apply lattice_app. lia.
        -- intros k jj Hk. destruct (Z.ltb_spec k (N + nz)); [lia|reflexivity].
      * intros _. ring.
      * rewrite Hze. ring.
      * intros i jj Hi. destruct (Z.ltb_spec (N + i) (N + nz)); [|lia]. f_equal. lia.
Qed.


Lemma inject_time v h : forall t j out t' j',
  inject_run v t h j = Ok (out, t', j') -> t' = (t + total h)%R.
Proof.
  induction h as [|[d|ang] h IH]; intros t j out t' j'; cbn [inject_run total].
  - intros [= <- <- <-]. lra.
  - destruct (increment v d j) as [j1|]; cbn [bind]; [|discriminate].
    intros H. apply IH in H. lra.
  - destruct (generate_particles t ang j) as [[new j1]|]; cbn [bind]; [|discriminate].
    destruct (inject_run v t h j1) as [[[rest t1] j2]|] eqn:E; cbn [bind]; [|discriminate].
    intros [= <- <- <-]. eapply IH; eauto.
Qed.

(** A state that will never produce particles again (window slower than the plasma). *)
Lemma inject_dead v h : forall t j nz zi ze dzp,
  j_dzp j = Some dzp -> (0 < dzp)%R -> 0 <= j_Npr j -> 0 <= j_Nth j ->
  j_pos j = Some (nz, zi, ze) -> nz <= 0 -> (zi - ze <= 0)%R ->
  (v <= j_vend j)%R -> durations_ok h ->
  exists t' p, inject_run v t h j = Ok ([], t', set_pos (Some p) j).
Proof.
  induction h as [|o h IH]; intros t j nz zi ze dzp Hdz Hd HNr HNt Hp Hnz Hgap Hv Hdur.
  - exists t, (nz, zi, ze). simpl. do 2 f_equal. destruct j; unfold set_pos; cbn in *. congruence.
  - assert (Hdur' : durations_ok h) by (intros x Hx; apply Hdur; right; exact Hx).
    destruct o as [dur|ang]; cbn [inject_run].
    + assert (Hd0 : (0 <= dur)%R) by (apply Hdur; left; reflexivity).
      unfold increment. rewrite Hp, Hdz. cbn [bind].
      set (zi1 := (zi + v * dur)%R). set (ze1 := (ze + j_vend j * dur)%R).
      assert (Hq : ((zi1 - ze1) / dzp <= 0)%R).
      { unfold Rdiv. assert (0 < / dzp)%R by (apply Rinv_0_lt_compat; exact Hd).
        assert (zi1 - ze1 <= 0)%R by (unfold zi1, ze1; nra). nra. }
      set (nn := Ztrunc ((zi1 - ze1) / dzp)).
      assert (Hnn : nn <= 0) by (unfold nn; rewrite Ztrunc_ceil by exact Hq; apply Zceil_glb; exact Hq).
      assert (Hl : (zi1 - ze1 <= IZR nn * dzp)%R).
      { replace (zi1 - ze1)%R with ((zi1 - ze1) / dzp * dzp)%R by (field; lra).
        apply Rmult_le_compat_r; [lra|]. unfold nn. rewrite Ztrunc_ceil by exact Hq. apply Zceil_ub. }
      destruct (IH (t + dur)%R (set_pos (Some (nz + nn, zi1, (ze1 + IZR nn * dzp)%R)) j)
                  (nz + nn) zi1 (ze1 + IZR nn * dzp)%R dzp)
        as [t' [p H]]; try assumption; try reflexivity; try lia; try lra.
      exists t', p. exact H.
    + unfold generate_particles. rewrite Hp, Hdz. cbn [bind].
      assert (E : generate_evenly_spaced nz (ze - IZR nz * dzp)%R ze (j_Npr j) (j_rmin j) (j_rmax j)
        (j_Nth j) (j_n j) (moving_dens (j_dens j) (j_vend j) t) ang = []).
      { unfold generate_evenly_spaced. destruct (Z.ltb_spec 0 (nz * j_Npr j * j_Nth j)); [nia|reflexivity]. }
      rewrite E.
      destruct (IH t (set_pos (Some (0, zi, ze)) j) 0 zi ze dzp)
        as [t' [p H]]; try assumption; try reflexivity; try lia.
      rewrite H. cbn [bind map app]. exists t', p. reflexivity.
Qed.

(** Window slower than the plasma: the particles are still on the lattice, without repetition. *)
Lemma inject_slow v h : forall t j N nz zi ze z0 dzp,
  j_dzp j = Some dzp -> (0 < dzp)%R -> 0 <= j_Npr j -> 0 <= j_Nth j ->
  j_pos j = Some (nz, zi, ze) -> (0 <= nz \/ (zi - ze <= 0)%R) ->
  (ze = z0 + j_vend j * t + (IZR N + IZR nz) * dzp)%R ->
  (v <= j_vend j)%R -> durations_ok h ->
  exists out t' p N' ang,
    inject_run v t h j = Ok (out, t', set_pos (Some p) j) /\ N <= N' /\
    map (in_plasma_frame (j_vend j)) out
      = lattice z0 dzp (j_Npr j) (j_rmin j) (j_rmax j) (j_Nth j) (j_n j) (j_dens j) ang N N'.
Proof.
  induction h as [|o h IH]; intros t j N nz zi ze z0 dzp Hdz Hd HNr HNt Hp Hnz Hze Hv Hdur.
  - exists [], t, (nz, zi, ze), N, (fun _ _ => 0%R). split; [|split; [lia|]].
    + simpl. do 2 f_equal. destruct j; unfold set_pos; cbn in *. congruence.
    + rewrite lattice_empty by lia. reflexivity.
  - assert (Hdur' : durations_ok h) by (intros x Hx; apply Hdur; right; exact Hx).
    destruct o as [dur|ang]; cbn [inject_run].
    + assert (Hd0 : (0 <= dur)%R) by (apply Hdur; left; reflexivity).
      unfold increment. rewrite Hp, Hdz. cbn [bind].
      set (zi1 := (zi + v * dur)%R). set (ze1 := (ze + j_vend j * dur)%R).
      set (nn := Ztrunc ((zi1 - ze1) / dzp)).
      assert (Hnew : 0 <= nz + nn \/ (zi1 - (ze1 + IZR nn * dzp) <= 0)%R).
      { assert (Hle : (zi1 - ze1 <= zi - ze)%R) by (unfold zi1, ze1; nra).
        assert (Hinv : (0 < / dzp)%R) by (apply Rinv_0_lt_compat; exact Hd).
        destruct (Rle_lt_dec (zi1 - ze1) 0) as [Hneg|Hpos].
        - right. assert (Hq : ((zi1 - ze1) / dzp <= 0)%R) by (unfold Rdiv; nra).
          assert (zi1 - ze1 <= IZR nn * dzp)%R; [|lra].
          replace (zi1 - ze1)%R with ((zi1 - ze1) / dzp * dzp)%R by (field; lra).
          apply Rmult_le_compat_r; [lra|]. unfold nn. rewrite Ztrunc_ceil by exact Hq. apply Zceil_ub.
        - left. assert (Hq : (0 <= (zi1 - ze1) / dzp)%R) by (unfold Rdiv; nra).
          assert (0 <= nn) by (unfold nn; rewrite Ztrunc_floor by exact Hq; apply Zfloor_lub; exact Hq).
          destruct Hnz as [Hnz|Hnz]; [lia|lra]. }
      destruct (IH (t + dur)%R (set_pos (Some (nz + nn, zi1, (ze1 + IZR nn * dzp)%R)) j)
                  N (nz + nn) zi1 (ze1 + IZR nn * dzp)%R z0 dzp)
        as (out & t' & p & N' & a & H1 & H2 & H3); try assumption; try reflexivity.
      { rewrite plus_IZR. unfold ze1. rewrite Hze. cbn. ring. }
      exists out, t', p, N', a. repeat split; assumption.
    + unfold generate_particles. rewrite Hp, Hdz. cbn [bind].
      destruct (Z.le_gt_cases 0 nz) as [Hge|Hlt].
      * destruct (IH t (set_pos (Some (0, zi, ze)) j) (N + nz) 0 zi ze z0 dzp)
          as (out & t' & p & N' & a & H1 & H2 & H3); try assumption; try reflexivity.
        { left; lia. }
        { rewrite Hze. cbn. rewrite plus_IZR. ring. }
        rewrite H1. cbn [bind].
        eexists _, t', p, N', (fun k j => if k <? N + nz then ang (k - N) j else a k j).
        split; [reflexivity|]. split; [lia|].
        cbn [set_pos j_dzp j_Npr j_rmin j_rmax j_Nth j_n j_dens j_vend] in H3.
        rewrite map_app, H3, map_map.
        rewrite (gen_block nz (ze - IZR nz * dzp)%R ze (j_Npr j) (j_rmin j) (j_rmax j) (j_Nth j) (j_n j)
                 (j_dens j) (j_vend j) t ang z0 dzp N
                 (fun k j => if k <? N + nz then ang (k - N) j else a k j)); try assumption.
        -- rewrite (lattice_ext z0 dzp (j_Npr j) (j_rmin j) (j_rmax j) (j_Nth j) (j_n j) (j_dens j)
                   a (fun k j => if k <? N + nz then ang (k - N) j else a k j)).
           ++ apply lattice_app. lia.
           ++ intros k jj Hk. destruct (Z.ltb_spec k (N + nz)); [lia|reflexivity].
        -- intros _. ring.
        -- rewrite Hze. ring.
        -- intros i jj Hi. destruct (Z.ltb_spec (N + i) (N + nz)); [|lia]. f_equal. lia.
      * destruct Hnz as [Hnz|Hnz]; [lia|].
        assert (E : generate_evenly_spaced nz (ze - IZR nz * dzp)%R ze (j_Npr j) (j_rmin j) (j_rmax j)
          (j_Nth j) (j_n j) (moving_dens (j_dens j) (j_vend j) t) ang = []).
        { unfold generate_evenly_spaced. destruct (Z.ltb_spec 0 (nz * j_Npr j * j_Nth j)); [nia|reflexivity]. }
        rewrite E.
        destruct (inject_dead v h t (set_pos (Some (0, zi, ze)) j) 0 zi ze dzp)
          as [t' [p H]]; try assumption; try reflexivity; try lia.
        rewrite H. cbn [bind map app].
        exists [], t', p, N, (fun _ _ => 0%R). split; [reflexivity|]. split; [lia|].
        rewrite lattice_empty by lia. reflexivity.
Qed.

(** Loading. *)
Lemma frame0 p : in_plasma_frame 0 (0%R, p) = p.
Proof. destruct p; unfold in_plasma_frame; simpl. f_equal. ring. Qed.
Lemma moving0 d z r th : dens_at (moving_dens d 0 0) z r th = dens_at d z r th.
Proof. rewrite dens_frame. f_equal. ring. Qed.
Lemma gen_dens_ext Npz zmin zmax Npr rmin rmax Nth n d d' ang :
  (forall z r th, dens_at d z r th = dens_at d' z r th) ->
  generate_evenly_spaced Npz zmin zmax Npr rmin rmax Nth n d ang
  = generate_evenly_spaced Npz zmin zmax Npr rmin rmax Nth n d' ang.
Proof.
  intros H. unfold generate_evenly_spaced. destruct (0 <? _); [|reflexivity]. f_equal.
  apply flat_map_ext_in. intros i _. apply flat_map_ext_in. intros j _. apply map_ext. intros k.
  cbn zeta. rewrite H. reflexivity.
Qed.
Lemma loaded_lattice Npz zmin zmax Npr rmin rmax Nth n d ang dzp :
  0 <= Npz -> 0 <= Npr -> 0 <= Nth -> (Npz <> 0 -> zmax = (zmin + IZR Npz * dzp)%R) ->
  generate_evenly_spaced Npz zmin zmax Npr rmin rmax Nth n d ang
  = lattice zmin dzp Npr rmin rmax Nth n d ang 0 Npz.
Proof.
  intros H1 H2 H3 H4. replace Npz with (0 + Npz) at 2 by lia.
  rewrite <- (gen_block Npz zmin zmax Npr rmin rmax Nth n d 0 0 ang zmin dzp 0 ang); try assumption.
  - rewrite (gen_dens_ext _ _ _ _ _ _ _ _ d (moving_dens d 0 0)).
    + rewrite <- (map_id (generate_evenly_spaced _ _ _ _ _ _ _ _ _ _)) at 1.
      apply map_ext. intros p. symmetry. apply frame0.
    + intros. symmetry. apply moving0.
  - lra.
  - intros; reflexivity.
Qed.

(** Injection positions right after initialisation. *)
Lemma initialize_ok c v dt Npz zmin zmax dzp Npr rmin rmax Nth n d vend ang loaded j0 :
  c_rank c = c_size c - 1 -> (0 < dzp)%R ->
  0 <= Npz -> 0 <= Npr -> 0 <= Nth -> (Npz <> 0 -> zmax = (zmin + IZR Npz * dzp)%R) ->
  load_species Npz zmin zmax dzp Npr rmin rmax Nth n d vend ang = (loaded, j0) ->
  let zphys := (c_zmin c + IZR (c_Nz c) * c_dz c)%R in
  let zi := (zphys + (IZR (c_nzdamp c) + 3) * c_dz c + IZR (c_period c) * dt * (v - vend))%R in
  exists z0 M, 
    initialize c v dt (map m_z loaded) j0
      = Ok (set_pos (Some (0, zi, (z0 + IZR M * dzp)%R))
             {| j_dzp := Some dzp; j_Npr := Npr; j_rmin := rmin; j_rmax := rmax; j_Nth := Nth; j_n := n;
                j_dens := d; j_vend := vend; j_pos := None |}) /\
    0 <= M <= Npz /\ loaded = lattice z0 dzp Npr rmin rmax Nth n d ang 0 M /\
    (loaded <> [] -> z0 = zmin /\ 0 < M) /\ (loaded = [] -> z0 = zphys /\ M = 0).
Proof.
  intros Hr Hd HNz HNr HNt Hz Hl zphys zi.
  injection Hl as <- <-.
  rewrite (loaded_lattice Npz zmin zmax Npr rmin rmax Nth n d ang dzp HNz HNr HNt Hz).
  assert (Hdzp : (if negb (Npz =? 0) then Some ((zmax - zmin) / IZR Npz)%R else Some dzp) = Some dzp).
  { destruct (Z.eqb_spec Npz 0) as [->|Hne]; [reflexivity|]. simpl. f_equal. rewrite (Hz Hne).
    field. apply not_0_IZR. exact Hne. }
  assert (Hzi : (c_zmin c + IZR (0 - (c_nzdamp c + c_ninject c)) * c_dz c
     + IZR (c_Nz c + 2 * (c_nzdamp c + c_ninject c)) * c_dz c
     + (3 - IZR (c_ninject c)) * c_dz c + IZR (c_period c) * dt * (v - vend) = zi)%R).
  { unfold zi, zphys. rewrite minus_IZR, !plus_IZR, mult_IZR, plus_IZR. ring. }
  unfold initialize, injector_init. rewrite Hr, Z.eqb_refl. cbn [negb j_pos j_dzp j_vend].
  unfold get_zmin_zmax, get_Nz_and_iz. cbn [bind]. rewrite Hdzp, Hzi.
  destruct (lattice zmin dzp Npr rmin rmax Nth n d ang 0 Npz) as [|p l] eqn:E; cbn [map].
  - exists zphys, 0. split; [|split; [lia|split]].
    + cbn [bind]. do 4 f_equal. unfold zphys. ring.
    + rewrite lattice_empty by lia. reflexivity.
    + split; [congruence|auto].
  - destruct (rmaxl_lattice zmin dzp Npr rmin rmax Nth n d ang Npz p l Hd HNz E) as [M [HM [EM Hmax]]].
    exists zmin, M. split; [|split; [lia|split]].
    + do 4 f_equal. rewrite Hmax. lra.
    + congruence.
    + split; [split; [reflexivity|lia]|discriminate].
Qed.

Lemma C17_lattice_main c v dt p_nz Npz zmin zmax dzp Npr rmin rmax Nth n d vend ang loaded j0 h :
  c_rank c = c_size c - 1 -> (0 < c_dz c)%R -> 0 <= c_nzdamp c -> 0 <= c_period c -> (0 <= dt)%R ->
  1 <= p_nz -> dzp = (c_dz c / IZR p_nz)%R ->
  0 <= Npz -> 0 <= Npr -> 0 <= Nth -> (Npz <> 0 -> zmax = (zmin + IZR Npz * dzp)%R) ->
  let zphys := (c_zmin c + IZR (c_Nz c) * c_dz c)%R in
  (zmax <= zphys)%R ->
  load_species Npz zmin zmax dzp Npr rmin rmax Nth n d vend ang = (loaded, j0) ->
  durations_ok h ->
  exists j1 out t' j' z0 N ang',
    initialize c v dt (map m_z loaded) j0 = Ok j1 /\
    inject_run v 0 h j1 = Ok (out, t', j') /\ t' = total h /\
    (loaded <> [] -> z0 = zmin) /\ (loaded = [] -> z0 = zphys) /\
    loaded ++ map (in_plasma_frame vend) out = lattice z0 dzp Npr rmin rmax Nth n d ang' 0 N /\
    ((vend <= v)%R -> exists nz zi ze, j_pos j' = Some (nz, zi, ze) /\ 0 <= nz /\
       (zi = zphys + (IZR (c_nzdamp c) + 3) * c_dz c + IZR (c_period c) * dt * (v - vend) + v * t')%R /\
       (ze = z0 + vend * t' + (IZR N + IZR nz) * dzp)%R /\
       (0 <= zi - ze)%R /\ (moved h = true -> (zi - ze < dzp)%R)).
Proof.
  intros Hr Hdz Hnd Hper Hdt Hp Edzp HNz HNr HNt Hz zphys Hzm Hl Hdur.
  assert (HP : (1 <= IZR p_nz)%R) by (apply IZR_le; lia).
  assert (Hd : (0 < dzp)%R) by (rewrite Edzp; apply Rdiv_lt_0_compat; lra).
  destruct (initialize_ok c v dt Npz zmin zmax dzp Npr rmin rmax Nth n d vend ang loaded j0
              Hr Hd HNz HNr HNt Hz Hl) as (z0 & M & Hi & HM & Elo & Hne & Hem).
  set (j1 := set_pos _ _) in Hi.
  assert (Hz0 : (loaded <> [] -> z0 = zmin) /\ (loaded = [] -> z0 = zphys)).
  { split; intros H; [apply (Hne H)|apply (Hem H)]. }
  destruct (Rle_dec vend v) as [Hv|Hv].
  - set (zi0 := (c_zmin c + IZR (c_Nz c) * c_dz c + (IZR (c_nzdamp c) + 3) * c_dz c
                 + IZR (c_period c) * dt * (v - vend))%R) in *.
    assert (Hgap : (0 <= zi0 - (z0 + IZR M * dzp))%R).
    { assert (HND : (0 <= IZR (c_nzdamp c))%R) by (apply (IZR_le 0); lia).
      assert (HPE : (0 <= IZR (c_period c))%R) by (apply (IZR_le 0); lia).
      assert (z0 + IZR M * dzp <= zphys)%R.
      { assert (Hdec : loaded = [] \/ loaded <> []) by (destruct loaded; [left; reflexivity|right; discriminate]).
        destruct Hdec as [e|e].
        - destruct (Hem e) as [-> ->]. unfold zphys. lra.
        - destruct (Hne e) as [-> H0]. assert (Hne0 : Npz <> 0) by lia. specialize (Hz Hne0).
          assert (IZR M <= IZR Npz)%R by (apply IZR_le; lia).
          assert (IZR M * dzp <= IZR Npz * dzp)%R by (apply Rmult_le_compat_r; lra). lra. }
      assert (0 <= IZR (c_period c) * dt * (v - vend))%R by (repeat apply Rmult_le_pos; lra).
      unfold zi0. fold zphys. nra. }
    destruct (inject_inv v h 0%R j1 M 0 zi0 (z0 + IZR M * dzp)%R z0 dzp)
      as (out & t' & nz' & zi' & ze' & N' & ang2 & H1 & H2 & H3 & H4 & H5 & H6 & H7 & H8 & H9);
      try assumption; try reflexivity; try lia.
    { cbn. ring. }
    exists j1, out, t', (set_pos (Some (nz', zi', ze')) j1), z0, N',
      (fun k j => if k <? M then ang k j else ang2 k j).
    split; [exact Hi|]. split; [exact H1|]. split; [rewrite (inject_time _ _ _ _ _ _ _ H1); ring|].
    split; [apply Hz0|]. split; [apply Hz0|]. split.
    + unfold j1 in H9. cbn [set_pos j_dzp j_Npr j_rmin j_rmax j_Nth j_n j_dens j_vend] in H9.
      rewrite H9, Elo.
      rewrite (lattice_ext z0 dzp Npr rmin rmax Nth n d ang (fun k j => if k <? M then ang k j else ang2 k j) 0 M);
        [|intros k j Hk; destruct (Z.ltb_spec k M); [reflexivity|lia]].
      rewrite (lattice_ext z0 dzp Npr rmin rmax Nth n d ang2 (fun k j => if k <? M then ang k j else ang2 k j) M N');
        [|intros k j Hk; destruct (Z.ltb_spec k M); [lia|reflexivity]].
      apply lattice_app. lia.
    + intros _. exists nz', zi', ze'. split; [reflexivity|]. split; [exact H2|]. split.
      * rewrite H5. unfold zi0. fold zphys. ring.
      * split; [exact H6|]. split; [exact H7|]. intros Hm. apply H8. left. exact Hm.
  - destruct (inject_slow v h 0%R j1 M 0 
       (c_zmin c + IZR (c_Nz c) * c_dz c + (IZR (c_nzdamp c) + 3) * c_dz c
                 + IZR (c_period c) * dt * (v - vend))%R
       (z0 + IZR M * dzp)%R z0 dzp)
      as (out & t' & p & N' & ang2 & H1 & H3 & H9);
      try assumption; try reflexivity; try lia.
    { cbn. ring. }
    { cbn. lra. }
    exists j1, out, t', (set_pos (Some p) j1), z0, N',
      (fun k j => if k <? M then ang k j else ang2 k j).
    split; [exact Hi|]. split; [exact H1|]. split; [rewrite (inject_time _ _ _ _ _ _ _ H1); ring|].
    split; [apply Hz0|]. split; [apply Hz0|]. split; [|lra].
    unfold j1 in H9. cbn [set_pos j_dzp j_Npr j_rmin j_rmax j_Nth j_n j_dens j_vend] in H9.
    rewrite H9, Elo.
    rewrite (lattice_ext z0 dzp Npr rmin rmax Nth n d ang (fun k j => if k <? M then ang k j else ang2 k j) 0 M);
      [|intros k j Hk; destruct (Z.ltb_spec k M); [reflexivity|lia]].
    rewrite (lattice_ext z0 dzp Npr rmin rmax Nth n d ang2 (fun k j => if k <? M then ang k j else ang2 k j) M N');
      [|intros k j Hk; destruct (Z.ltb_spec k M); [lia|reflexivity]].
    apply lattice_app. lia.
Qed.

(** ** Witnesses *)
Lemma increment_eval v dur j dzp nz zi ze k :
  j_pos j = Some (nz, zi, ze) -> j_dzp j = Some dzp -> dzp <> 0%R ->
  (zi + v * dur - (ze + j_vend j * dur) = IZR k * dzp)%R ->
  increment v dur j = Ok (set_pos (Some (nz + k, (zi + v * dur)%R, (zi + v * dur)%R)) j).
Proof.
  intros Hp Hd Hn E. unfold increment. rewrite Hp, Hd. rewrite E.
  replace (IZR k * dzp / dzp)%R with (IZR k) by (field; exact Hn).
  rewrite Ztrunc_IZR. do 4 f_equal. lra.
Qed.

Definition wcomm (size : Z) : comm :=
  {| c_rank := size - 1; c_size := size; c_left := None; c_right := None; c_Nz := 8; c_zmin := 0;
     c_dz := 1; c_nguard := 0; c_nzdamp := 0; c_ninject := 0; c_period := 1 |}.
Definition wang : Z -> Z -> R := fun _ _ => 0%R.
(** The particle at site k of a plasma with one particle per site, spacing 1. *)
Definition wp (z : R) : mp :=
  {| m_z := z; m_r := 0.5; m_th := 2 * PI / 1 * 0 + 0; m_w := 1 * 0.5 * (2 * PI / 1) * 1 * 1 * 1 |}.
Ltac ranges :=
  change (0 <? 1 * 1 * 1) with true; change (range 1) with [0]; change (range 2) with [0; 1];
  change (range 5) with [0; 1; 2; 3; 4]; cbn [flat_map map app filter]; unfold keep;
  cbn [m_w dens_at m_z m_r m_th].
Lemma wgen1 zmin : generate_evenly_spaced 1 zmin (zmin + 1) 1 0 1 1 1 NoDens wang = [wp (zmin + 0.5)].
Proof.
  unfold generate_evenly_spaced. ranges.
  assert (0 < PI)%R by apply PI_RGT_0.
  destruct (Rlt_dec _ _) as [_|H0].
  - unfold wp, wang. f_equal. f_equal; field.
  - exfalso. apply H0. field_simplify. lra.
Qed.

Definition winj (vend : R) : injector :=
  {| j_dzp := Some 1%R; j_Npr := 1; j_rmin := 0; j_rmax := 1; j_Nth := 1; j_n := 1; j_dens := NoDens;
     j_vend := vend; j_pos := None |}.

Lemma C17_speed_change_main :
  let j0 := snd (load_species 0 0 0 1 1 0 1 1 1 NoDens 1 wang) in
  exists j1 out1 t1 j2 out2 t2 j3,
    initialize (wcomm 1) 0 1 [] j0 = Ok j1 /\
    inject_run 0 0 [Move 1; Gen wang; Move 1; Gen wang] j1 = Ok (out1, t1, j2) /\
    inject_run 2 t1 [Move 1; Gen wang] j2 = Ok (out2, t2, j3) /\
    map (fun tp => m_z (in_plasma_frame 1 tp)) (out1 ++ out2) = [8.5; 8.5]%R.
Proof.
  cbn [load_species snd].
  assert (Hi : initialize (wcomm 1) 0 1 [] (injector_init 0 0 0 (Some 1%R) 1 0 1 1 1 NoDens 1)
     = Ok (set_pos (Some (0, 10%R, 8%R)) (winj 1))).
  { unfold initialize, injector_init. cbn [wcomm c_rank c_size j_pos j_dzp negb Z.eqb].
    cbn. do 4 f_equal; [f_equal|]; ring. }
  do 7 eexists. split; [exact Hi|].
  split.
  { cbn [inject_run].
    erewrite (increment_eval 0 1 _ 1 0 10 8 1) by (reflexivity || (cbn; lra)). cbn [bind].
    unfold generate_particles at 1. cbn [set_pos j_pos j_dzp winj j_Npr j_rmin j_rmax j_Nth j_n j_dens j_vend moving_dens].
    replace (10 + 0 * 1)%R with ((10 + 0 * 1 - IZR (0 + 1) * 1) + 1)%R at 2 by (simpl; lra).
    change (0 + 1) with 1. rewrite wgen1. cbn [bind].
    erewrite (increment_eval 0 1 _ 1 0 (10 + 0 * 1) (10 + 0 * 1) (-1)) by (reflexivity || (cbn; lra)). cbn [bind].
    unfold generate_particles at 1. cbn [set_pos j_pos j_dzp winj j_Npr j_rmin j_rmax j_Nth j_n j_dens j_vend moving_dens].
    change (0 + -1) with (-1). unfold generate_evenly_spaced at 1. cbn [Z.mul Pos.mul Z.ltb Z.compare bind].
    reflexivity. }
  split.
  { cbn [inject_run].
    erewrite (increment_eval 2 1 _ 1 0 (10 + 0 * 1 + 0 * 1) (10 + 0 * 1 + 0 * 1) 1) by (reflexivity || (cbn; lra)). cbn [bind].
    unfold generate_particles at 1. cbn [set_pos j_pos j_dzp winj j_Npr j_rmin j_rmax j_Nth j_n j_dens j_vend moving_dens].
    change (0 + 1) with 1.
    replace (10 + 0 * 1 + 0 * 1 + 2 * 1)%R with ((10 + 0 * 1 + 0 * 1 + 2 * 1 - 1 * 1) + 1)%R at 2 by lra.
    rewrite wgen1. cbn [bind]. reflexivity. }
  cbn. f_equal; [lra|]. f_equal. lra.
Qed.

(** Plasma loaded on rank 0 only, up to z = 2; the last rank starts from the end of the box. *)
Lemma C17_gap_main :
  let rank0 := generate_evenly_spaced 2 0 2 1 0 1 1 1 NoDens wang in
  let '(rank1, j0) := load_species 0 4 2 1 1 0 1 1 1 NoDens 0 wang in
  adapt_to_grid [0.5; 1.5; 2.5; 3.5]%R 0 2 1 0 = Ok (0%R, 2%R, 2) /\
  adapt_to_grid [4.5; 5.5; 6.5; 7.5]%R 4 2 1 0 = Ok (4%R, 2%R, 0) /\
  map m_z rank0 = [0.5; 1.5]%R /\ rank1 = [] /\
  exists j1, initialize (wcomm 2) 1 1 (map m_z rank1) j0 = Ok j1 /\
    (forall h, durations_ok h -> exists out t j', inject_run 1 0 h j1 = Ok (out, t, j') /\
       forall p, In p (map (in_plasma_frame 0) out) -> (8 < m_z p)%R) /\
    (exists out t j', inject_run 1 0 [Move 1; Gen wang] j1 = Ok (out, t, j') /\ length out = 5%nat).
Proof.
  cbn [load_species].
  assert (HPI : (0 < PI)%R) by apply PI_RGT_0.
  split.
  { unfold adapt_to_grid, rminl, rmaxl. cbn [fold_left].
    assert (E1 : Rmin (Rmin (Rmin 0.5 1.5) 2.5) 3.5 = 0.5%R)
      by (unfold Rmin; repeat destruct Rle_dec; lra).
    assert (E2 : Rmax (Rmax (Rmax 0.5 1.5) 2.5) 3.5 = 3.5%R)
      by (unfold Rmax; repeat destruct Rle_dec; lra).
    rewrite E1, E2.
    destruct (Rlt_dec 0 (0.5 - 0.5 * (1.5 - 0.5))); [lra|].
    destruct (Rlt_dec (3.5 + (0.5 - 0) * (1.5 - 0.5)) 2); [lra|].
    cbn [filter]. repeat (destruct (Rlt_dec _ _); try lra). cbn [andb length Z.of_nat].
    cbn [fold_left Pos.of_succ_nat Pos.succ Z.mul Pos.mul Z.ltb Z.compare].
    unfold Rmin, Rmax. destruct (Rle_dec 0.5 1.5); [|lra]. do 3 f_equal; lra. }
  split.
  { unfold adapt_to_grid, rminl, rmaxl. cbn [fold_left].
    assert (E1 : Rmin (Rmin (Rmin 4.5 5.5) 6.5) 7.5 = 4.5%R)
      by (unfold Rmin; repeat destruct Rle_dec; lra).
    assert (E2 : Rmax (Rmax (Rmax 4.5 5.5) 6.5) 7.5 = 7.5%R)
      by (unfold Rmax; repeat destruct Rle_dec; lra).
    rewrite E1, E2.
    destruct (Rlt_dec 4 (4.5 - 0.5 * (5.5 - 4.5))); [lra|].
    destruct (Rlt_dec (7.5 + (0.5 - 0) * (5.5 - 4.5)) 2); [lra|].
    cbn [filter]. repeat (destruct (Rlt_dec _ _); try lra). reflexivity. }
  split.
  { rewrite (loaded_lattice 2 0 2 1 0 1 1 1 NoDens wang 1) by (lia || (intros; lra)).
    unfold lattice, plane. change (2 - 0) with 2. change (5 - 0) with 5. ranges.
    repeat (destruct (Rlt_dec _ _) as [_|H0]; [|exfalso; apply H0; field_simplify; lra]).
    cbn. f_equal; [lra|]. f_equal. lra. }
  split; [reflexivity|].
  assert (Hi : initialize (wcomm 2) 1 1 [] (injector_init 0 4 2 (Some 1%R) 1 0 1 1 1 NoDens 0)
     = Ok (set_pos (Some (0, 12%R, 8%R)) (winj 0))).
  { unfold initialize, injector_init. cbn [wcomm c_rank c_size j_pos j_dzp negb Z.eqb].
    cbn. do 4 f_equal; [f_equal|]; ring. }
  change (map m_z (generate_evenly_spaced 0 4 2 1 0 1 1 1 NoDens wang)) with (@nil R).
  eexists. split; [exact Hi|]. split.
  - intros h Hh.
    destruct (inject_inv 1 h 0%R (set_pos (Some (0, 12%R, 8%R)) (winj 0)) 0 0 12 8 8 1)
      as (out & t' & nz' & zi' & ze' & N' & ang2 & H1 & H2 & H3 & H4 & H5 & H6 & H7 & H8 & H9);
      try assumption; try reflexivity; try (cbn; lia); try (cbn; lra).
    exists out, t', (set_pos (Some (nz', zi', ze')) (set_pos (Some (0, 12%R, 8%R)) (winj 0))). split; [exact H1|].
    intros p Hin. cbn [set_pos winj j_vend] in H9. rewrite H9 in Hin. apply lattice_z in Hin as [k [Hk ->]].
    assert (0 <= IZR k)%R by (apply (IZR_le 0); lia). lra.
  - cbn [inject_run].
    erewrite (increment_eval 1 1 _ 1 0 12 8 5) by (reflexivity || (cbn; lra)). cbn [bind].
    unfold generate_particles at 1. cbn [set_pos j_pos j_dzp winj j_Npr j_rmin j_rmax j_Nth j_n j_dens j_vend moving_dens].
    cbn [bind]. do 3 eexists. split; [reflexivity|].
    rewrite app_nil_r, map_length. change (0 + 5) with 5.
    rewrite (loaded_lattice 5 _ _ 1 0 1 1 1 NoDens wang 1) by (lia || (intros; lra)).
    unfold lattice, plane. change (2 - 0) with 2. change (5 - 0) with 5. ranges.
    repeat (destruct (Rlt_dec _ _) as [_|H0]; [|exfalso; apply H0; field_simplify; lra]).
    reflexivity.
Qed.
