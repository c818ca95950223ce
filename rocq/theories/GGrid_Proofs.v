From Coq Require Import ZArith Reals List String Lia Lra.
From Verif Require Import Base Decomp_Model Decomp_Spec Decomp_Proofs GGrid_Model GGrid_Spec.
Import ListNotations.
Open Scope Z_scope.

Section G.
Context {A : Type} (zero : A).
Notation igrid := (igrid A).

Lemma move_comm_eq n c : move_comm n c =
  {| c_rank := c_rank c; c_size := c_size c; c_left := c_left c; c_right := c_right c;
     c_Nz := c_Nz c; c_zmin := (c_zmin c + IZR n * c_dz c)%R; c_dz := c_dz c;
     c_nguard := c_nguard c; c_nzdamp := c_nzdamp c; c_ninject := c_ninject c;
     c_period := c_period c |}.
Proof.
  unfold move_comm. destruct (n =? 0) eqn:E; [|reflexivity]. apply Z.eqb_eq in E. subst n.
  destruct c; cbn. f_equal. ring.
Qed.
Lemma moved_comm_eq ns : forall c, moved_comm ns c =
  {| c_rank := c_rank c; c_size := c_size c; c_left := c_left c; c_right := c_right c;
     c_Nz := c_Nz c; c_zmin := (c_zmin c + IZR (zsum ns) * c_dz c)%R; c_dz := c_dz c;
     c_nguard := c_nguard c; c_nzdamp := c_nzdamp c; c_ninject := c_ninject c;
     c_period := c_period c |}.
Proof.
  induction ns as [|n ns IH]; intros c.
  - destruct c; cbn. f_equal. ring.
  - unfold moved_comm. cbn [fold_left]. fold (moved_comm ns (move_comm n c)).
    rewrite IH, move_comm_eq. cbn [c_rank c_size c_left c_right c_Nz c_zmin c_dz c_nguard c_nzdamp c_ninject c_period].
    change (zsum (n :: ns)) with (n + zsum ns). f_equal. rewrite plus_IZR. ring.
Qed.
Lemma moved_grid_eq ns : forall g : igrid,
  let g' := moved_grid ns g in
  g_Nz g' = g_Nz g /\ g_Nr g' = g_Nr g /\ g_dr g' = g_dr g /\ g_dz g' = g_dz g /\ g_rmin g' = g_rmin g /\
  g_zmin g' = (g_zmin g + IZR (zsum ns) * g_dz g)%R.
Proof.
  induction ns as [|n ns IH]; intros g g'.
  - subst g'. cbn. repeat split. ring.
  - subst g'. unfold moved_grid. cbn [fold_left]. fold (moved_grid ns (move_grid n g)).
    destruct (IH (move_grid n g)) as (E1 & E2 & E3 & E4 & E5 & E6).
    rewrite E1, E2, E3, E4, E5, E6. unfold move_grid.
    destruct (n =? 0) eqn:E.
    + apply Z.eqb_eq in E. subst n. cbn [zsum fold_right]. repeat split; reflexivity.
    + cbn [g_Nz g_Nr g_dr g_dz g_rmin g_zmin]. change (zsum (n :: ns)) with (n + zsum ns).
      repeat split. rewrite plus_IZR. ring.
Qed.
Lemma moved_zmax ns : forall g : igrid, g_zmax (moved_grid ns g) = (g_zmax g + IZR (zsum ns) * g_dz g)%R.
Proof.
  induction ns as [|n ns IH]; intros g; [cbn; ring|]. unfold moved_grid. cbn [fold_left]. fold (moved_grid ns (move_grid n g)).
  rewrite IH. unfold move_grid. destruct (n =? 0) eqn:E; [apply Z.eqb_eq in E; subst n; reflexivity|].
  cbn [g_zmax g_dz]. change (zsum (n :: ns)) with (n + zsum ns). rewrite plus_IZR. ring.
Qed.
Lemma moved_Nz c ns l d g r : get_Nz_and_iz (moved_comm ns c) l d g r = get_Nz_and_iz c l d g r.
Proof. rewrite moved_comm_eq. reflexivity. Qed.
Lemma moved_valid c ns : valid_comm c -> valid_comm (moved_comm ns c).
Proof. rewrite moved_comm_eq. unfold valid_comm. cbn. tauto. Qed.

(** the positions of the cells of the grid of rank k *)
Lemma local_geom c q m k (G : igrid) ns g0 N iz :
  local_grid zero c q m k = Ok g0 -> same_grid G (moved_grid ns g0) ->
  get_Nz_and_iz c true true true (Some k) = Ok (N, iz) -> 0 < N -> 0 < r_Nr q -> 0 <= r_nrdamp q ->
  g_Nz G = N /\ g_Nr G = r_Nr q + r_nrdamp q /\
  (forall i, grid_z G i = (c_zmin (moved_comm ns c) + (1/2 + IZR (iz + i)) * c_dz c)%R) /\
  (forall j, grid_r G j = ((1/2 + IZR j) * r_dr q)%R).
Proof.
  intros Hl (H1 & H2 & H3 & H4 & H5 & H6 & H7 & H8 & H9) HN HN0 HR HR'.
  unfold local_grid, divide_into_domain in Hl.
  cbn [c_rank at_rank] in Hl.
  assert (EN : get_Nz_and_iz (at_rank c k) true true true (Some k) = Ok (N, iz)) by exact HN.
  unfold get_zmin_zmax in Hl. rewrite EN in Hl. cbn [bind] in Hl.
  destruct (N <? 4 * c_nguard (at_rank c k)); [discriminate|]. cbn [bind] in Hl.
  destruct (moved_grid_eq ns g0) as (E1 & E2 & E3 & E4 & E5 & E6).
  unfold grid_z, grid_r. rewrite H1, H2, H4, H5, H6, H8, E1, E2, E3, E4, E5, E6.
  injection Hl as <-.
  cbn [InterpolationGrid g_Nz g_Nr g_dr g_dz g_rmin g_zmin at_rank c_zmin c_dz get_Nr get_rmax].
  assert (IZR N <> 0%R) by (apply not_0_IZR; lia).
  assert (IZR (r_Nr q + r_nrdamp q) <> 0%R) by (apply not_0_IZR; lia).
  rewrite moved_comm_eq. cbn [c_zmin].
  repeat split.
  - intros i. rewrite (plus_IZR iz i). field. assumption.
  - intros j. field. assumption.
Qed.

(** the ten fields one after the other *)
Lemma fold_gather (cc : comm) (Nr : Z) (arrs : fname -> Z -> @array2 A) (outs : fname -> @array2 A) g0 :
  (forall f, gather_grid_array zero cc Nr false (arrs f) = Ok (outs f)) ->
  exists g, fold_left (fun acc f =>
      bind acc (fun g =>
      bind (gather_grid_array zero cc Nr false (arrs f)) (fun a =>
      Ok (set_arr g f a)))) gathered_fields (Ok g0) = Ok g /\
    same_grid g g0 /\ forall f, g_arr g f = outs f.
Proof.
  intros H. unfold gathered_fields. cbn [fold_left]. rewrite !H. cbn [bind].
  eexists. split; [reflexivity|]. split.
  - unfold same_grid. cbn. repeat split.
  - intros f. destruct f; reflexivity.
Qed.

(** the grid of rank k follows the window *)
Lemma own_main c q m ns G k f : setting zero c q m ns G -> 0 <= k < c_size c -> 0 < g_Nz (G k) ->
  exists lo hi, get_zmin_zmax (moved_comm ns c) true true true (Some k) = Ok (lo, hi) /\
    g_zmin (G k) = lo /\ g_zmax (G k) = hi /\ fills (view (G k) f) lo hi (IZR (r_Nr q + r_nrdamp q) * r_dr q).
Proof.
  intros (Hv & HNz & Hdz & HNr & Hnd & HG) Hk HN. destruct (HG k Hk) as (g0 & Hl & HS).
  destruct (get_Nz_and_iz c true true true (Some k)) as [[N iz]|] eqn:EN.
  2: { unfold local_grid, divide_into_domain, get_zmin_zmax in Hl. cbn [c_rank at_rank] in Hl.
       change (get_Nz_and_iz (at_rank c k) true true true (Some k)) with (get_Nz_and_iz c true true true (Some k)) in Hl.
       rewrite EN in Hl. discriminate Hl. }
  assert (HN' : 0 < N).
  { revert HN. destruct HS as (H1 & _). rewrite H1. destruct (moved_grid_eq ns g0) as (E1 & _). rewrite E1.
    unfold local_grid, divide_into_domain, get_zmin_zmax in Hl. cbn [c_rank at_rank] in Hl.
    change (get_Nz_and_iz (at_rank c k) true true true (Some k)) with (get_Nz_and_iz c true true true (Some k)) in Hl.
    rewrite EN in Hl. cbn [bind] in Hl. destruct (N <? _); [discriminate|]. injection Hl as <-. intros HH. exact HH. }
  destruct (local_geom c q m k (G k) ns g0 N iz Hl HS EN HN' HNr Hnd) as (G1 & G2 & G3 & G4).
  assert (ZN : IZR N <> 0%R) by (apply not_0_IZR; lia).
  assert (ZR : IZR (r_Nr q + r_nrdamp q) <> 0%R) by (apply not_0_IZR; lia).
  unfold get_zmin_zmax. rewrite moved_Nz, EN. cbn [bind]. do 2 eexists. split; [reflexivity|].
  assert (ED : c_dz (moved_comm ns c) = c_dz c) by (rewrite moved_comm_eq; reflexivity). rewrite ED.
  destruct HS as (_ & _ & _ & _ & _ & _ & _ & H8 & H9).
  destruct (moved_grid_eq ns g0) as (_ & _ & _ & _ & _ & E6). rewrite H8, H9, E6, moved_zmax.
  unfold local_grid, divide_into_domain, get_zmin_zmax in Hl. cbn [c_rank at_rank] in Hl.
  change (get_Nz_and_iz (at_rank c k) true true true (Some k)) with (get_Nz_and_iz c true true true (Some k)) in Hl.
  rewrite EN in Hl. cbn [bind] in Hl. destruct (N <? _); [discriminate|]. injection Hl as <-.
  cbn [InterpolationGrid g_zmin g_zmax g_dz at_rank c_zmin c_dz].
  split; [rewrite moved_comm_eq; cbn [c_zmin]; field; exact ZN|].
  split; [rewrite moved_comm_eq; cbn [c_zmin]; field; exact ZN|].
  split; cbn [view nz nr zc rc]; [intros i _|intros j _].
  - rewrite G3, G1, (plus_IZR iz i). field. exact ZN.
  - rewrite G4, G2. field. exact ZR.
Qed.

Lemma choose_outs (P : fname -> @array2 A -> Prop) : (forall f, exists a, P f a) -> exists o, forall f, P f (o f).
Proof.
  intros H.
  destruct (H fEr) as [a1 H1], (H fEt) as [a2 H2], (H fEz) as [a3 H3], (H fBr) as [a4 H4], (H fBt) as [a5 H5],
    (H fBz) as [a6 H6], (H fJr) as [a7 H7], (H fJt) as [a8 H8], (H fJz) as [a9 H9], (H frho) as [a10 H10].
  exists (fun f => match f with fEr => a1 | fEt => a2 | fEz => a3 | fBr => a4 | fBt => a5 | fBz => a6
                   | fJr => a7 | fJt => a8 | fJz => a9 | frho => a10 end).
  intros f; destruct f; assumption.
Qed.

Lemma gather_main c q m ns G root : setting zero c q m ns G ->
  exists g,
    gather_grid zero (moved_comm ns c) q root G = Ok g /\
    g_m g = g_m (G root) /\ g_Nz g = c_Nz c /\ g_Nr g = r_Nr q /\
    g_zmin g = c_zmin (moved_comm ns c) /\
    g_zmax g = (c_zmin (moved_comm ns c) + IZR (c_Nz c) * c_dz c)%R /\
    g_rmax g = (IZR (r_Nr q) * r_dr q)%R /\
    (forall i, grid_z g i = (c_zmin (moved_comm ns c) + (1/2 + IZR i) * c_dz c)%R) /\
    (forall j, grid_r g j = ((1/2 + IZR j) * r_dr q)%R) /\
    forall f i j, 0 <= i < c_Nz c -> 0 <= j < r_Nr q ->
      exists k Nk ik Nk' ik',
        0 <= k < c_size c /\
        get_Nz_and_iz c true false false (Some k) = Ok (Nk, ik) /\
        get_Nz_and_iz c true true true (Some k) = Ok (Nk', ik') /\
        ik <= i < ik + Nk /\
        g_arr g f i j = g_arr (G k) f (i - ik') j.
Proof.
  intros (Hv & HNz & Hdz & HNr & Hnd & HG).
  set (c' := moved_comm ns c).
  assert (Hv' : valid_comm c') by (apply moved_valid; exact Hv).
  assert (EN : get_Nz_and_iz c' false false false None = Ok (c_Nz c, 0)).
  { unfold c'. rewrite moved_Nz. reflexivity. }
  destruct (choose_outs (fun f out =>
     gather_grid_array zero c' (r_Nr q) false (fun k => g_arr (G k) f) = Ok out /\
     forall j ir, 0 <= j < c_Nz c -> 0 <= ir < r_Nr q ->
      exists k Nk ik Nk' ik',
        0 <= k < c_size c' /\
        get_Nz_and_iz c' true false false (Some k) = Ok (Nk, ik) /\
        get_Nz_and_iz c' true true true (Some k) = Ok (Nk', ik') /\
        ik <= 0 + j < ik + Nk /\
        out j ir = g_arr (G k) f (0 + j - ik') ir)) as [outs Houts].
  { intros f. destruct (C02_owner zero c' (r_Nr q) false (fun k => g_arr (G k) f) Hv' HNr) as (out & N & ig & E & Eo & HH).
    rewrite EN in E. injection E as <- <-. exists out. split; [exact Eo|exact HH]. }
  unfold gather_grid. rewrite EN. cbn [bind]. unfold get_zmin_zmax. rewrite EN. cbn [bind].
  cbn [get_Nr get_rmax].
  assert (ED : c_dz c' = c_dz c) by (unfold c'; rewrite moved_comm_eq; reflexivity).
  assert (ES : c_size c' = c_size c) by (unfold c'; rewrite moved_comm_eq; reflexivity).
  edestruct (fold_gather c' (r_Nr q) (fun f k => g_arr (G k) f) outs) as (g & Eg & HS & Harr).
  { intros f. apply (proj1 (Houts f)). }
  exists g. split; [exact Eg|].
  destruct HS as (H1 & H2 & H3 & H4 & H5 & H6 & H7 & H8 & H9).
  cbn [InterpolationGrid g_Nz g_Nr g_m g_dr g_dz g_rmin g_rmax g_zmin g_zmax] in *.
  assert (IZR (c_Nz c) <> 0%R) by (apply not_0_IZR; lia).
  assert (IZR (r_Nr q) <> 0%R) by (apply not_0_IZR; lia).
  rewrite ED in *.
  split; [exact H3|]. split; [exact H1|]. split; [exact H2|].
  split; [rewrite H8; ring|]. split; [rewrite H9; ring|]. split; [exact H7|].
  split; [|split].
  - intros i. unfold grid_z. rewrite H8, H5. field. assumption.
  - intros j. unfold grid_r. rewrite H6, H4. field. assumption.
  - intros f i j Hi Hj.
    destruct (proj2 (Houts f) i j Hi Hj) as (k & Nk & ik & Nk' & ik' & Hk & E1 & E2 & Hin & Ev).
    exists k, Nk, ik, Nk', ik'. unfold c' in E1, E2. rewrite moved_Nz in E1, E2. rewrite ES in Hk.
    rewrite Harr. split; [exact Hk|]. split; [exact E1|]. split; [exact E2|]. split; [lia|].
    rewrite Ev. f_equal. 
Qed.

Lemma enlarged c k Nk ik Nk' ik' : valid_comm c ->
  get_Nz_and_iz c true false false (Some k) = Ok (Nk, ik) ->
  get_Nz_and_iz c true true true (Some k) = Ok (Nk', ik') -> ik' <= ik /\ ik + Nk <= ik' + Nk'.
Proof.
  intros (_ & _ & _ & H1 & H2 & H3). unfold get_Nz_and_iz.
  generalize (Z.quot (c_Nz c) (c_size c)) (c_Nz c mod c_size c). intros a b.
  destruct (k =? 0), (k =? c_size c - 1); intros E1 E2; injection E1 as <- <-; injection E2 as <- <-;
    set (t := k * a); destruct (c_nguard c); lia.
Qed.

Lemma center_in c (z0 : R) p lo hi : (0 < c_dz c)%R ->
  (z0 + IZR lo * c_dz c <= z0 + (1/2 + IZR p) * c_dz c < z0 + IZR hi * c_dz c)%R <-> lo <= p < hi.
Proof.
  intros Hd. split.
  - intros [Ha Hb]. split.
    + destruct (Z_lt_le_dec p lo) as [Hlt|]; [|assumption]. exfalso.
      assert (X : (IZR p + 1 <= IZR lo)%R) by (rewrite <- plus_IZR; apply IZR_le; lia).
      apply (Rmult_le_compat_r (c_dz c)) in X; lra.
    + destruct (Z_lt_le_dec p hi) as [|Hge]; [assumption|]. exfalso.
      apply IZR_le in Hge. apply (Rmult_le_compat_r (c_dz c)) in Hge; lra.
  - intros [Ha Hb]. apply IZR_le in Ha. apply (Rmult_le_compat_r (c_dz c)) in Ha; [|lra].
    assert (X : (IZR p + 1 <= IZR hi)%R) by (rewrite <- plus_IZR; apply IZR_le; lia).
    apply (Rmult_le_compat_r (c_dz c)) in X; [|lra]. split; lra.
Qed.

Lemma owned_edges c ns k Nk ik lo hi :
  get_Nz_and_iz c true false false (Some k) = Ok (Nk, ik) ->
  get_zmin_zmax (moved_comm ns c) true false false (Some k) = Ok (lo, hi) ->
  (lo = c_zmin (moved_comm ns c) + IZR ik * c_dz c /\ hi = c_zmin (moved_comm ns c) + IZR (ik + Nk) * c_dz c)%R.
Proof.
  intros E H. rewrite (edges_ok _ _ _ _ _ (Nk, ik)) in H by (rewrite moved_Nz; exact E).
  cbn [fst snd] in H. injection H as <- <-.
  replace (c_dz (moved_comm ns c)) with (c_dz c) by (rewrite moved_comm_eq; reflexivity). split; reflexivity.
Qed.

(** what the gathered grid shows is what some rank has, in its own part of the domain, at the same position *)
Lemma gathered_from c q m ns G root g f z r a : setting zero c q m ns G ->
  gather_grid zero (moved_comm ns c) q root G = Ok g ->
  sampled (view g f) z r a ->
  exists k lo hi, 0 <= k < c_size c /\ get_zmin_zmax (moved_comm ns c) true false false (Some k) = Ok (lo, hi) /\
    (lo <= z < hi)%R /\ sampled (view (G k) f) z r a.
Proof.
  intros Hs Hg (i & j & Hi & Hj & Ez & Er & Ev).
  destruct (gather_main c q m ns G root Hs) as (g1 & E & _ & HNz & HNr & _ & _ & _ & Hz & Hr & HH).
  rewrite Hg in E. injection E as <-. destruct Hs as (Hv & HNz0 & Hdz & HNr0 & Hnd & HG).
  cbn [view nz nr zc rc v] in *. rewrite HNz in Hi. rewrite HNr in Hj.
  destruct (HH f i j Hi Hj) as (k & Nk & ik & Nk' & ik' & Hk & E1 & E2 & Hin & Ea).
  destruct (HG k Hk) as (g0 & Hg0 & Hsame).
  destruct (enlarged c k Nk ik Nk' ik' Hv E1 E2) as [L1 L2].
  destruct (local_geom c q m k (G k) ns g0 Nk' ik' Hg0 Hsame E2 ltac:(lia) HNr0 Hnd) as (G1 & G2 & G3 & G4).
  exists k, (c_zmin (moved_comm ns c) + IZR ik * c_dz c)%R, (c_zmin (moved_comm ns c) + IZR (ik + Nk) * c_dz c)%R.
  split; [exact Hk|]. split.
  { rewrite (edges_ok _ _ _ _ _ (Nk, ik)) by (rewrite moved_Nz; exact E1). cbn [fst snd].
    replace (c_dz (moved_comm ns c)) with (c_dz c) by (rewrite moved_comm_eq; reflexivity). reflexivity. }
  split.
  { rewrite <- Ez, Hz. apply center_in; [exact Hdz|exact Hin]. }
  exists (i - ik'), j. cbn [view nz nr zc rc v]. rewrite G1, G2, G3, G4.
  split; [lia|]. split; [lia|]. split.
  { rewrite <- Ez, Hz. do 3 f_equal. f_equal. lia. }
  split; [rewrite <- Er, Hr; reflexivity|]. rewrite <- Ev. symmetry. exact Ea.
Qed.

(** and conversely *)
Lemma gathered_all c q m ns G root g f k lo hi z r a : setting zero c q m ns G ->
  gather_grid zero (moved_comm ns c) q root G = Ok g ->
  0 <= k < c_size c -> get_zmin_zmax (moved_comm ns c) true false false (Some k) = Ok (lo, hi) ->
  (lo <= z < hi)%R -> (0 < r_dr q)%R -> (r < IZR (r_Nr q) * r_dr q)%R -> sampled (view (G k) f) z r a ->
  sampled (view g f) z r a.
Proof.
  intros Hs Hg Hk Hlh Hz0 Hdr Hr0 (i & j & Hi & Hj & Ez & Er & Ev).
  destruct (gather_main c q m ns G root Hs) as (g1 & E & _ & HNz & HNr & _ & _ & _ & Hz & Hr & HH).
  rewrite Hg in E. injection E as <-. destruct Hs as (Hv & HNz0 & Hdz & HNr0 & Hnd & HG).
  destruct (HG k Hk) as (g0 & Hg0 & Hsame).
  pose proof (part_ok c false k) as E1. pose proof (part_ok c true k) as E2.
  apply guard_ext in E2. 
  destruct (part c false k) as [Nk ik] eqn:EP. cbn [fst snd] in *.
  set (Nk' := fst (part c true k) + 2 * c_nguard c) in *. set (ik' := snd (part c true k) - c_nguard c) in *.
  destruct (enlarged c k Nk ik Nk' ik' Hv E1 E2) as [L1 L2].
  destruct (owned_edges c ns k Nk ik lo hi E1 Hlh) as [-> ->].
  cbn [view nz nr zc rc v] in *.
  assert (HNk : 0 < Nk).
  { destruct (Z_lt_le_dec 0 Nk) as [|Hle]; [assumption|exfalso].
    assert (X : (IZR (ik + Nk) <= IZR ik)%R) by (apply IZR_le; lia).
    apply (Rmult_le_compat_r (c_dz c)) in X; lra. }
  destruct (local_geom c q m k (G k) ns g0 Nk' ik' Hg0 Hsame E2 ltac:(lia) HNr0 Hnd) as (G1 & G2 & G3 & G4).
  rewrite G3 in Ez. rewrite G4 in Er. rewrite G2 in Hj. rewrite G1 in Hi.
  rewrite <- Ez in Hz0. apply center_in in Hz0; [|exact Hdz].
  assert (Hjr : j < r_Nr q).
  { destruct (Z_lt_le_dec j (r_Nr q)) as [|Hge]; [assumption|exfalso]. apply IZR_le in Hge. apply (Rmult_le_compat_r (r_dr q)) in Hge; lra. }
  pose proof (part_tiles c false Hv) as (_ & Hcov & Huniq & _).
  assert (Hp : 0 <= ik' + i < c_Nz c).
  { assert (Hc : cell_in (ik' + i) (whole c false)).
    { apply Hcov. exists k. split; [exact Hk|]. rewrite EP. unfold cell_in. cbn [fst snd]. lia. }
    rewrite whole_form in Hc. unfold cell_in in Hc. cbn [fst snd] in Hc. unfold ext in Hc. lia. }
  destruct (HH f (ik' + i) j Hp ltac:(lia)) as (k2 & Nk2 & ik2 & Nk2' & ik2' & Hk2 & F1 & F2 & Hin & Ea).
  assert (k2 = k).
  { apply (Huniq k2 k (ik' + i) Hk2 Hk).
    - pose proof (part_ok c false k2) as F. rewrite F1 in F.
      assert (F' : part c false k2 = (Nk2, ik2)) by congruence. rewrite F'. unfold cell_in. cbn [fst snd]. lia.
    - rewrite EP. unfold cell_in. cbn [fst snd]. lia. }
  subst k2. rewrite E2 in F2. injection F2 as <- <-.
  exists (ik' + i), j. cbn [view nz nr zc rc v]. rewrite HNz, HNr, Hz, Hr.
  split; [lia|]. split; [lia|]. split; [exact Ez|]. split; [exact Er|].
  rewrite Ea, <- Ev. f_equal. lia.
Qed.

Lemma gathered_fills c q m ns G root : setting zero c q m ns G ->
  exists g, gather_grid zero (moved_comm ns c) q root G = Ok g /\ g_m g = g_m (G root) /\
    forall f, nz (view g f) = c_Nz c /\ nr (view g f) = r_Nr q /\
      fills (view g f) (c_zmin c + IZR (zsum ns) * c_dz c)
                       (c_zmin c + IZR (zsum ns + c_Nz c) * c_dz c) (IZR (r_Nr q) * r_dr q).
Proof.
  intros Hs. destruct (gather_main c q m ns G root Hs) as (g & E & Hm & HNz & HNr & _ & _ & _ & Hz & Hr & _).
  destruct Hs as (_ & HNz0 & _ & HNr0 & _).
  exists g. split; [exact E|]. split; [exact Hm|]. intros f. cbn [view nz nr].
  split; [exact HNz|]. split; [exact HNr|]. unfold fills. cbn [view nz nr zc rc]. rewrite HNz, HNr.
  assert (IZR (c_Nz c) <> 0%R) by (apply not_0_IZR; lia).
  assert (IZR (r_Nr q) <> 0%R) by (apply not_0_IZR; lia).
  split; intros i _.
  - rewrite Hz, moved_comm_eq. cbn [c_zmin]. rewrite plus_IZR. field. assumption.
  - rewrite Hr. field. assumption.
Qed.
End G.

Lemma no_attr {V : Type} (o : @object V) names n : has_only o names ->
  (if in_dec string_dec n names then false else true) = true -> o n = None.
Proof.
  intros H Hn. destruct (o n) eqn:E; [|reflexivity]. exfalso.
  assert (X : In n names) by (apply H; rewrite E; discriminate).
  destruct (in_dec string_dec n names); [discriminate|]. contradiction.
Qed.
Lemma ptcl_fails {V : Type} (zero : V) (self ptcl : @object V) init rest :
  has_only ptcl particles_attrs \/ has_only self comm_attrs ->
  gather_ptcl zero self ptcl init rest = Err AttributeError.
Proof.
  intros H. unfold gather_ptcl, getattr.
  destruct (ptcl "q"%string) eqn:Eq; [|reflexivity]. cbn [bind].
  destruct (ptcl "m"%string) eqn:Em; [|reflexivity]. cbn [bind].
  destruct H as [H|H].
  - rewrite (no_attr ptcl particles_attrs "n"%string H); reflexivity.
  - destruct (ptcl "n"%string); [|reflexivity]. cbn [bind].
    rewrite (no_attr self comm_attrs "zmin"%string H); reflexivity.
Qed.
