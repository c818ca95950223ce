From Verif Require Import Base Decomp_Model Decomp_Spec.
From Coq Require Import Reals Lra Psatz.
From Flocq Require Import Core.Core Relative.
Open Scope Z_scope.

Lemma init_valid Nz zmin zmax b rank size n_order g st nd ni cdt ep c :
  init Nz zmin zmax b rank size n_order g st nd ni cdt ep = Ok c ->
  1 <= size -> 0 <= rank < size -> 0 <= Nz -> 0 <= st -> 0 <= nd ->
  (forall k, g = Some k -> 0 <= k) -> (forall k, ni = Some k -> 0 <= k) ->
  valid_comm c.
Proof.
  unfold init, init_nguard. intros H Hs Hr HN Hst Hnd Hg Hni.
  assert (Hcase : exists gg, 0 <= gg /\
     bind (init_period b size gg cdt ((zmax - zmin) / IZR Nz) ep) (fun p =>
       Ok {| c_rank := rank; c_size := size;
        c_left := left_proc b rank size; c_right := right_proc b rank size;
        c_Nz := Nz; c_zmin := zmin; c_dz := ((zmax - zmin) / IZR Nz);
        c_nguard := gg; c_nzdamp := init_nzdamp b nd;
        c_ninject := init_ninject b gg ni;
        c_period := p |}) = Ok c).
  { destruct g as [g|]; [specialize (Hg g eq_refl)|clear Hg]; simpl in H.
    - destruct b; [destruct (size =? 1)|]; simpl in H; [exists 0|exists g|exists g]; (split; [lia|exact H]).
    - destruct (n_order =? -1); [destruct (size =? 1) eqn:E1; simpl in H; [|discriminate]|]; simpl in H;
      destruct b; try rewrite E1 in H; try destruct (size =? 1); simpl in H;
      eexists; (split; [|exact H]); lia. }
  destruct Hcase as [gg [Hgg HH]].
  destruct (init_period b size gg cdt ((zmax - zmin) / IZR Nz) ep) as [p|e]; simpl in HH; [|discriminate].
  injection HH as <-. unfold valid_comm; simpl.
  repeat split; try lia.
  - destruct b; simpl; lia.
  - unfold init_ninject. destruct b; [lia|]. destruct ni as [k|].
    + apply (Hni k eq_refl).
    + apply Z.quot_pos; lia.
Qed.

(** Closed forms. *)
Definition part (c : comm) (damp : bool) (r : Z) : Z * Z :=
  match get_Nz_and_iz c true damp false (Some r) with Ok p => p | Err _ => (0, 0) end.
Definition whole (c : comm) (damp : bool) : Z * Z :=
  match get_Nz_and_iz c false damp false None with Ok p => p | Err _ => (0, 0) end.
Definition ext (c : comm) (damp : bool) : Z := if damp then c_nzdamp c + c_ninject c else 0.

Lemma part_ok c damp r : get_Nz_and_iz c true damp false (Some r) = Ok (part c damp r).
Proof.
  unfold part, get_Nz_and_iz.
  destruct damp, (r =? 0), (r =? c_size c - 1); reflexivity.
Qed.

Lemma part_form c damp r : 1 <= c_size c -> 0 <= c_Nz c ->
  part c damp r =
    let q := c_Nz c / c_size c in
    (q + (if r =? c_size c - 1 then c_Nz c mod c_size c + ext c damp else 0)
       + (if r =? 0 then ext c damp else 0),
     r * q - (if r =? 0 then ext c damp else 0)).
Proof.
  intros Hs HN. unfold part, get_Nz_and_iz, ext.
  rewrite Z.quot_div_nonneg by lia.
  destruct damp, (r =? 0), (r =? c_size c - 1); cbn [fst snd]; f_equal; lia.
Qed.

Lemma whole_form c damp :
  whole c damp = (c_Nz c + 2 * ext c damp, - ext c damp).
Proof. unfold whole, get_Nz_and_iz, ext. destruct damp; f_equal; lia. Qed.

Lemma whole_ok c damp : get_Nz_and_iz c false damp false None = Ok (whole c damp).
Proof. unfold whole, get_Nz_and_iz. destruct damp; reflexivity. Qed.

Lemma ext_nonneg c damp : valid_comm c -> 0 <= ext c damp.
Proof. unfold valid_comm, ext. destruct damp; lia. Qed.

(** Start of rank r's interval; end = start of the next one. *)
Lemma part_bounds c damp r : valid_comm c -> 0 <= r < c_size c ->
  let q := c_Nz c / c_size c in
  snd (part c damp r) = (if r =? 0 then - ext c damp else r * q) /\
  snd (part c damp r) + fst (part c damp r) =
    (if r =? c_size c - 1 then c_Nz c + ext c damp else (r + 1) * q).
Proof.
  intros Hv Hr q. pose proof (ext_nonneg c damp Hv) as He.
  destruct Hv as (Hs & _ & HN & _).
  rewrite part_form by lia. fold q. cbn [fst snd].
  assert (Hdm : c_Nz c = c_size c * q + c_Nz c mod c_size c) by (apply Z.div_mod; lia).
  destruct (Z.eqb_spec r 0); destruct (Z.eqb_spec r (c_size c - 1)); split; subst; try lia; try nia.
Qed.

Lemma part_tiles c damp : valid_comm c -> tiles (c_size c) (part c damp) (whole c damp).
Proof.
  intros Hv. pose proof (ext_nonneg c damp Hv) as He. pose proof Hv as (Hs & _ & HN & _).
  set (q := c_Nz c / c_size c).
  assert (Hq : 0 <= q) by (apply Z.div_pos; lia).
  assert (Hqs : q * c_size c <= c_Nz c) by (unfold q; rewrite Z.mul_comm; apply Z.mul_div_le; lia).
  assert (Hb := fun r Hr => part_bounds c damp r Hv Hr). cbv zeta in Hb. fold q in Hb.
  rewrite whole_form. unfold cell_in, tiles; cbn [fst snd].
  assert (Hlen : forall r, 0 <= r < c_size c -> 0 <= fst (part c damp r)).
  { intros r Hr. destruct (Hb r Hr) as [H1 H2].
    destruct (Z.eqb_spec r 0); destruct (Z.eqb_spec r (c_size c - 1)); nia. }
  split; [exact Hlen|].
  split; [|split; [|split; [|split]]].
  - intros i. unfold cell_in; cbn [fst snd]. split.
    + intros Hi.
      (* which rank: clamp i/q *)
      destruct (Z.lt_ge_cases i ((c_size c - 1) * q)) as [Hlt|Hge].
      * destruct (Z.lt_ge_cases i 0) as [Hneg|Hpos].
        -- exists 0. split; [lia|]. destruct (Hb 0 ltac:(lia)) as [H1 H2].
           rewrite H2, H1, Z.eqb_refl. destruct (Z.eqb_spec 0 (c_size c - 1)); nia.
        -- assert (Hq' : 0 < q) by nia.
           exists (i / q).
           assert (Hdm := Z.div_mod i q ltac:(lia)). assert (Hm := Z.mod_pos_bound i q Hq').
           assert (0 <= i / q) by (apply Z.div_pos; lia).
           assert (i / q < c_size c - 1) by (apply Z.div_lt_upper_bound; nia).
           split; [lia|].
           destruct (Hb (i / q) ltac:(lia)) as [H1 H2]. rewrite H2, H1.
           destruct (Z.eqb_spec (i / q) (c_size c - 1)); [lia|].
           destruct (Z.eqb_spec (i / q) 0); nia.
      * exists (c_size c - 1). split; [lia|].
        destruct (Hb (c_size c - 1) ltac:(lia)) as [H1 H2]. rewrite H2, H1, Z.eqb_refl.
        destruct (Z.eqb_spec (c_size c - 1) 0); nia.
    + intros [r [Hr Hi]]. destruct (Hb r Hr) as [H1 H2].
      destruct (Z.eqb_spec r 0); destruct (Z.eqb_spec r (c_size c - 1)); nia.
  - intros r s i Hr Hss Hir His. unfold cell_in in *.
    destruct (Hb r Hr) as [H1 H2]. destruct (Hb s Hss) as [H3 H4].
    destruct (Z.lt_trichotomy r s) as [Hlt|[Heq|Hgt]]; [exfalso|exact Heq|exfalso].
    + destruct (Z.eqb_spec r (c_size c - 1)); [lia|]. destruct (Z.eqb_spec s 0); [lia|]. nia.
    + destruct (Z.eqb_spec s (c_size c - 1)); [lia|]. destruct (Z.eqb_spec r 0); [lia|]. nia.
  - intros r Hr0 Hr1. destruct (Hb r ltac:(lia)) as [_ H2]. destruct (Hb (r + 1) ltac:(lia)) as [H3 _].
    rewrite H2, H3. destruct (Z.eqb_spec (r + 1) 0); [lia|]. destruct (Z.eqb_spec r (c_size c - 1)); lia.
  - destruct (Hb 0 ltac:(lia)) as [H1 _]. rewrite H1. reflexivity.
  - destruct (Hb (c_size c - 1) ltac:(lia)) as [_ H2]. rewrite H2, Z.eqb_refl. lia.
Qed.

(** Guard cells extend every interval by n_guard on both sides. *)
Lemma guard_ext c local damp rank p :
  get_Nz_and_iz c local damp false rank = Ok p ->
  get_Nz_and_iz c local damp true rank = Ok (fst p + 2 * c_nguard c, snd p - c_nguard c).
Proof.
  unfold get_Nz_and_iz. destruct local.
  - destruct rank as [r|]; [|discriminate].
    destruct damp, (r =? 0), (r =? c_size c - 1); intros H; injection H as <-; reflexivity.
  - destruct damp; intros H; injection H as <-; reflexivity.
Qed.

(** Edges in z. *)
Lemma edges_ok c local damp g rank p :
  get_Nz_and_iz c local damp g rank = Ok p ->
  get_zmin_zmax c local damp g rank =
    Ok (c_zmin c + IZR (snd p) * c_dz c, c_zmin c + IZR (snd p + fst p) * c_dz c)%R.
Proof.
  intros H. unfold get_zmin_zmax. rewrite H. cbn [bind]. destruct p as [n iz]. cbn [fst snd].
  do 2 f_equal. rewrite plus_IZR. ring.
Qed.

Definition edge (c : comm) (i : Z) : R := (c_zmin c + IZR i * c_dz c)%R.
Definition edges (c : comm) (damp : bool) (r : Z) : R * R :=
  (edge c (snd (part c damp r)), edge c (snd (part c damp r) + fst (part c damp r))).
Definition wedges (c : comm) (damp : bool) : R * R :=
  (edge c (snd (whole c damp)), edge c (snd (whole c damp) + fst (whole c damp))).

Lemma edge_le c i j : (0 < c_dz c)%R -> i <= j -> (edge c i <= edge c j)%R.
Proof. intros Hd Hij. unfold edge. apply IZR_le in Hij. nra. Qed.

(** A position between two edges is in exactly the cell floor((z-zmin)/dz). *)
Definition cell_of (c : comm) (z : R) : Z := Zfloor ((z - c_zmin c) / c_dz c).

Lemma cell_of_spec c z i : (0 < c_dz c)%R ->
  ((edge c i <= z)%R <-> i <= cell_of c z) /\ ((z < edge c i)%R <-> cell_of c z < i).
Proof.
  intros Hd. unfold edge, cell_of.
  set (x := ((z - c_zmin c) / c_dz c)%R).
  assert (Hz : z = (c_zmin c + x * c_dz c)%R) by (unfold x; field; lra).
  assert (Hle : (c_zmin c + IZR i * c_dz c <= z)%R <-> i <= Zfloor x).
  { rewrite Hz. split; intros H.
    - apply Zfloor_lub. nra.
    - apply IZR_le in H. pose proof (Zfloor_lb x). nra. }
  split; [exact Hle|].
  split; intros H.
  - destruct (Z.lt_ge_cases (Zfloor x) i) as [|Hge]; [assumption|exfalso]. apply Hle in Hge. lra.
  - destruct (Rlt_or_le z (c_zmin c + IZR i * c_dz c)) as [|Hge]; [assumption|exfalso].
    apply Hle in Hge. lia.
Qed.

Lemma tiles_to_R c size parts wh : (0 < c_dz c)%R -> tiles size parts wh ->
  tiles_R size (fun r => (edge c (snd (parts r)), edge c (snd (parts r) + fst (parts r))))
          (edge c (snd wh), edge c (snd wh + fst wh)).
Proof.
  intros Hd (_ & Hcov & Huniq & _). unfold tiles_R; cbn [fst snd].
  assert (Hc : forall z a b, (edge c a <= z < edge c b)%R <-> a <= cell_of c z < b).
  { intros z a b. destruct (cell_of_spec c z a Hd) as [H1 _]. destruct (cell_of_spec c z b Hd) as [_ H2]. tauto. }
  split.
  - intros z. rewrite Hc. fold (cell_in (cell_of c z) wh). rewrite Hcov.
    split; intros [r [Hr H]]; exists r; (split; [exact Hr|]); apply Hc; exact H.
  - intros r s z Hr Hs H1 H2. rewrite Hc in H1, H2. exact (Huniq r s _ Hr Hs H1 H2).
Qed.

(** The double-precision quotient: int(a/b) with a/b rounded to nearest-even binary64
    is the exact floor. *)
Definition b64 := FLT_exp (-1074) 53.
#[global] Instance prec53 : Prec_gt_0 53 := eq_refl.
#[global] Instance b64_valid : Valid_exp b64 := FLT_exp_valid (-1074) 53.
Definition rnd64 (x : R) : R := round radix2 b64 ZnearestE x.

Lemma int64_repr z : Z.abs z < 2 ^ 53 -> rnd64 (IZR z) = IZR z.
Proof.
  intros Hz. unfold rnd64. apply round_generic; [typeclasses eauto|].
  apply generic_format_FLT. exists (Float radix2 z 0).
  - unfold F2R; simpl. ring.
  - simpl Fnum. change (radix2 ^ 53) with (2 ^ 53). lia.
  - simpl; lia.
Qed.

Lemma div64_exact a b : 0 <= a -> 0 < b -> a + b <= 2 ^ 53 ->
  Ztrunc (rnd64 (IZR a / IZR b)) = a / b.
Proof.
  intros Ha Hb Hab.
  assert (Hb' : (0 < IZR b)%R) by (apply IZR_lt; lia).
  set (q := a / b).
  assert (Hdm : a = b * q + a mod b) by (apply Z.div_mod; lia).
  assert (Hm : 0 <= a mod b < b) by (apply Z.mod_pos_bound; lia).
  assert (Hq : 0 <= q) by (apply Z.div_pos; lia).
  assert (Hqa : q <= a) by nia.
  set (y := (IZR a / IZR b)%R).
  assert (Hyb : (y * IZR b = IZR a)%R) by (unfold y; field; lra).
  assert (Hql : (IZR q <= y)%R).
  { apply Rmult_le_reg_r with (IZR b); [exact Hb'|]. rewrite Hyb, <- mult_IZR. apply IZR_le. nia. }
  assert (Hlow : (IZR q <= rnd64 y)%R).
  { rewrite <- (int64_repr q) by lia. apply round_le; [typeclasses eauto..|exact Hql]. }
  assert (Hup : (rnd64 y < IZR (q + 1))%R).
  { destruct (Z.eq_dec a 0) as [->|Hane].
    - unfold y, rnd64, Rdiv. rewrite Rmult_0_l, round_0 by typeclasses eauto. apply IZR_lt. lia.
    - assert (Ha' : (1 <= IZR a)%R) by (apply IZR_le; lia).
      assert (Hb53 : (IZR b <= bpow radix2 53)%R) by (apply (IZR_le _ (2 ^ 53)); lia).
      assert (Hy0 : (0 < y)%R) by nra.
      assert (Hnorm : (bpow radix2 (-1074 + 53 - 1) <= Rabs y)%R).
      { rewrite Rabs_pos_eq by lra. apply Rle_trans with (bpow radix2 (-53)); [apply bpow_le; lia|].
        assert (Hp : (bpow radix2 53 * bpow radix2 (-53) = 1)%R) by (rewrite <- bpow_plus; reflexivity).
        assert (0 < bpow radix2 (-53))%R by apply bpow_gt_0. nra. }
      assert (Herr := relative_error_N_FLT radix2 (-1074) 53 ltac:(lia) (fun x => negb (Z.even x)) y Hnorm).
      fold b64 in Herr. change (round radix2 b64 (Znearest (fun x => negb (Z.even x))) y) with (rnd64 y) in Herr.
      rewrite (Rabs_pos_eq y) in Herr by lra.
      apply Rabs_le_inv in Herr.
      assert (Heps : (/ 2 * bpow radix2 (- (53) + 1) * bpow radix2 53 = 1)%R).
      { rewrite Rmult_assoc, <- bpow_plus. simpl. lra. }
      set (eps := (/ 2 * bpow radix2 (- (53) + 1))%R) in *.
      assert (He0 : (0 < eps)%R) by (unfold eps; assert (0 < bpow radix2 (- (53) + 1))%R by apply bpow_gt_0; lra).
      assert (Hq1 : (y * IZR b <= IZR (q + 1) * IZR b - 1)%R).
      { rewrite Hyb, <- mult_IZR, <- minus_IZR. apply IZR_le. nia. }
      assert (Hab' : (IZR (q + 1) * IZR b <= bpow radix2 53)%R).
      { rewrite <- mult_IZR. apply (IZR_le _ (2 ^ 53)). nia. }
      assert (Hfin : (eps * (y * IZR b) < 1)%R) by nra.
      apply Rmult_lt_reg_r with (IZR b); [exact Hb'|]. nra. }
  rewrite Ztrunc_floor.
  - apply Zfloor_imp. split; assumption.
  - apply Rle_trans with (IZR q); [apply IZR_le; lia|exact Hlow].
Qed.

(** Gather / scatter. *)
Section GS.
  Context {A : Type} (zero : A).

  Lemma gatherv_miss parts (buf : Z -> A) f :
    (forall d n g, In (d, n, g) parts -> ~ (d <= f < d + n)) ->
    gatherv buf parts f = buf f.
  Proof.
    unfold gatherv. revert buf. induction parts as [|[[d n] g] t IH]; intros buf H; [reflexivity|].
    cbn [fold_left]. rewrite IH by (intros; eapply H; right; eassumption).
    specialize (H d n g (or_introl eq_refl)).
    destruct ((d <=? f) && (f <? d + n)) eqn:E; [lia|reflexivity].
  Qed.

  Lemma gatherv_hit l d n g r (buf : Z -> A) f :
    d <= f < d + n ->
    (forall d' n' g', In (d', n', g') r -> ~ (d' <= f < d' + n')) ->
    gatherv buf (l ++ (d, n, g) :: r) f = g (f - d).
  Proof.
    intros Hf Hr. unfold gatherv. rewrite fold_left_app. cbn [fold_left].
    fold (gatherv (fun f0 => if (d <=? f0) && (f0 <? d + n) then g (f0 - d)
       else fold_left (fun buf '(displ, count, data) =>
                 fun f => if (displ <=? f) && (f <? displ + count)
                          then data (f - displ) else buf f) l buf f0) r f).
    rewrite gatherv_miss by exact Hr.
    destruct ((d <=? f) && (f <? d + n)) eqn:E; [reflexivity|lia].
  Qed.

  Lemma mapM_ok {X Y} (f : X -> res Y) (g : X -> Y) l :
    (forall x, In x l -> f x = Ok (g x)) -> mapM f l = Ok (map g l).
  Proof.
    induction l as [|x t IH]; intros H; [reflexivity|]. cbn [mapM map].
    rewrite (H x (or_introl eq_refl)). cbn [bind].
    rewrite IH by (intros; apply H; right; assumption). reflexivity.
  Qed.

  (** Offset of the (physical or damped) interval of rank k in its enlarged array. *)
  Definition offset_in_array (c : comm) (damp : bool) (k : Z) : Z :=
    snd (part c damp k) - (snd (part c true k) - c_nguard c).

  Lemma local_part_ok c damp k (arr : @array2 A) :
    local_part c damp k arr = Ok (fun iz ir => arr (offset_in_array c damp k + iz) ir).
  Proof.
    unfold local_part. rewrite part_ok. cbn [bind].
    rewrite (guard_ext c true true (Some k) (part c true k)) by apply part_ok. cbn [bind].
    destruct (part c damp k) eqn:E. unfold offset_in_array. rewrite E. reflexivity.
  Qed.

  (** The value gathered at global cell (i, ir): taken from the owner's array. *)
  Lemma gather_value c Nr damp (arrs : Z -> @array2 A) :
    valid_comm c -> 0 < Nr ->
    exists out, gather_grid_array zero c Nr damp arrs = Ok out /\
      forall k i ir, 0 <= k < c_size c -> cell_in i (part c damp k) -> 0 <= ir < Nr ->
        out (i - snd (whole c damp)) ir =
        arrs k (i - (snd (part c true k) - c_nguard c)) ir.
  Proof.
    intros Hv HNr. pose proof (part_tiles c damp Hv) as (Hlen & Hcov & Huniq & _ & Hfst & _).
    pose proof Hv as (Hs & Hrk & _).
    unfold gather_grid_array. rewrite whole_ok. cbn [bind].
    destruct (whole c damp) as [Ng ig] eqn:Ew. cbn [snd fst] in *.
    destruct (1 <? c_size c) eqn:E1.
    - rewrite (mapM_ok _ (fun k => (Nr * (snd (part c damp k) - ig), Nr * fst (part c damp k),
                 flat Nr (fun iz ir => arrs k (offset_in_array c damp k + iz) ir)))).
      2:{ intros k _. rewrite part_ok. cbn [bind]. rewrite local_part_ok. cbn [bind].
          destruct (part c damp k); reflexivity. }
      cbn [bind]. eexists. split; [reflexivity|].
      intros k i ir Hk Hi Hir. unfold unflat.
      assert (Hin : In k (range (c_size c))) by (apply in_range; exact Hk).
      apply in_split in Hin. destruct Hin as [l [r Elr]].
      assert (Hnd : NoDup (l ++ k :: r)) by (rewrite <- Elr; apply NoDup_range).
      rewrite Elr, map_app. cbn [map].
      unfold cell_in in Hi.
      rewrite gatherv_hit.
      + unfold flat, offset_in_array.
        replace ((i - ig) * Nr + ir - Nr * (snd (part c damp k) - ig))
          with (ir + (i - snd (part c damp k)) * Nr) by ring.
        rewrite Z.div_add, Z.mod_add, Z.div_small, Z.mod_small by lia.
        f_equal. lia.
      + nia.
      + intros d' n' g' Hin' Hbad. apply in_map_iff in Hin'. destruct Hin' as [s [Heq Hs']].
        injection Heq as <- <- _.
        assert (Hsr : 0 <= s < c_size c).
        { apply in_range. rewrite Elr. apply in_or_app. right. right. exact Hs'. }
        assert (s = k).
        { apply (Huniq s k i Hsr Hk); [|exact Hi]. unfold cell_in.
          pose proof (Hlen s Hsr). nia. }
        subst s. apply NoDup_remove_2 in Hnd. apply Hnd. apply in_or_app. right. exact Hs'.
    - rewrite local_part_ok. eexists. split; [reflexivity|].
      intros k i ir Hk Hi Hir. assert (Hk0 : k = 0) by lia. assert (Hc0 : c_rank c = 0) by lia.
      subst k. rewrite Hc0. unfold offset_in_array.
      f_equal. lia.
  Qed.

  (** The local array that scatter returns, cell by cell. *)
  Lemma scatter_value c Nr damp k (arr : @array2 A) :
    valid_comm c -> 0 < Nr -> 0 <= k < c_size c ->
    exists loc, scatter_grid_array c Nr damp k arr = Ok loc /\
      forall i ir, cell_in i (part c damp k) -> 0 <= ir < Nr ->
        loc (i - snd (part c damp k)) ir = arr (i - snd (whole c damp)) ir.
  Proof.
    intros Hv HNr Hk. pose proof Hv as (Hs & Hrk & _).
    unfold scatter_grid_array. rewrite whole_ok. cbn [bind].
    destruct (whole c damp) as [Ng ig] eqn:Ew. rewrite part_ok. cbn [bind].
    destruct (part c damp k) as [Nk ik] eqn:Ek. cbn [fst snd].
    destruct (1 <? c_size c).
    - eexists. split; [reflexivity|]. intros i ir Hi Hir. unfold cell_in in Hi; cbn [fst snd] in Hi.
      unfold unflat, flat.
      replace (Nr * (ik - ig) + ((i - ik) * Nr + ir)) with (ir + (i - ig) * Nr) by ring.
      rewrite Z.div_add, Z.mod_add, Z.div_small, Z.mod_small by lia. reflexivity.
    - eexists. split; [reflexivity|]. intros i ir Hi Hir. cbv beta. replace (ik - ig + (i - ik)) with (i - ig) by lia. reflexivity.
  Qed.

  (** Round trip: any local arrays whose (damped or physical) region holds the scattered
      data - guard cells arbitrary - gather back to the global array. *)
  Lemma gather_scatter c Nr damp (arr : @array2 A) (arrs : Z -> @array2 A) :
    valid_comm c -> 0 < Nr ->
    (forall k loc, 0 <= k < c_size c -> scatter_grid_array c Nr damp k arr = Ok loc ->
       forall i ir, 0 <= i < fst (part c damp k) -> 0 <= ir < Nr ->
         arrs k (i + (snd (part c damp k) - (snd (part c true k) - c_nguard c))) ir = loc i ir) ->
    exists out, gather_grid_array zero c Nr damp arrs = Ok out /\
      forall j ir, 0 <= j < fst (whole c damp) -> 0 <= ir < Nr -> out j ir = arr j ir.
  Proof.
    intros Hv HNr Hemb.
    destruct (gather_value c Nr damp arrs Hv HNr) as [out [Hout Hval]].
    exists out. split; [exact Hout|]. intros j ir Hj Hir.
    pose proof (part_tiles c damp Hv) as (_ & Hcov & _).
    destruct (proj1 (Hcov (j + snd (whole c damp)))) as [k [Hk Hi]].
    { unfold cell_in. lia. }
    replace j with (j + snd (whole c damp) - snd (whole c damp)) at 1 by lia.
    rewrite (Hval k _ ir Hk Hi Hir).
    destruct (scatter_value c Nr damp k arr Hv HNr Hk) as [loc [Hloc Hlv]].
    unfold cell_in in Hi.
    replace (j + snd (whole c damp) - (snd (part c true k) - c_nguard c))
      with ((j + snd (whole c damp) - snd (part c damp k))
            + (snd (part c damp k) - (snd (part c true k) - c_nguard c))) by lia.
    rewrite (Hemb k loc Hk Hloc) by lia.
    rewrite (Hlv (j + snd (whole c damp)) ir Hi Hir). f_equal. lia.
  Qed.
End GS.

(** Statements phrased with the values returned by the API only. *)
Lemma C01_main c damp : valid_comm c ->
  exists parts wh,
    (forall r, 0 <= r < c_size c -> get_Nz_and_iz c true damp false (Some r) = Ok (parts r)) /\
    get_Nz_and_iz c false damp false None = Ok wh /\
    tiles (c_size c) parts wh /\
    (forall r, 0 <= r < c_size c ->
       get_Nz_and_iz c true damp true (Some r)
         = Ok (fst (parts r) + 2 * c_nguard c, snd (parts r) - c_nguard c)) /\
    get_Nz_and_iz c false damp true None
         = Ok (fst wh + 2 * c_nguard c, snd wh - c_nguard c).
Proof.
  intros Hv. exists (part c damp), (whole c damp).
  split; [intros r _; apply part_ok|]. split; [apply whole_ok|].
  split; [apply part_tiles; exact Hv|].
  split; [intros r _; apply guard_ext, part_ok|apply guard_ext, whole_ok].
Qed.

Lemma C01_main_R c damp : valid_comm c -> (0 < c_dz c)%R ->
  exists edg wh,
    (forall r, 0 <= r < c_size c -> get_zmin_zmax c true damp false (Some r) = Ok (edg r)) /\
    get_zmin_zmax c false damp false None = Ok wh /\
    tiles_R (c_size c) edg wh /\
    (forall r, 0 <= r -> r + 1 < c_size c -> snd (edg r) = fst (edg (r + 1))) /\
    (forall r, 0 <= r < c_size c -> (fst (edg r) <= snd (edg r))%R).
Proof.
  intros Hv Hd. exists (edges c damp), (wedges c damp).
  pose proof (part_tiles c damp Hv) as Ht.
  split; [|split; [|split; [|split]]].
  - intros r _. rewrite (edges_ok c true damp false (Some r) (part c damp r)) by apply part_ok. reflexivity.
  - rewrite (edges_ok c false damp false None (whole c damp)) by apply whole_ok. reflexivity.
  - apply (tiles_to_R c (c_size c) (part c damp) (whole c damp) Hd Ht).
  - intros r H0 H1. unfold edges; cbn [fst snd]. destruct Ht as (_ & _ & _ & Hc & _).
    rewrite (Hc r H0 H1). reflexivity.
  - intros r Hr. unfold edges; cbn [fst snd]. destruct Ht as (Hl & _). specialize (Hl r Hr).
    apply edge_le; [exact Hd|lia].
Qed.

Lemma C02_main {A : Type} (zero : A) c Nr damp (arr : @array2 A) (arrs : Z -> @array2 A) :
  valid_comm c -> 0 < Nr ->
  (forall k, 0 <= k < c_size c ->
     exists loc Nk ik Nk' ik',
       scatter_grid_array c Nr damp k arr = Ok loc /\
       get_Nz_and_iz c true damp false (Some k) = Ok (Nk, ik) /\
       get_Nz_and_iz c true true true (Some k) = Ok (Nk', ik') /\
       forall i ir, 0 <= i < Nk -> 0 <= ir < Nr -> arrs k (ik - ik' + i) ir = loc i ir) ->
  exists out N ig,
    get_Nz_and_iz c false damp false None = Ok (N, ig) /\
    gather_grid_array zero c Nr damp arrs = Ok out /\
    forall j ir, 0 <= j < N -> 0 <= ir < Nr -> out j ir = arr j ir.
Proof.
  intros Hv HNr H.
  destruct (gather_scatter zero c Nr damp arr arrs Hv HNr) as [out [Ho Hval]].
  - intros k loc Hk Hloc i ir Hi Hir.
    destruct (H k Hk) as (loc' & Nk & ik & Nk' & ik' & Hs & H1 & H2 & H3).
    rewrite Hloc in Hs. injection Hs as <-.
    rewrite part_ok in H1. injection H1 as H1.
    rewrite (guard_ext c true true (Some k) _ (part_ok c true k)) in H2. injection H2 as _ <-.
    rewrite H1 in Hi |- *. cbn [fst snd] in *.
    rewrite <- (H3 i ir Hi Hir). f_equal. lia.
  - exists out, (fst (whole c damp)), (snd (whole c damp)).
    rewrite whole_ok, <- surjective_pairing. split; [reflexivity|]. split; [exact Ho|exact Hval].
Qed.

Lemma C02_owner {A : Type} (zero : A) c Nr damp (arrs : Z -> @array2 A) :
  valid_comm c -> 0 < Nr ->
  exists out N ig,
    get_Nz_and_iz c false damp false None = Ok (N, ig) /\
    gather_grid_array zero c Nr damp arrs = Ok out /\
    forall j ir, 0 <= j < N -> 0 <= ir < Nr ->
      exists k Nk ik Nk' ik',
        0 <= k < c_size c /\
        get_Nz_and_iz c true damp false (Some k) = Ok (Nk, ik) /\
        get_Nz_and_iz c true true true (Some k) = Ok (Nk', ik') /\
        ik <= ig + j < ik + Nk /\
        out j ir = arrs k (ig + j - ik') ir.
Proof.
  intros Hv HNr. destruct (gather_value zero c Nr damp arrs Hv HNr) as [out [Ho Hval]].
  exists out, (fst (whole c damp)), (snd (whole c damp)).
  rewrite whole_ok, <- surjective_pairing. split; [reflexivity|]. split; [exact Ho|].
  intros j ir Hj Hir. pose proof (part_tiles c damp Hv) as (_ & Hcov & _).
  destruct (proj1 (Hcov (j + snd (whole c damp)))) as [k [Hk Hi]]; [unfold cell_in; lia|].
  exists k, (fst (part c damp k)), (snd (part c damp k)),
    (fst (part c true k) + 2 * c_nguard c), (snd (part c true k) - c_nguard c).
  split; [exact Hk|]. split; [rewrite part_ok, <- surjective_pairing; reflexivity|].
  split; [apply guard_ext, part_ok|]. unfold cell_in in Hi. split; [lia|].
  replace j with (j + snd (whole c damp) - snd (whole c damp)) at 1 by lia.
  rewrite (Hval k _ ir Hk Hi Hir). f_equal. lia.
Qed.
