From Verif Require Import Base Decomp_Model Decomp_Spec Decomp_Proofs Boost_Model Boost_Proofs Inject_Model Inject_Proofs Load_Model Load_Proofs Bunch_Model Bunch_Spec.
From Coq Require Import Reals Lra Lia.
From Flocq Require Import Core.Core IEEE754.BinarySingleNaN.
Open Scope Z_scope.

(** *** Distribution over the ranks *)
Section Dist.
Context {A : Type} (f : Z -> A -> bool).
Lemma flat_map_app_perm {X} (g h : X -> list A) l :
  Permutation (flat_map (fun r => g r ++ h r) l) (flat_map g l ++ flat_map h l).
Proof.
  induction l as [|r l IH]; cbn; [constructor|]. rewrite <- !app_assoc. apply Permutation_app_head.
  rewrite IH. rewrite !app_assoc. apply Permutation_app_tail. apply Permutation_app_comm.
Qed.
Lemma dist_perm ranks l :
  Permutation (flat_map (fun r => filter (f r) l) ranks)
              (flat_map (fun a => map (fun _ => a) (filter (fun r => f r a) ranks)) l).
Proof.
  induction l as [|a l IH]; cbn.
  - induction ranks; cbn; [constructor|assumption].
  - etransitivity; [|apply Permutation_app_head; exact IH].
    assert (E : forall r, (if f r a then a :: filter (f r) l else filter (f r) l)
                          = (if f r a then [a] else []) ++ filter (f r) l) by (intros r; destruct (f r a); reflexivity).
    rewrite (flat_map_ext _ _ E). rewrite flat_map_app_perm. apply Permutation_app_tail.
    clear IH E. induction ranks as [|r ranks IH]; cbn; [constructor|]. destruct (f r a); cbn; [constructor|]; assumption.
Qed.
Lemma one_filter n (P : Z -> bool) : exactly_one n (fun r => P r = true) -> exists r, filter P (range n) = [r].
Proof.
  intros (r & Hr & Pr & U). exists r.
  assert (F : forall l, NoDup l -> (forall s, In s l -> 0 <= s < n) -> filter P l = if in_dec Z.eq_dec r l then [r] else []).
  { induction l as [|x l IH]; intros N I; cbn [filter]; [reflexivity|]. inversion N; subst. rewrite IH by (auto; intros; apply I; right; assumption).
    destruct (P x) eqn:Px.
    - assert (x = r) by (apply U; [apply I; left; reflexivity|assumption]). subst x.
      destruct (in_dec Z.eq_dec r l); [contradiction|]. destruct (in_dec Z.eq_dec r (r :: l)) as [|Q]; [reflexivity|]. exfalso. apply Q. left. reflexivity.
    - destruct (in_dec Z.eq_dec r l) as [i|i]; destruct (in_dec Z.eq_dec r (x :: l)) as [j|j]; try reflexivity.
      + exfalso. apply j. right. assumption.
      + destruct j as [->|j]; [congruence|contradiction]. }
  rewrite F; [|apply NoDup_range|intros s Hs; apply in_range; assumption].
  destruct (in_dec Z.eq_dec r (range n)) as [_|N]; [reflexivity|]. exfalso. apply N, in_range. assumption.
Qed.
Lemma dist_once n g l : (forall a, In a l -> if g a : bool then exactly_one n (fun r => f r a = true) else no_rank n (fun r => f r a = true)) ->
  Permutation (flat_map (fun r => filter (f r) l) (range n)) (filter g l).
Proof.
  intros H. rewrite dist_perm. clear -H. induction l as [|a l IH]; cbn; [constructor|].
  assert (H0 := H a (or_introl eq_refl)). assert (IH' := IH (fun b I => H b (or_intror I))).
  destruct (g a).
  - destruct (one_filter n (fun r => f r a) H0) as [r ->]. cbn. constructor. assumption.
  - replace (filter (fun r => f r a) (range n)) with (@nil Z); [exact IH'|]. symmetry.
    assert (F : forall l, (forall s, In s l -> 0 <= s < n) -> filter (fun r => f r a) l = []).
    { induction l0 as [|x t IHt]; intros I; cbn; [reflexivity|]. destruct (f x a) eqn:E.
      - exfalso. apply (H0 x); [apply I; left; reflexivity|assumption].
      - apply IHt. intros; apply I; right; assumption. }
    apply F. intros s Hs. apply in_range. assumption.
Qed.
End Dist.

Definition on_rank (c : comm) (r : Z) : comm :=
  {| c_rank := r; c_size := c_size c; c_left := c_left c; c_right := c_right c; c_Nz := c_Nz c; c_zmin := c_zmin c;
     c_dz := c_dz c; c_nguard := c_nguard c; c_nzdamp := c_nzdamp c; c_ninject := c_ninject c; c_period := c_period c |}.

Lemma selected_iff a b z : selected a b z = true <-> (a <= z < b)%R.
Proof. unfold selected. destruct (Rle_dec a z), (Rlt_dec z b); cbn; split; intros; try lra; try discriminate; reflexivity. Qed.
Lemma selected_false a b z : selected a b z = false -> ~ (a <= z < b)%R.
Proof. intros H Q. apply selected_iff in Q. congruence. Qed.

Lemma on_rank_edges c r l d g k : get_zmin_zmax (on_rank c r) l d g k = get_zmin_zmax c l d g k.
Proof. reflexivity. Qed.

Definition loaded_on cl boost l (c : comm) (r : Z) : list macro :=
  match add_particle_bunch_from_arrays cl (on_rank c r) boost l with Ok x => x | Err _ => [] end.

Lemma C44_main cl boost l c : valid_comm c -> (0 < c_dz c)%R ->
  exists zmin zmax, get_zmin_zmax c false false false None = Ok (zmin, zmax) /\
  (forall r, 0 <= r < c_size c -> exists x, add_particle_bunch_from_arrays cl (on_rank c r) boost l = Ok x) /\
  Permutation (flat_map (loaded_on cl boost l c) (range (c_size c)))
              (filter (fun p => selected zmin zmax (pz (m_p p))) (to_boosted cl boost l)) /\
  (forall p, In p (to_boosted cl boost l) ->
     ((zmin <= pz (m_p p) < zmax)%R -> exactly_one (c_size c) (fun r => In p (loaded_on cl boost l c r))) /\
     (~ (zmin <= pz (m_p p) < zmax)%R -> no_rank (c_size c) (fun r => In p (loaded_on cl boost l c r)))).
Proof.
  intros V D. destruct (C01_main_R c false V D) as (edg & wh & He & Hw & [Ti Tu] & _).
  exists (fst wh), (snd wh). split; [rewrite Hw; destruct wh; reflexivity|].
  assert (L : forall r, 0 <= r < c_size c -> add_particle_bunch_from_arrays cl (on_rank c r) boost l
              = Ok (filter (fun p => selected (fst (edg r)) (snd (edg r)) (pz (m_p p))) (to_boosted cl boost l))).
  { intros r Hr. unfold add_particle_bunch_from_arrays. rewrite on_rank_edges. cbn [c_rank on_rank].
    rewrite (He r Hr). destruct (edg r). reflexivity. }
  assert (L' : forall r, 0 <= r < c_size c -> loaded_on cl boost l c r
              = filter (fun p => selected (fst (edg r)) (snd (edg r)) (pz (m_p p))) (to_boosted cl boost l)).
  { intros r Hr. unfold loaded_on. rewrite (L r Hr). reflexivity. }
  split; [intros r Hr; eexists; apply L; assumption|].
  assert (One : forall z, (fst wh <= z < snd wh)%R -> exactly_one (c_size c) (fun r => selected (fst (edg r)) (snd (edg r)) z = true)).
  { intros z Hz. apply Ti in Hz. destruct Hz as (r & Hr & Hz). exists r. split; [assumption|]. split; [apply selected_iff; assumption|].
    intros s Hs S. apply selected_iff in S. apply (Tu s r z); assumption. }
  assert (No : forall z, ~ (fst wh <= z < snd wh)%R -> no_rank (c_size c) (fun r => selected (fst (edg r)) (snd (edg r)) z = true)).
  { intros z Hz r Hr S. apply Hz, Ti. exists r. split; [assumption|]. apply selected_iff. assumption. }
  split.
  - assert (E : flat_map (loaded_on cl boost l c) (range (c_size c))
      = flat_map (fun r => filter (fun p => selected (fst (edg r)) (snd (edg r)) (pz (m_p p))) (to_boosted cl boost l)) (range (c_size c))).
    { assert (G : forall rs, (forall s, In s rs -> 0 <= s < c_size c) -> flat_map (loaded_on cl boost l c) rs
        = flat_map (fun r => filter (fun p => selected (fst (edg r)) (snd (edg r)) (pz (m_p p))) (to_boosted cl boost l)) rs).
      { induction rs as [|r rs IH]; intros I; [reflexivity|]. cbn [flat_map]. rewrite L' by (apply I; left; reflexivity). f_equal.
        apply IH. intros; apply I; right; assumption. }
      apply G. intros s Hs. apply in_range. assumption. }
    rewrite E. apply (dist_once (fun r p => selected (fst (edg r)) (snd (edg r)) (pz (m_p p)))).
    intros p _. destruct (selected (fst wh) (snd wh) (pz (m_p p))) eqn:S.
    + apply One, selected_iff. assumption.
    + apply No, selected_false. assumption.
  - intros p Ip. split; intros Hz.
    + destruct (One _ Hz) as (r & Hr & Sr & U). exists r. split; [assumption|]. split.
      * rewrite L' by assumption. apply filter_In. auto.
      * intros s Hs Is. rewrite L' in Is by assumption. apply filter_In in Is. apply U; [assumption|tauto].
    + intros r Hr Is. rewrite L' in Is by assumption. apply filter_In in Is. apply (No _ Hz r Hr). tauto.
Qed.

(** *** binary64 *)
Notation rd := (round radix2 (SpecFloat.fexp 53 1024) (round_mode mode_NE)).
Lemma fexp_valid : Valid_exp (SpecFloat.fexp 53 1024).
Proof. apply fexp_correct. reflexivity. Qed.
Lemma rd_le x y : (x <= y)%R -> (rd x <= rd y)%R.
Proof. intros. apply round_le; [apply fexp_valid|apply valid_rnd_round_mode|assumption]. Qed.
Lemma fin_plus x y : is_finite (add64 x y) = true -> is_finite x = true /\ is_finite y = true.
Proof.
  unfold add64. intros H. destruct x as [sx|sx| |sx mx ex Bx], y as [sy|sy| |sy my ey By]; cbn in H |- *; try discriminate; auto.
  destruct (Bool.eqb sx sy); discriminate.
Qed.
Lemma fin_mult x y : is_finite (mul64 x y) = true -> is_finite x = true /\ is_finite y = true.
Proof. unfold mul64. intros H. destruct x, y; cbn in H |- *; try discriminate; auto. Qed.
Lemma plus_val x y : is_finite (add64 x y) = true -> B2R (add64 x y) = rd (B2R x + B2R y).
Proof.
  intros H. destruct (fin_plus x y H) as [Fx Fy]. unfold add64 in *.
  assert (Q := Bplus_correct 53 1024 Hprec64 Hmax64 mode_NE x y Fx Fy).
  destruct (Rlt_bool _ _); [tauto|]. destruct Q as [Q _]. rewrite <- is_finite_SF_B2SF, Q in H. discriminate.
Qed.
Lemma mult_val x y : is_finite (mul64 x y) = true -> B2R (mul64 x y) = rd (B2R x * B2R y).
Proof.
  intros H. unfold mul64 in *. assert (Q := Bmult_correct 53 1024 Hprec64 Hmax64 mode_NE x y).
  destruct (Rlt_bool _ _); [tauto|]. rewrite <- is_finite_SF_B2SF, Q in H. discriminate.
Qed.
Lemma ofZ_val n : is_finite (of_Z64 n) = true -> B2R (of_Z64 n) = rd (IZR n).
Proof.
  intros H. unfold of_Z64 in *. assert (Q := binary_normalize_correct 53 1024 Hprec64 Hmax64 mode_NE n 0 false).
  cbv zeta in Q. assert (E : @Defs.F2R radix2 {| Fnum := n; Fexp := 0 |} = IZR n) by (unfold Defs.F2R; cbn; ring).
  rewrite E in Q. destruct (Rlt_bool _ _); [tauto|]. rewrite <- is_finite_SF_B2SF, Q in H. discriminate.
Qed.

Definition lo64 c zg dz r : b64 := add64 zg (mul64 (of_Z64 (snd (part c false r))) dz).
Definition hi64 c zg dz r : b64 := add64 (lo64 c zg dz r) (mul64 (of_Z64 (fst (part c false r))) dz).
Lemma edges64 c zg dz r : get_zmin_zmax64 c zg dz true false false (Some r) = Ok (lo64 c zg dz r, hi64 c zg dz r).
Proof. unfold get_zmin_zmax64. rewrite part_ok. unfold bind, hi64, lo64. destruct (part c false r). reflexivity. Qed.

Lemma sel64 c zg dz r z : is_finite (lo64 c zg dz r) = true -> is_finite (hi64 c zg dz r) = true -> is_finite z = true ->
  selected64 c zg dz r z = true <-> (B2R (lo64 c zg dz r) <= B2R z < B2R (hi64 c zg dz r))%R.
Proof.
  intros Fl Fh Fz. unfold selected64. rewrite edges64. rewrite Bleb_correct, Bltb_correct by assumption.
  destruct (Rle_bool_spec (B2R (lo64 c zg dz r)) (B2R z)), (Rlt_bool_spec (B2R z) (B2R (hi64 c zg dz r))); cbn; split; intros; try lra; try discriminate; reflexivity.
Qed.

Lemma part_iz c r : valid_comm c -> 0 <= r < c_size c -> snd (part c false r) = r * (c_Nz c / c_size c).
Proof.
  intros V Hr. destruct V as (Hs & _ & HN & _). assert (P := part_form c false r ltac:(lia) ltac:(lia)).
  rewrite P. cbn [fst snd]. unfold ext.
  repeat match goal with |- context [if ?x then _ else _] => destruct x end; lia.
Qed.
Lemma part_n c r : valid_comm c -> 0 <= r -> r + 1 < c_size c -> fst (part c false r) = c_Nz c / c_size c.
Proof.
  intros V Hr Hr'. destruct V as (Hs & _ & HN & _). assert (P := part_form c false r ltac:(lia) ltac:(lia)).
  rewrite P. cbn [fst snd]. unfold ext.
  destruct (Z.eqb_spec r (c_size c - 1)); repeat match goal with |- context [if ?x then _ else _] => destruct x end; lia.
Qed.

Section D64.
Variables (c : comm) (zg dz : b64).
Hypothesis V : valid_comm c.
Hypothesis Fin : forall r, 0 <= r < c_size c -> is_finite (lo64 c zg dz r) = true /\ is_finite (hi64 c zg dz r) = true.
Hypothesis Pos : (0 <= B2R dz)%R.
Notation lo r := (B2R (lo64 c zg dz r)).
Notation hi r := (B2R (hi64 c zg dz r)).

Lemma lo_mono r s : 0 <= r <= s -> s < c_size c -> (lo r <= lo s)%R.
Proof.
  intros Hrs Hs. destruct (Fin r ltac:(lia)) as [F1 _], (Fin s ltac:(lia)) as [F2 _]. unfold lo64 in *.
  rewrite !plus_val by assumption. apply rd_le. destruct (fin_plus _ _ F1) as [_ G1], (fin_plus _ _ F2) as [_ G2].
  rewrite !mult_val by assumption. apply Rplus_le_compat_l, rd_le. apply Rmult_le_compat_r; [assumption|].
  destruct (fin_mult _ _ G1) as [K1 _], (fin_mult _ _ G2) as [K2 _]. rewrite !ofZ_val by assumption. apply rd_le, IZR_le.
  rewrite !part_iz by (try assumption; lia). assert (0 <= c_Nz c / c_size c) by (destruct V; apply Z.div_pos; lia). nia.
Qed.
Lemma exists_rank z n : 0 <= n < c_size c -> (lo 0 <= z)%R -> (z < hi n)%R ->
  (forall r, 0 <= r -> r + 1 < c_size c -> (hi r <= z)%R -> (lo (r + 1) <= z)%R) -> exists r, 0 <= r < c_size c /\ (lo r <= z < hi r)%R.
Proof.
  intros Hn L Hh G. assert (B : forall k : nat, Z.of_nat k <= n -> (exists r, 0 <= r < c_size c /\ (lo r <= z < hi r)%R) \/ (lo (Z.of_nat k) <= z)%R).
  { induction k as [|k IH]; intros Hk; [right; exact L|]. destruct IH as [IH|IH]; [lia|left; assumption|].
    destruct (Rlt_le_dec z (hi (Z.of_nat k))) as [Q|Q]; [left; exists (Z.of_nat k); split; [lia|lra]|].
    right. replace (Z.of_nat (S k)) with (Z.of_nat k + 1) by lia. apply G; [lia|lia|assumption]. }
  destruct (B (Z.to_nat n) ltac:(lia)) as [Q|Q]; [assumption|]. rewrite Z2Nat.id in Q by lia. exists n. split; [lia|lra].
Qed.

Lemma once64 z : is_finite z = true -> (lo 0 <= B2R z < hi (c_size c - 1))%R ->
  (forall r, 0 <= r -> r + 1 < c_size c -> ((hi r <= B2R z)%R <-> (lo (r + 1) <= B2R z)%R)) ->
  exactly_one (c_size c) (fun r => selected64 c zg dz r z = true).
Proof.
  intros Fz [L H] G. assert (0 < c_size c) by (destruct V; lia).
  destruct (exists_rank (B2R z) (c_size c - 1) ltac:(lia) L H) as (r & Hr & Sr). { intros. apply G; assumption. }
  exists r. split; [assumption|]. destruct (Fin r Hr) as [F1 F2]. split; [apply sel64; assumption|].
  assert (U : forall a b, 0 <= a < c_size c -> 0 <= b < c_size c -> a < b -> (lo a <= B2R z < hi a)%R -> (lo b <= B2R z < hi b)%R -> False).
  { intros a b Ha Hb Hab Sa Sb. assert (M := lo_mono (a + 1) b ltac:(lia) ltac:(lia)).
    assert (Q := proj2 (G a ltac:(lia) ltac:(lia)) ltac:(lra)). lra. }
  intros s Hs Ss. destruct (Fin s Hs) as [F3 F4]. apply sel64 in Ss; try assumption.
  destruct (Z_lt_le_dec s r); [exfalso; apply (U s r); assumption|]. destruct (Z_lt_le_dec r s); [exfalso; apply (U r s); assumption|]. lia.
Qed.
Lemma none64 z : is_finite z = true -> ~ (lo 0 <= B2R z < hi (c_size c - 1))%R ->
  (forall r, 0 <= r -> r + 1 < c_size c -> (lo (r + 1) <= B2R z)%R -> (hi r <= B2R z)%R) ->
  no_rank (c_size c) (fun r => selected64 c zg dz r z = true).
Proof.
  intros Fz N G r Hr S. destruct (Fin r Hr) as [F1 F2]. apply sel64 in S; try assumption. apply N.
  assert (M := lo_mono 0 r ltac:(lia) ltac:(lia)). split; [lra|].
  destruct (Z.eq_dec r (c_size c - 1)) as [->|D]; [lra|]. destruct (Rlt_le_dec (B2R z) (hi (c_size c - 1))) as [|Q]; [assumption|]. exfalso.
  assert (Q1 : (lo (r + 1) <= B2R z)%R).
  { destruct (Rlt_le_dec (B2R z) (lo (r + 1))) as [Q1|]; [|assumption]. exfalso.
    assert (lo (r + 1) <= lo (c_size c - 1))%R by (apply lo_mono; lia).
    assert (H2 : (lo (c_size c - 1) <= hi (c_size c - 1))%R).
    { destruct (Fin (c_size c - 1) ltac:(lia)) as [F3 F4]. unfold hi64 in F4 |- *. rewrite (plus_val _ _ F4).
      destruct (fin_plus _ _ F4) as [_ G1]. rewrite (mult_val _ _ G1). destruct (fin_mult _ _ G1) as [G2 _]. rewrite (ofZ_val _ G2).
      assert (Z0 : forall x, (0 <= x)%R -> (0 <= rd x)%R). { intros x Hx. rewrite <- (round_0 radix2 (SpecFloat.fexp 53 1024) (round_mode mode_NE)). apply rd_le. assumption. }
      assert (0 <= IZR (fst (part c false (c_size c - 1%Z))))%R.
      { apply IZR_le. destruct (part_tiles c false V) as [T _]. apply T. lia. }
      assert (X : rd (lo (c_size c - 1)) = lo (c_size c - 1)). { apply round_generic; [apply valid_rnd_round_mode|]. apply generic_format_B2R. }
      apply Rle_trans with (rd (lo (c_size c - 1))); [apply Req_le; symmetry; exact X|]. apply rd_le.
      assert (0 <= rd (rd (IZR (fst (part c false (c_size c - 1)))) * B2R dz))%R.
      { apply Z0. apply Rmult_le_pos; [apply Z0; assumption|assumption]. } lra. }
    lra. }
  assert (Q2 := G r ltac:(lia) ltac:(lia) Q1). lra.
Qed.
End D64.

(** With two ranks the two edges that meet are equal. *)
Lemma two_ranks c zg dz r : valid_comm c -> c_size c = 2 -> 0 <= r -> r + 1 < c_size c ->
  is_finite (hi64 c zg dz r) = true -> is_finite (lo64 c zg dz (r + 1)) = true -> B2R (hi64 c zg dz r) = B2R (lo64 c zg dz (r + 1)).
Proof.
  intros V S2 Hr Hr2 F1 F2. assert (r = 0) by lia. subst r. cbn [Z.add].
  unfold hi64 in *. rewrite (plus_val _ _ F1). unfold lo64 in F2 |- *. change (0 + 1) with 1 in *. rewrite (plus_val _ _ F2).
  rewrite (part_iz c 1 V ltac:(lia)) in *. rewrite (part_n c 0 V ltac:(lia) ltac:(lia)) in *.
  destruct (fin_plus _ _ F1) as [F3 F4]. unfold lo64 in F3 |- *. rewrite (plus_val _ _ F3). destruct (fin_plus _ _ F3) as [_ F5]. rewrite (mult_val _ _ F5).
  rewrite (part_iz c 0 V ltac:(lia)). rewrite Z.mul_1_l. cbn [Z.mul].
  replace (B2R (of_Z64 0)) with 0%R by reflexivity. rewrite Rmult_0_l. rewrite (round_0 radix2 (SpecFloat.fexp 53 1024) (round_mode mode_NE)). rewrite Rplus_0_r.
  do 2 f_equal. apply round_generic; [apply valid_rnd_round_mode|]. apply generic_format_B2R.
Qed.

(** ** Centring of an openPMD bunch *)
Lemma openpmd_centred : forall z_off l l', openpmd_beam z_off l = Ok l' ->
  let total f := fold_right (fun a s => f a + s)%R 0%R in
  (total b_w l' <> 0 /\ total (fun a => b_w a * b_z a) l' / total b_w l' = z_off)%R /\
  map (fun a => (b_x a, b_y a, b_ux a, b_uy a, b_uz a, b_w a)) l' = map (fun a => (b_x a, b_y a, b_ux a, b_uy a, b_uz a, b_w a)) l /\
  exists d, map b_z l' = map (fun a => (b_z a + d)%R) l.
Proof.
  intros z_off l l' H. cbv zeta. unfold openpmd_beam in H. destruct (Req_EM_T _ 0) as [|N]; [discriminate|]. injection H as <-.
  assert (F : forall (f : beam -> R) l, fold_right Rplus 0%R (map f l) = fold_right (fun a s => (f a + s)%R) 0%R l).
  { intros f l0. induction l0 as [|a l0 IH]; [reflexivity|]. cbn. rewrite IH. reflexivity. }
  rewrite !F in *. set (sw := fold_right (fun a s => b_w a + s)%R 0%R l) in *.
  set (sz := fold_right (fun a s => b_z a * b_w a + s)%R 0%R l) in *.
  set (k := fun a : beam => {| b_x := b_x a; b_y := b_y a; b_z := (b_z a - sz / sw + z_off)%R; b_ux := b_ux a; b_uy := b_uy a; b_uz := b_uz a; b_w := b_w a |}).
  assert (G : forall (f : beam -> R) l0, fold_right (fun a s => f a + s)%R 0%R (map k l0) = fold_right (fun a s => f (k a) + s)%R 0%R l0).
  { intros f l0. induction l0 as [|a l0 IH]; [reflexivity|]. cbn. rewrite IH. reflexivity. }
  rewrite !G. split; [split|split].
  - exact N.
  - change (fold_right (fun a s => b_w (k a) + s)%R 0%R l) with sw.
    assert (E : forall l0, fold_right (fun a s => b_w (k a) * b_z (k a) + s)%R 0%R l0 =
      (fold_right (fun a s => b_z a * b_w a + s) 0 l0 + (z_off - sz / sw) * fold_right (fun a s => b_w a + s) 0 l0)%R).
    { induction l0 as [|a l0 IH]; [cbn; ring|]. cbn [fold_right]. rewrite IH. cbn [k b_w b_z]. ring. }
    rewrite E. fold sz sw. field. exact N.
  - rewrite map_map. reflexivity.
  - exists (z_off - sz / sw)%R. rewrite map_map. apply map_ext. intros a. cbn. ring.
Qed.
