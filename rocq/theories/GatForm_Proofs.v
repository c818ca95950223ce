(** Proofs for C60. *)
From Coq Require Import Reals Lra Lia Psatz.
From Flocq Require Import Core.Core.
From Coquelicot Require Import Rcomplements Complex.
From Verif Require Import Base Shape_Model Shape_Spec Shape_Proofs Gather_Model Gather_Spec Gather_Proofs GatForm_Spec.
Open Scope R_scope.

(** ** Weights *)
Definition pt0 (sh : shape) (x : R) : Z := match sh with Linear => Zfloor x | Cubic => Zfloor x - 1 end.
Definition wt (sh : shape) (x : R) (a : Z) : R :=
  match sh with
  | Linear => if (a =? 0)%Z then IZR (Zfloor x + 1) - x else x - IZR (Zfloor x)
  | Cubic => cubic_S (x - IZR (Zfloor x - 1)) a
  end.
Lemma spline_wt sh x a : (0 <= a < npts sh)%Z -> spline sh (x - IZR (pt0 sh x + a)) = wt sh x a.
Proof.
  intros Ha. pose proof (Zfloor_lb x). pose proof (Zfloor_ub x). destruct sh; cbn [npts pt0 wt spline] in *; set (k := Zfloor x) in *.
  - assert (a = 0 \/ a = 1)%Z as [E|E] by lia; subst a; cbn [Z.eqb]; rewrite !plus_IZR; rabs; rmax; lra.
  - assert (a = 0 \/ a = 1 \/ a = 2 \/ a = 3)%Z as [E|[E|[E|E]]] by lia; subst a; unfold cubic_S; rewrite ?plus_IZR, ?minus_IZR; rabs; rmax; field.
Qed.
Lemma spline_0 sh x j : (j < pt0 sh x \/ pt0 sh x + npts sh <= j)%Z -> spline sh (x - IZR j) = 0.
Proof.
  intros Hj. pose proof (Zfloor_lb x). pose proof (Zfloor_ub x). destruct sh; cbn [npts pt0 spline] in *; set (k := Zfloor x) in *;
  destruct Hj as [Hj|Hj].
  - assert (IZR j <= IZR k - 1) by (rewrite <- minus_IZR; apply IZR_le; lia). rabs. rmax. lra.
  - assert (IZR k + 2 <= IZR j) by (rewrite <- plus_IZR; apply IZR_le; lia). rabs. rmax. lra.
  - assert (IZR j <= IZR k - 2) by (rewrite <- minus_IZR; apply IZR_le; lia). rabs. rmax. lra.
  - assert (IZR k + 3 <= IZR j) by (rewrite <- plus_IZR; apply IZR_le; lia). rabs. rmax. lra.
Qed.

(** ** Sums of vectors *)
Notation vec := (R * R * R)%type.
Lemma vadd_comm a b : vadd a b = vadd b a. Proof. destruct a as [[]], b as [[]]. cbn. f_equal; [f_equal|]; ring. Qed.
Lemma vadd_assoc a b d : vadd a (vadd b d) = vadd (vadd a b) d. Proof. destruct a as [[]], b as [[]], d as [[]]. cbn. f_equal; [f_equal|]; ring. Qed.
Lemma scaled_vadd s a b : scaled s (vadd a b) = vadd (scaled s a) (scaled s b). Proof. destruct a as [[]], b as [[]]. cbn. f_equal; [f_equal|]; ring. Qed.
Lemma scaled_scaled s t a : scaled s (scaled t a) = scaled (s * t) a. Proof. destruct a as [[]]. cbn. f_equal; [f_equal|]; ring. Qed.
Lemma scaled_0 a : scaled 0 a = (0, 0, 0). Proof. destruct a as [[]]. cbn. f_equal; [f_equal|]; ring. Qed.
Lemma scaled_zero s : scaled s (0, 0, 0) = (0, 0, 0). Proof. cbn. f_equal; [f_equal|]; ring. Qed.
Lemma vsum_nil {A} (f : A -> vec) : vsum f [] = (0, 0, 0). Proof. reflexivity. Qed.
Lemma vsum_cons {A} (f : A -> vec) a l : vsum f (a :: l) = vadd (f a) (vsum f l). Proof. reflexivity. Qed.
Lemma vsum_ext {A} (f h : A -> vec) l : (forall a, In a l -> f a = h a) -> vsum f l = vsum h l.
Proof.
  induction l as [|a l IH]; intros H; [reflexivity|]. rewrite !vsum_cons, H by (left; reflexivity). f_equal. apply IH. intros b Hb. apply H. right. exact Hb.
Qed.
Lemma vsum_map {A B} (f : B -> vec) (h : A -> B) l : vsum f (map h l) = vsum (fun a => f (h a)) l.
Proof. induction l as [|a l IH]; [reflexivity|]. cbn [map]. rewrite !vsum_cons, IH. reflexivity. Qed.
Lemma vsum_vadd {A} (f h : A -> vec) l : vsum (fun a => vadd (f a) (h a)) l = vadd (vsum f l) (vsum h l).
Proof.
  induction l as [|a l IH]; [cbn; f_equal; [f_equal|]; ring|]. rewrite !vsum_cons, IH.
  rewrite !vadd_assoc. f_equal. rewrite <- !vadd_assoc. f_equal. apply vadd_comm.
Qed.
Lemma vsum_scaled {A} s (f : A -> vec) l : vsum (fun a => scaled s (f a)) l = scaled s (vsum f l).
Proof. induction l as [|a l IH]; [cbn; f_equal; [f_equal|]; ring|]. rewrite !vsum_cons, IH, scaled_vadd. reflexivity. Qed.
Lemma vsum_zero {A} (f : A -> vec) l : (forall a, In a l -> f a = (0, 0, 0)) -> vsum f l = (0, 0, 0).
Proof.
  induction l as [|a l IH]; intros H; [reflexivity|]. rewrite vsum_cons, H by (left; reflexivity). rewrite vadd_l0. apply IH. intros b Hb. apply H. right. exact Hb.
Qed.
Lemma vsum_single n i (f : Z -> vec) : (0 <= i < n)%Z -> vsum (fun k => if (k =? i)%Z then f k else (0, 0, 0)) (range n) = f i.
Proof.
  intros Hi.
  assert (G : forall l, NoDup l -> In i l -> vsum (fun k => if (k =? i)%Z then f k else (0, 0, 0)) l = f i).
  { induction l as [|a l IH]; intros Hd Hin; [destruct Hin|]. inversion Hd as [|? ? Ha Hl]; subst. rewrite vsum_cons.
    destruct (Z.eqb_spec a i) as [->|Hne].
    - rewrite vsum_zero; [apply vadd_0|]. intros b Hb. destruct (Z.eqb_spec b i) as [->|]; [contradiction|reflexivity].
    - destruct Hin as [->|Hin]; [congruence|]. rewrite vadd_l0. apply IH; assumption. }
  apply G; [apply NoDup_range|apply in_range; lia].
Qed.
(** The sum over all the nodes reduces to the points of the shape. *)
Lemma pick_nodes sh x N (h : Z -> vec) : (-1 <= Zfloor x <= N - 1)%Z ->
  vsum (fun j => scaled (spline sh (x - IZR j)) (h j)) (map (fun j => j - 2)%Z (range (N + 4))) =
  vsum (fun a => scaled (wt sh x a) (h (pt0 sh x + a)%Z)) (range (npts sh)).
Proof.
  intros HN. rewrite vsum_map.
  assert (Hp : forall a, (0 <= a < npts sh)%Z -> (0 <= pt0 sh x + a + 2 < N + 4)%Z) by (intros a Ha; destruct sh; cbn [npts pt0] in *; lia).
  transitivity (vsum (fun a => vsum (fun j => if (j =? pt0 sh x + a + 2)%Z then scaled (wt sh x a) (h (j - 2)%Z) else (0, 0, 0)) (range (N + 4))) (range (npts sh))).
  - assert (K : forall j, scaled (spline sh (x - IZR (j - 2))) (h (j - 2)%Z) =
       vsum (fun a => if (j =? pt0 sh x + a + 2)%Z then scaled (wt sh x a) (h (j - 2)%Z) else (0, 0, 0)) (range (npts sh))).
    { intros j. destruct (Z_lt_le_dec (j - 2) (pt0 sh x)) as [H|H]; [|destruct (Z_lt_le_dec (j - 2) (pt0 sh x + npts sh)) as [H1|H1]].
      1,3: rewrite spline_0 by lia; rewrite scaled_0; symmetry; apply vsum_zero; intros a Ha; apply in_range in Ha; destruct (Z.eqb_spec j (pt0 sh x + a + 2)); [lia|reflexivity].
      set (a0 := (j - 2 - pt0 sh x)%Z). rewrite (vsum_ext _ (fun a => if (a =? a0)%Z then scaled (wt sh x a) (h (j - 2)%Z) else (0, 0, 0))).
      2:{ intros a _. unfold a0. destruct (Z.eqb_spec j (pt0 sh x + a + 2)), (Z.eqb_spec a (j - 2 - pt0 sh x)); try lia; reflexivity. }
      rewrite (vsum_single (npts sh) a0 (fun a => scaled (wt sh x a) (h (j - 2)%Z))) by (unfold a0; lia).
      rewrite <- spline_wt by (unfold a0; lia). do 4 f_equal. unfold a0. lia. }
    rewrite (vsum_ext _ _ _ (fun j _ => K j)).
    generalize (range (N + 4)) (range (npts sh)). intros l1 l2. induction l1 as [|j l1 IH].
    + rewrite vsum_nil. symmetry. apply vsum_zero. reflexivity.
    + rewrite vsum_cons, IH. rewrite <- vsum_vadd. reflexivity.
  - apply vsum_ext. intros a Ha. apply in_range in Ha.
    rewrite (vsum_single (N + 4) (pt0 sh x + a + 2) (fun j => scaled (wt sh x a) (h (j - 2)%Z)) (Hp a Ha)). do 2 f_equal. lia.
Qed.

(** ** One mode *)
(** What a mode gives at a node, from the arrays. *)
Definition node_mode (g : ggrid) (m : nat) (fld : mfield) (e : C) (v j : Z) : vec :=
  let iz := (v mod gg_Nz g)%Z in
  if (j <? 0)%Z then mode_vector m fld iz (-1 - j) (Copp e) else mode_vector m fld iz (Z.min j (gg_Nr g - 1)) e.
Lemma conj_pow_opp e m : conj_pow (Copp e) m = Cmult (RtoC ((-1) ^ m)) (conj_pow e m).
Proof.
  induction m as [|m IH]; cbn [conj_pow pow]; [ring|]. rewrite IH. destruct e as [a b]. unfold Copp, Re, Im. cbn [fst snd].
  generalize ((-1) ^ m) (conj_pow (a, b) m). intros q [u v]. unfold Cmult, RtoC; cbn [fst snd]. f_equal; ring.
Qed.
Lemma mode_vector_opp m fld iz ir e : mode_vector m fld iz ir (Copp e) =
  cart (Re e) (Im e) (add_mode m (0, 0, 0) (Cmult (RtoC (- (-1) ^ m)) (f_r fld iz ir), Cmult (RtoC (- (-1) ^ m)) (f_t fld iz ir), Cmult (RtoC ((-1) ^ m)) (f_z fld iz ir)) (conj_pow e m)).
Proof.
  unfold mode_vector, add_mode, cart. rewrite conj_pow_opp.
  generalize ((-1) ^ m) (match m with O => 1 | S _ => 2 end) (f_r fld iz ir) (f_t fld iz ir) (f_z fld iz ir) (conj_pow e m).
  intros q w [a1 a2] [b1 b2] [d1 d2] [s t]. destruct e as [e1 e2]. unfold Cmult, Copp, RtoC, Re, Im. cbn [fst snd]. f_equal; [f_equal|]; ring.
Qed.
Lemma mode_vector_cart m fld iz ir e : mode_vector m fld iz ir e =
  cart (Re e) (Im e) (add_mode m (0, 0, 0) (f_r fld iz ir, f_t fld iz ir, f_z fld iz ir) (conj_pow e m)).
Proof. unfold mode_vector, add_mode, cart. unfold Re, Im. f_equal; [f_equal|]; ring. Qed.
Lemma adjust_z_mod N v : (2 <= N)%Z -> (-2 <= v <= N + 1)%Z -> adjust_z N v = (v mod N)%Z.
Proof.
  intros HN Hv. unfold adjust_z. rewrite Z.gtb_ltb. destruct (Z.ltb_spec v 0); [|destruct (Z.ltb_spec (N - 1) v)].
  - rewrite <- (Z.mod_small (v + N) N) by lia. rewrite <- (Z_mod_plus_full v 1 N). f_equal. lia.
  - rewrite <- (Z.mod_small (v - N) N) by lia. rewrite <- (Z_mod_plus_full (v - N) 1 N). f_equal. lia.
  - rewrite Z.mod_small; lia.
Qed.

Section Mode.
Context (g : ggrid) (HNz : (2 <= gg_Nz g)%Z) (HNr : (2 <= gg_Nr g)%Z) (m : nat) (fld : mfield) (e : C).
(** The values that the code multiplies by the weights: sign for j < 0. *)
Definition ext (s : R) (A : Z -> Z -> C) (v j : Z) : C :=
  if (j <? 0)%Z then Cmult (RtoC s) (A (v mod gg_Nz g)%Z (-1 - j)%Z) else A (v mod gg_Nz g)%Z (Z.min j (gg_Nr g - 1)).
Lemma node_ext v j : node_mode g m fld e v j =
  cart (Re e) (Im e) (add_mode m (0, 0, 0) (ext (- (-1) ^ m) (f_r fld) v j, ext (- (-1) ^ m) (f_t fld) v j, ext ((-1) ^ m) (f_z fld) v j) (conj_pow e m)).
Proof. unfold node_mode, ext. destruct (j <? 0)%Z; [apply mode_vector_opp|apply mode_vector_cart]. Qed.
Definition csum_l (l1 l2 : list Z) (sh : shape) (rc zc : R) (h : Z -> Z -> C) : C :=
  fold_right (fun a s => Cplus (fold_right (fun b s => Cplus (Cmult (RtoC (wt sh zc a * wt sh rc b)) (h (pt0 sh zc + a)%Z (pt0 sh rc + b)%Z)) s) (RtoC 0) l2) s) (RtoC 0) l1.
Definition csum (sh : shape) := csum_l (range (npts sh)) (range (npts sh)) sh.
Lemma add_mode_0 ex : add_mode m (0, 0, 0) (RtoC 0, RtoC 0, RtoC 0) ex = (0, 0, 0).
Proof. unfold add_mode. destruct ex as [a b]. unfold Cmult, RtoC; cbn [fst snd]. f_equal; [f_equal|]; ring. Qed.
Lemma add_mode_plus ex a b d a' b' d' : add_mode m (0, 0, 0) (Cplus a a', Cplus b b', Cplus d d') ex =
  vadd (add_mode m (0, 0, 0) (a, b, d) ex) (add_mode m (0, 0, 0) (a', b', d') ex).
Proof. unfold add_mode, vadd. destruct a, b, d, a', b', d', ex. unfold Cmult, Cplus; cbn [fst snd]. f_equal; [f_equal|]; ring. Qed.
Lemma add_mode_scal ex w a b d : add_mode m (0, 0, 0) (Cmult (RtoC w) a, Cmult (RtoC w) b, Cmult (RtoC w) d) ex =
  scaled w (add_mode m (0, 0, 0) (a, b, d) ex).
Proof. unfold add_mode, scaled. destruct a, b, d, ex. unfold Cmult, RtoC; cbn [fst snd]. f_equal; [f_equal|]; ring. Qed.
Lemma cart_scaled a b w v : cart a b (scaled w v) = scaled w (cart a b v).
Proof. destruct v as [[]]. cbn. f_equal. f_equal; ring. Qed.
Lemma cart_0 a b : cart a b (0, 0, 0) = (0, 0, 0).
Proof. cbn. f_equal. f_equal; ring. Qed.
Lemma csum_l_nodes l1 l2 sh rc zc :
  cart (Re e) (Im e) (add_mode m (0, 0, 0) (csum_l l1 l2 sh rc zc (ext (- (-1) ^ m) (f_r fld)), csum_l l1 l2 sh rc zc (ext (- (-1) ^ m) (f_t fld)), csum_l l1 l2 sh rc zc (ext ((-1) ^ m) (f_z fld))) (conj_pow e m)) =
  vsum (fun a => scaled (wt sh zc a) (vsum (fun b => scaled (wt sh rc b) (node_mode g m fld e (pt0 sh zc + a) (pt0 sh rc + b))) l2)) l1.
Proof.
  unfold csum_l. induction l1 as [|a l1 IH].
  - cbn [fold_right vsum]. rewrite add_mode_0, cart_0. reflexivity.
  - cbn [fold_right]. rewrite add_mode_plus, cart_vadd, IH, vsum_cons. f_equal.
    clear IH. induction l2 as [|b l2 IH2].
    + cbn [fold_right vsum]. rewrite add_mode_0, cart_0, scaled_zero. reflexivity.
    + cbn [fold_right]. rewrite add_mode_plus, cart_vadd, IH2, vsum_cons, scaled_vadd. f_equal.
      rewrite add_mode_scal, cart_scaled, <- node_ext, scaled_scaled. reflexivity.
Qed.
Lemma csum_nodes sh rc zc :
  cart (Re e) (Im e) (add_mode m (0, 0, 0) (csum sh rc zc (ext (- (-1) ^ m) (f_r fld)), csum sh rc zc (ext (- (-1) ^ m) (f_t fld)), csum sh rc zc (ext ((-1) ^ m) (f_z fld))) (conj_pow e m)) =
  vsum (fun a => scaled (wt sh zc a) (vsum (fun b => scaled (wt sh rc b) (node_mode g m fld e (pt0 sh zc + a) (pt0 sh rc + b))) (range (npts sh)))) (range (npts sh)).
Proof. apply csum_l_nodes. Qed.

Lemma cubic_form rj z ex F : let rc := gg_invdr g * (rj - gg_rmin g) - 0.5 in let zc := gg_invdz g * (z - gg_zmin g) - 0.5 in
  (-1 <= Zfloor rc <= gg_Nr g - 1)%Z -> (-1 <= Zfloor zc <= gg_Nz g - 1)%Z ->
  cubic_mode g rj z ex m fld F =
  add_mode m F (csum Cubic rc zc (ext (- (-1) ^ m) (f_r fld)), csum Cubic rc zc (ext (- (-1) ^ m) (f_t fld)), csum Cubic rc zc (ext ((-1) ^ m) (f_z fld))) ex.
Proof.
  cbv zeta. intros Hr Hz. unfold cubic_mode, add_cubic_gather_for_mode, csum, csum_l, wt, pt0. cbn [npts].
  set (rc := gg_invdr g * (rj - gg_rmin g) - 0.5) in *. set (zc := gg_invdz g * (z - gg_zmin g) - 0.5) in *.
  set (Sr := cubic_S (rc - IZR (Zfloor rc - 1))). set (Sz := cubic_S (zc - IZR (Zfloor zc - 1))).
  set (kr := Zfloor rc) in *. set (kz := Zfloor zc) in *. clearbody Sr Sz kr kz. clear rc zc.
  assert (X : forall s A a b, (0 <= a <= 3)%Z -> (0 <= b <= 3)%Z -> forall w acc,
     cacc w (ext s A (kz - 1 + a) (kr - 1 + b)) acc = cacc (if (kr - 1 + b <? 0)%Z then w * s else w) (A (adjust_z (gg_Nz g) (kz - 1 + a)) (adjust_r (gg_Nr g) (kr - 1 + b))) acc).
  { intros s A a b Ha Hb w acc. rewrite adjust_z_mod by lia. unfold ext, adjust_r. rewrite Z.gtb_ltb. destruct (Z.ltb_spec (kr - 1 + b) 0).
    - replace (Z.abs (kr - 1 + b) - 1)%Z with (-1 - (kr - 1 + b))%Z by lia. unfold cacc. rewrite RtoC_mult. ring.
    - destruct (Z.ltb_spec (gg_Nr g - 1) (kr - 1 + b)); [rewrite Z.min_r by lia|rewrite Z.min_l by lia]; reflexivity. }
  change (range 4) with [0; 1; 2; 3]%Z. cbn [fold_left fold_right].
  assert (Y : forall s A a b w, (0 <= a <= 3)%Z -> (0 <= b <= 3)%Z -> Cmult (RtoC w) (ext s A (kz - 1 + a) (kr - 1 + b)) =
     Cmult (RtoC (if (kr - 1 + b <? 0)%Z then w * s else w)) (A (adjust_z (gg_Nz g) (kz - 1 + a)) (adjust_r (gg_Nr g) (kr - 1 + b)))).
  { intros s A a b w Ha Hb. pose proof (X s A a b Ha Hb w (RtoC 0)) as Q. unfold cacc in Q. rewrite !Cplus_0_l in Q. exact Q. }
  f_equal. rewrite !Y by lia. unfold cacc.
  set (u0 := (kr - 1 + 0 <? 0)%Z). set (u1 := (kr - 1 + 1 <? 0)%Z). set (u2 := (kr - 1 + 2 <? 0)%Z). set (u3 := (kr - 1 + 3 <? 0)%Z).
  clearbody u0 u1 u2 u3. clear X Y Hr Hz.
  f_equal; [f_equal|]; destruct u0, u1, u2, u3; rewrite ?RtoC_mult; ring.
Qed.
Lemma linear_form rj z ex F : let rc := gg_invdr g * (rj - gg_rmin g) - 0.5 in let zc := gg_invdz g * (z - gg_zmin g) - 0.5 in
  (-1 <= Zfloor rc <= gg_Nr g - 1)%Z -> (-1 <= Zfloor zc <= gg_Nz g - 1)%Z ->
  linear_mode g rj z ex m fld F =
  add_mode m F (csum Linear rc zc (ext (- (-1) ^ m) (f_r fld)), csum Linear rc zc (ext (- (-1) ^ m) (f_t fld)), csum Linear rc zc (ext ((-1) ^ m) (f_z fld))) ex.
Proof.
  cbv zeta. intros Hr Hz. unfold linear_mode, csum, csum_l, wt, pt0. cbn [npts].
  set (rc := gg_invdr g * (rj - gg_rmin g) - 0.5) in *. set (zc := gg_invdz g * (z - gg_zmin g) - 0.5) in *.
  set (kr := Zfloor rc) in *. set (kz := Zfloor zc) in *.
  assert (Az : forall k, (-2 <= k <= gg_Nz g + 1)%Z -> (let k1 := if (k <? 0)%Z then (k + gg_Nz g)%Z else k in if (k1 >? gg_Nz g - 1)%Z then (k1 - gg_Nz g)%Z else k1) = (k mod gg_Nz g)%Z).
  { intros k Hk. rewrite <- adjust_z_mod by lia. cbv zeta. unfold adjust_z. rewrite !Z.gtb_ltb. destruct (Z.ltb_spec k 0).
    - destruct (Z.ltb_spec (gg_Nz g - 1) (k + gg_Nz g)); lia.
    - reflexivity. }
  cbv zeta in Az. rewrite (Az kz), (Az (kz + 1)%Z) by lia. clear Az.
  change (range 2) with [0; 1]%Z. cbn [fold_right Z.eqb]. rewrite !Z.add_0_r.
  set (wl := IZR (kz + 1) - zc). set (wu := zc - IZR kz).
  set (z1 := (kz mod gg_Nz g)%Z). set (z2 := ((kz + 1) mod gg_Nz g)%Z).
  unfold ext. fold z1 z2.
  destruct (Z.ltb_spec kr 0) as [Neg|Pos].
  - assert (kr = -1)%Z by lia. replace (kr + 1)%Z with 0%Z by lia. cbn [Z.ltb Z.compare].
    replace (0 >? gg_Nr g - 1)%Z with false by (rewrite Z.gtb_ltb; symmetry; apply Z.ltb_ge; lia).
    rewrite Z.min_l by lia. replace (-1 - kr)%Z with 0%Z by lia.
    unfold add_linear_gather_for_mode. cbn [Z.eqb andb]. unfold cacc. f_equal.
    f_equal; [f_equal|]; rewrite ?RtoC_mult, ?RtoC_opp; ring.
  - destruct (Z.ltb_spec (kr + 1) 0); [lia|]. rewrite !Z.gtb_ltb.
    destruct (Z.ltb_spec (gg_Nr g - 1) kr); [lia|]. rewrite (Z.min_l kr) by lia.
    assert (Em : (if (gg_Nr g - 1 <? kr + 1)%Z then gg_Nr g - 1 else kr + 1)%Z = Z.min (kr + 1) (gg_Nr g - 1)).
    { destruct (Z.ltb_spec (gg_Nr g - 1) (kr + 1)); lia. }
    rewrite Em. unfold add_linear_gather_for_mode.
    destruct ((kr =? Z.min (kr + 1) (gg_Nr g - 1)) && (Z.min (kr + 1) (gg_Nr g - 1) =? 0))%Z eqn:E0.
    + exfalso. apply andb_prop in E0 as [E1 E2]. apply Z.eqb_eq in E1, E2. lia.
    + unfold cacc. f_equal. f_equal; [f_equal|]; rewrite ?RtoC_mult; ring.
Qed.
End Mode.

Lemma add_mode_acc m F Fm ex : add_mode m F Fm ex = vadd F (add_mode m (0, 0, 0) Fm ex).
Proof. destruct F as [[]], Fm as [[]]. unfold add_mode, vadd. f_equal; [f_equal|]; ring. Qed.
Lemma conj_Cpow e m : Cpow_nat (Re e, - Im e) m = conj_pow e m.
Proof. induction m as [|m IH]; cbn [Cpow_nat conj_pow]; [reflexivity|]. rewrite IH. reflexivity. Qed.

Section Box.
Context (g : ggrid) (dz dr rmax : R) (G : regular g dz dr).
Context (rj z : R) (Hr0 : 0 <= rj) (Hr1 : rj < rmax <= IZR (gg_Nr g) * dr) (Hz : gg_zmin g <= z <= gg_zmin g + IZR (gg_Nz g) * dz).
Lemma mode_interpolated sh m fld e F :
  cart (Re e) (Im e) (shape_mode sh g rj z (conj_pow e m) m fld F) =
  vadd (cart (Re e) (Im e) F)
  (vsum (fun v => vsum (fun j =>
      scaled (spline sh ((z - gg_zmin g) / dz - 1 / 2 - IZR v) * spline sh (rj / dr - 1 / 2 - IZR j)) (node_mode g m fld e v j))
    (map (fun j => j - 2)%Z (range (gg_Nr g + 4)))) (map (fun v => v - 2)%Z (range (gg_Nz g + 4)))).
Proof.
  pose proof (rcell g dz dr rmax G rj Hr0 Hr1) as Rc. pose proof (zcell g dz dr G z Hz) as Zc.
  destruct G as (D1 & D2 & I1 & I2 & R0 & Nz2 & Nr2).
  assert (FR := floor_range _ (gg_Nr g) ltac:(lia) (conj (proj1 Rc) (Rlt_le _ _ (proj2 Rc)))). assert (FZ := floor_range _ (gg_Nz g) ltac:(lia) Zc).
  assert (Er : gg_invdr g * (rj - gg_rmin g) - 0.5 = rj / dr - 1 / 2) by (rewrite I2, R0; replace (1 / dr * (rj - 0)) with (rj / dr) by (field; lra); lra).
  assert (Ez : gg_invdz g * (z - gg_zmin g) - 0.5 = (z - gg_zmin g) / dz - 1 / 2) by (rewrite I1; replace (1 / dz * (z - gg_zmin g)) with ((z - gg_zmin g) / dz) by (field; lra); lra).
  assert (S : shape_mode sh g rj z (conj_pow e m) m fld F =
    let rc := gg_invdr g * (rj - gg_rmin g) - 0.5 in let zc := gg_invdz g * (z - gg_zmin g) - 0.5 in
    add_mode m F (csum sh rc zc (ext g (- (-1) ^ m) (f_r fld)), csum sh rc zc (ext g (- (-1) ^ m) (f_t fld)), csum sh rc zc (ext g ((-1) ^ m) (f_z fld))) (conj_pow e m)).
  { destruct sh; [apply linear_form|apply cubic_form]; assumption. }
  rewrite S. cbv zeta. rewrite add_mode_acc, cart_vadd. f_equal. rewrite csum_nodes. rewrite Er, Ez in *.
  set (rc := rj / dr - 1 / 2) in *. set (zc := (z - gg_zmin g) / dz - 1 / 2) in *.
  rewrite (vsum_ext (fun v => vsum _ (map (fun j => (j - 2)%Z) (range (gg_Nr g + 4)))) (fun v => scaled (spline sh (zc - IZR v))
     (vsum (fun b => scaled (wt sh rc b) (node_mode g m fld e v (pt0 sh rc + b)%Z)) (range (npts sh))))).
  2:{ intros v _. rewrite <- (pick_nodes sh rc (gg_Nr g) (fun j => node_mode g m fld e v j) FR). rewrite <- vsum_scaled. apply vsum_ext.
      intros j _. rewrite scaled_scaled. reflexivity. }
  rewrite (pick_nodes sh zc (gg_Nz g) (fun v => vsum (fun b => scaled (wt sh rc b) (node_mode g m fld e v (pt0 sh rc + b)%Z)) (range (npts sh))) FZ).
  reflexivity.
Qed.

Fixpoint node_from (m : nat) (modes : list mfield) (e : C) (v j : Z) : vec :=
  match modes with [] => (0, 0, 0) | fld :: l => vadd (node_mode g m fld e v j) (node_from (S m) l e v j) end.
Lemma node_from_field modes e v j : node_from 0 modes e v j = node_field g modes e v j.
Proof.
  unfold node_field. generalize 0%nat. induction modes as [|f l IH]; intros n; cbn [node_from grid_field].
  - destruct (j <? 0)%Z; reflexivity.
  - rewrite IH. unfold node_mode. destruct (j <? 0)%Z; reflexivity.
Qed.
Definition interp_from (sh : shape) (m : nat) (modes : list mfield) (e : C) : vec :=
  vsum (fun v => vsum (fun j =>
      scaled (spline sh ((z - gg_zmin g) / dz - 1 / 2 - IZR v) * spline sh (rj / dr - 1 / 2 - IZR j)) (node_from m modes e v j))
    (map (fun j => j - 2)%Z (range (gg_Nr g + 4)))) (map (fun v => v - 2)%Z (range (gg_Nz g + 4))).
Lemma interp_nil sh m e : interp_from sh m [] e = (0, 0, 0).
Proof. unfold interp_from. apply vsum_zero. intros v _. apply vsum_zero. intros j _. apply scaled_zero. Qed.
Lemma interp_cons sh m fld l e : interp_from sh m (fld :: l) e =
  vadd (vsum (fun v => vsum (fun j =>
      scaled (spline sh ((z - gg_zmin g) / dz - 1 / 2 - IZR v) * spline sh (rj / dr - 1 / 2 - IZR j)) (node_mode g m fld e v j))
    (map (fun j => j - 2)%Z (range (gg_Nr g + 4)))) (map (fun v => v - 2)%Z (range (gg_Nz g + 4)))) (interp_from sh (S m) l e).
Proof.
  unfold interp_from. rewrite <- vsum_vadd. apply vsum_ext. intros v _. rewrite <- vsum_vadd. apply vsum_ext. intros j _.
  cbn [node_from]. apply scaled_vadd.
Qed.
Lemma modes_fold sh e l : forall m acc,
  snd (fold_left (fun '(m, acc) fld => (S m, if Rlt_dec rj rmax then vadd acc (cart (Re e) (Im e) (shape_mode sh g rj z (Cpow_nat (Re e, - Im e) m) m fld (0, 0, 0))) else acc)) l (m, acc)) =
  vadd acc (interp_from sh m l e).
Proof.
  induction l as [|fld l IH]; intros m acc.
  - cbn [fold_left snd]. rewrite interp_nil, vadd_0. reflexivity.
  - cbn [fold_left]. rewrite IH, interp_cons. destruct (Rlt_dec rj rmax) as [_|N]; [|exfalso; lra].
    rewrite conj_Cpow, mode_interpolated, cart_0, vadd_l0. rewrite vadd_assoc. reflexivity.
Qed.
End Box.

Lemma gather_formula sh g dz dr rmax modes x y z (e : C) :
  regular g dz dr -> in_box g dz dr rmax x y z ->
  e = (let r := sqrt (x * x + y * y) in if Req_EM_T r 0 then RtoC 1 else (x / r, y / r)) ->
  gather_field sh g rmax modes x y z = interpolated sh g dz dr modes (sqrt (x * x + y * y)) z e.
Proof.
  intros G [Z0 R1] He. cbv zeta in He. unfold gather_field, cylindrical.
  replace (x ^ 2 + y ^ 2) with (x * x + y * y) in * by ring. set (r := sqrt (x * x + y * y)) in *.
  assert (R0 : 0 <= r) by apply sqrt_pos.
  assert (Ee : exists co si, (if Req_EM_T r 0 then (r, 1, 0) else (r, x * (1 / r), y * (1 / r))) = (r, co, si) /\ e = (co, si)).
  { destruct (Req_EM_T r 0) as [E|E]; [exists 1, 0; split; [reflexivity|exact He]|].
    exists (x * (1 / r)), (y * (1 / r)). split; [reflexivity|]. rewrite He. f_equal; field; exact E. }
  destruct Ee as (co & si & E1 & E2). cbv zeta. rewrite E1. clear He E1. subst e.
  assert (K := modes_fold g dz dr rmax G r z R0 R1 Z0 sh (co, si)). unfold Re, Im in K. cbn [fst snd] in K.
  assert (KI : interp_from g dz dr r z sh 0 modes (co, si) = interpolated sh g dz dr modes r z (co, si)).
  { unfold interp_from, interpolated. apply vsum_ext. intros v _. apply vsum_ext. intros j _. rewrite node_from_field. reflexivity. }
  rewrite <- KI.
  destruct modes as [|m0 [|m1 [|m2 rest]]].
  - rewrite interp_nil. reflexivity.
  - rewrite K, vadd_l0. reflexivity.
  - destruct (Rlt_dec r rmax) as [_|N]; [|exfalso; lra].
    rewrite !interp_cons, interp_nil, vadd_0.
    pose proof (mode_interpolated g dz dr rmax G r z R0 R1 Z0 sh 1 m1 (co, si)) as M1. pose proof (mode_interpolated g dz dr rmax G r z R0 R1 Z0 sh 0 m0 (co, si)) as M0.
    unfold Re, Im in M1, M0. cbn [fst snd conj_pow] in M1, M0.
    assert (Ex : Cmult (Re (co, si), - Im (co, si)) (RtoC 1) = (co, - si)) by (rewrite Cmult_1_r; reflexivity).
    rewrite Ex in M1. rewrite M1, M0, cart_0, vadd_l0. reflexivity.
  - rewrite K, vadd_l0. reflexivity.
Qed.
