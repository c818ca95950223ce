From Coq Require Import ZArith List Bool Lia Reals Lra.
From Flocq Require Import Core Binary Bits.
From Verif Require Import Base Cupy_Model Cupy_Spec.
Import ListNotations.
Open Scope Z_scope.

Lemma take_ints_map l : forall r, take_ints (length l) (map WInt l ++ r) = Some (l, r).
Proof. induction l as [|z l IH]; intros r; cbn [length take_ints map app]; [reflexivity|]. rewrite IH. reflexivity. Qed.

(** two lists of arguments with the same list of types have the same form *)
Definition same_kind (a b : arg) : Prop :=
  match a, b with
  | Arr x, Arr y => a_dtype x = a_dtype y /\ length (a_shape x) = length (a_shape y)
  | Sca s, Sca t => scalar_dtype s = scalar_dtype t
  | _, _ => False end.
Lemma types_no_TN args n l : types_of args <> TN n :: l.
Proof. destruct args as [|[x|s] args]; cbn; discriminate. Qed.
Lemma types_kinds : forall a b, types_of a = types_of b -> Forall2 same_kind a b.
Proof.
  induction a as [|x a IH]; intros b H.
  - destruct b as [|[y|t] b]; [constructor| |]; cbn in H; discriminate.
  - destruct b as [|y b]; [destruct x; cbn in H; discriminate|].
    destruct x as [x|s], y as [y|t]; unfold types_of in H; cbn [flat_map arg_types app] in H.
    + injection H as H1 H2 H3. constructor; [split; assumption|apply IH; exact H3].
    + injection H as H1 H2. exfalso. symmetry in H2. exact (types_no_TN _ _ _ H2).
    + injection H as H1 H2. exfalso. exact (types_no_TN _ _ _ H2).
    + injection H as H1 H2. constructor; [exact H1|apply IH; exact H2].
Qed.

(** what the compiled code receives *)
Definition recv1 (comp given : arg) : darg :=
  match comp, given with
  | Arr x, Arr y => DArr (a_dtype x) (layout_of x) (a_base y) (a_shape y) (a_strides y)
  | _, Sca s => DSca (scalar_dtype s) (scalar_bits s)
  | _, _ => DSca F64 0 end.
Lemma receive_ok comp given : Forall2 same_kind comp given -> Forall proper given ->
  receive (map numba_typeof comp) (kernel_args given) = Some (map (fun '(c, g) => recv1 c g) (combine comp given)).
Proof.
  induction 1 as [|c g comp given Hk Hrest IH]; intros Hp; [reflexivity|].
  inversion Hp as [|? ? Hg Hps]; subst.
  destruct c as [x|s], g as [y|t]; cbn [same_kind] in Hk; try contradiction.
  - destruct Hk as [Hd Hl]. destruct Hg as [Hs _].
    unfold kernel_args. cbn [flat_map map numba_typeof arg_words combine]. rewrite <- !app_assoc.
    cbn [app receive]. rewrite Hl, take_ints_map. rewrite <- Hs, take_ints_map.
    fold (kernel_args given). rewrite IH by assumption. reflexivity.
  - unfold kernel_args. cbn [flat_map map numba_typeof arg_words combine app receive].
    rewrite Hk, Z.eqb_refl. fold (kernel_args given). rewrite IH by assumption. cbn [recv1]. reflexivity.
Qed.

(** addresses *)
Lemma dot_eq : forall strides idx, dot strides idx = fold_right Z.add 0 (map (fun '(s, i) => s * i) (combine strides idx)).
Proof. induction strides as [|x st IH]; intros [|i ix]; cbn; try reflexivity. rewrite IH. reflexivity. Qed.
Lemma row_addr isz : forall shape strides idx, matches shape strides (row_strides isz shape) = true ->
  in_shape shape idx -> dot strides idx = isz * row_index shape idx.
Proof.
  induction shape as [|s sh IH]; intros strides idx Hm Hi; inversion Hi as [|? i ? ix Hs Hix]; subst.
  - destruct strides; cbn in *; [lia|discriminate].
  - destruct strides as [|x st]; [discriminate|]. cbn [row_strides matches] in Hm.
    apply andb_true_iff in Hm as [H1 H2]. cbn [dot row_index]. rewrite (IH st ix H2 Hix).
    apply orb_true_iff in H1 as [H1|H1]; apply Z.eqb_eq in H1.
    + assert (i = 0) by lia. subst i. lia.
    + subst x. ring.
Qed.
Lemma col_addr isz : forall shape acc strides idx, matches shape strides (col_strides (isz * acc) shape) = true ->
  in_shape shape idx -> dot strides idx = isz * acc * col_index shape idx.
Proof.
  induction shape as [|s sh IH]; intros acc strides idx Hm Hi; inversion Hi as [|? i ? ix Hs Hix]; subst.
  - destruct strides; cbn in *; [lia|discriminate].
  - destruct strides as [|x st]; [discriminate|]. cbn [col_strides matches] in Hm.
    apply andb_true_iff in Hm as [H1 H2]. cbn [dot col_index].
    rewrite <- Z.mul_assoc in H2. rewrite (IH (acc * s) st ix H2 Hix).
    apply orb_true_iff in H1 as [H1|H1]; apply Z.eqb_eq in H1.
    + assert (i = 0) by lia. subst i. ring.
    + subst x. ring.
Qed.
Lemma layout_addr x idx : in_shape (a_shape x) idx ->
  device_address (a_dtype x) (layout_of x) (a_base x) (a_shape x) (a_strides x) idx = element_address x idx.
Proof.
  intros Hi. unfold layout_of, element_address. rewrite <- dot_eq.
  destruct (matches (a_shape x) (a_strides x) (row_strides (itemsize (a_dtype x)) (a_shape x))) eqn:E1.
  - cbn [device_address]. rewrite (row_addr _ _ _ _ E1 Hi). reflexivity.
  - destruct (matches (a_shape x) (a_strides x) (col_strides (itemsize (a_dtype x)) (a_shape x))) eqn:E2.
    + cbn [device_address]. replace (itemsize (a_dtype x)) with (itemsize (a_dtype x) * 1) in E2 by ring.
      rewrite (col_addr _ _ 1 _ _ E2 Hi). ring.
    + reflexivity.
Qed.
Lemma any_addr x idx :
  device_address (a_dtype x) LA (a_base x) (a_shape x) (a_strides x) idx = element_address x idx.
Proof. cbn [device_address]. unfold element_address. rewrite dot_eq. reflexivity. Qed.

Lemma same_number_model s : same_number s (scalar_dtype s) (scalar_bits s).
Proof.
  destruct s as [z| |b| |]; cbn [same_number scalar_dtype scalar_bits]; repeat split; try reflexivity.
  - apply Z.mod_pos_bound. reflexivity.
  - apply Z.mod_pos_bound. reflexivity.
  - exists (z / 2 ^ 64). pose proof (Z.div_mod z (2 ^ 64) ltac:(discriminate)). lia.
Qed.
Lemma recv_sees comp given : same_kind comp given ->
  layouts [comp] = layouts [given] -> sees given (recv1 comp given).
Proof.
  destruct comp as [x|s], given as [y|t]; cbn [same_kind recv1 sees layouts map]; intros Hk Hl; try contradiction.
  - destruct Hk as [Hd Hn]. injection Hl as Hl. rewrite Hd, Hl. split; [reflexivity|]. split; [reflexivity|].
    intros idx Hi. apply layout_addr, Hi.
  - apply same_number_model.
Qed.
Lemma launch_sees comp given : types_of comp = types_of given -> Forall proper given ->
  layouts comp = layouts given -> sees_all given (map numba_typeof comp, kernel_args given).
Proof.
  intros Ht Hp Hl. apply types_kinds in Ht. eexists. split; [apply (receive_ok _ _ Ht Hp)|].
  clear Hp. induction Ht as [|c g comp given Hk Hrest IH]; [constructor|].
  cbn [layouts map] in Hl. injection Hl as H1 H2. cbn [combine map]. constructor.
  - apply recv_sees; [exact Hk|]. cbn [layouts map]. rewrite H1. reflexivity.
  - apply IH. exact H2.
Qed.

Section Calls.
Variable hash : list tentry -> Z.
Notation call := (call_kernel hash).

(** every kernel in the dictionary was compiled for the first call with its types *)
Definition dict_ok (done : list (list arg)) (f : cupy_fn) : Prop :=
  specialized f = None /\
  (forall h k, kernel_dict f h = Some k -> exists c, In c done /\ hash (types_of c) = h /\ k = map numba_typeof c) /\
  (forall c, In c done -> kernel_dict f (hash (types_of c)) <> None).
Lemma dict_step done f args : dict_ok done f -> dict_ok (done ++ [args]) (fst (call f args)).
Proof.
  intros (H1 & H2 & H3). unfold call_kernel. rewrite H1.
  destruct (kernel_dict f (hash (types_of args))) as [k|] eqn:E; cbn [fst].
  - split; [exact H1|]. split.
    + intros h k' Hk. destruct (H2 h k' Hk) as (c & Hc & Hr). exists c. split; [apply in_or_app; left; exact Hc|exact Hr].
    + intros c Hc. apply in_app_or in Hc as [Hc|[<-|[]]]; [apply H3, Hc|rewrite E; discriminate].
  - split; [reflexivity|]. cbn [kernel_dict]. split.
    + intros h k. destruct (h =? hash (types_of args)) eqn:Eh.
      * intros Hk. injection Hk as <-. apply Z.eqb_eq in Eh. exists args.
        split; [apply in_or_app; right; left; reflexivity|]. split; [symmetry; exact Eh|reflexivity].
      * intros Hk. destruct (H2 h k Hk) as (c & Hc & Hr). exists c. split; [apply in_or_app; left; exact Hc|exact Hr].
    + intros c Hc. apply in_app_or in Hc as [Hc|[<-|[]]].
      * destruct (hash (types_of c) =? hash (types_of args)); [discriminate|]. apply H3, Hc.
      * rewrite Z.eqb_refl. discriminate.
Qed.
Lemma dict_after calls : forall done f, dict_ok done f -> dict_ok (done ++ calls) (after hash f calls).
Proof.
  induction calls as [|a calls IH]; intros done f H.
  - rewrite app_nil_r. exact H.
  - replace (done ++ a :: calls) with ((done ++ [a]) ++ calls) by (rewrite <- app_assoc; reflexivity).
    unfold after. cbn [fold_left]. apply IH, dict_step, H.
Qed.
Lemma dict_new calls : dict_ok calls (after hash new_fn calls).
Proof.
  apply (dict_after calls [] new_fn). split; [reflexivity|]. split.
  - intros h k H. discriminate H.
  - intros c [].
Qed.

(** the kernel that a call launches was compiled for this call or an earlier one with the same types *)
Lemma launched calls args : no_collision hash (calls ++ [args]) ->
  exists c, (c = args \/ In c calls) /\ types_of c = types_of args /\
    snd (call (after hash new_fn calls) args) = (map numba_typeof c, kernel_args args).
Proof.
  intros Hc. destruct (dict_new calls) as (H1 & H2 & H3). unfold call_kernel. rewrite H1.
  destruct (kernel_dict _ _) as [k|] eqn:E; cbn [snd].
  - destruct (H2 _ _ E) as (c & Hin & Hh & ->). exists c. split; [right; exact Hin|]. split; [|reflexivity].
    apply Hc; [apply in_or_app; left; exact Hin|apply in_or_app; right; left; reflexivity|exact Hh].
  - exists args. split; [left; reflexivity|]. split; reflexivity.
Qed.
Lemma call_sees calls args : no_collision hash (calls ++ [args]) -> Forall proper args ->
  (forall c, In c calls -> types_of c = types_of args -> layouts c = layouts args) ->
  sees_all args (snd (call (after hash new_fn calls) args)).
Proof.
  intros Hc Hp Hl. destruct (launched calls args Hc) as (c & Hin & Ht & ->).
  apply launch_sees; [exact Ht|exact Hp|]. destruct Hin as [->|Hin]; [reflexivity|]. apply Hl; assumption.
Qed.
Lemma contiguous_rows isz : forall sh, map (fun d => isz * fold_right Z.mul 1 (skipn (S d) sh)) (seq 0 (length sh)) = row_strides isz sh.
Proof.
  induction sh as [|s sh IH]; [reflexivity|]. cbn [length seq map row_strides]. f_equal.
  rewrite <- seq_shift, map_map. exact IH.
Qed.
Lemma contiguous_layouts : forall a b, types_of a = types_of b -> Forall c_contiguous a -> Forall c_contiguous b ->
  layouts a = layouts b.
Proof.
  intros a b Ht. apply types_kinds in Ht.
  assert (M : forall sh isz, matches sh (row_strides isz sh) (row_strides isz sh) = true).
  { induction sh as [|s sh IH]; intros isz; [reflexivity|]. cbn [row_strides matches]. rewrite IH, Z.eqb_refl.
    rewrite orb_true_r. reflexivity. }
  assert (L : forall x, c_contiguous (Arr x) -> layout_of x = LC).
  { intros x Hx. unfold layout_of. cbn [c_contiguous] in Hx.
    assert (E : bytes (a_dtype x) = itemsize (a_dtype x)) by (destruct (a_dtype x); reflexivity).
    rewrite E in Hx. clear E. rewrite contiguous_rows in Hx. rewrite Hx, M. reflexivity. }
  induction Ht as [|c g comp given Hk Hrest IH]; intros Ha Hb; [reflexivity|].
  inversion Ha; inversion Hb; subst. cbn [layouts map].
  unfold layouts in IH. rewrite IH by assumption. f_equal.
  destruct c as [x|s], g as [y|t]; cbn [same_kind] in Hk; try contradiction; [|reflexivity].
  rewrite !L by assumption. reflexivity.
Qed.
Lemma contiguous_sees calls args : no_collision hash (calls ++ [args]) -> Forall proper args ->
  Forall (Forall c_contiguous) calls -> Forall c_contiguous args ->
  sees_all args (snd (call (after hash new_fn calls) args)).
Proof.
  intros Hc Hp Hl Ha. apply call_sees; [exact Hc|exact Hp|]. intros c Hin Ht.
  apply contiguous_layouts; [exact Ht| |exact Ha]. rewrite Forall_forall in Hl. apply Hl, Hin.
Qed.
(** no second compilation *)
Lemma no_recompile calls args : In args calls ->
  fst (call (after hash new_fn calls) args) = after hash new_fn calls.
Proof.
  intros Hin. destruct (dict_new calls) as (H1 & _ & H3). unfold call_kernel. rewrite H1.
  destruct (kernel_dict _ _) eqn:E; [reflexivity|]. exfalso. exact (H3 args Hin E).
Qed.
End Calls.

(** external fields *)
Lemma ext_receive hash field x y z t a l :
  f64_1d field -> f64_1d x -> f64_1d y -> f64_1d z ->
  itemsize (scalar_dtype t) = 8 -> itemsize (scalar_dtype a) = 8 -> itemsize (scalar_dtype l) = 8 ->
  let v x := DArr F64 LA (a_base x) (a_shape x) (a_strides x) in
  receive (fst (external_field_launch hash field x y z t a l)) (snd (external_field_launch hash field x y z t a l))
  = Some [v field; v x; v y; v z; DSca F64 (scalar_bits t); DSca F64 (scalar_bits a); DSca F64 (scalar_bits l)].
Proof.
  intros (F1 & F2 & F3) (X1 & X2 & X3) (Y1 & Y2 & Y3) (Z1 & Z2 & Z3) Ht Ha Hl v.
  destruct field as [d1 b1 s1 r1], x as [d2 b2 s2 r2], y as [d3 b3 s3 r3], z as [d4 b4 s4 r4].
  cbn [a_dtype a_shape a_strides] in *. subst d1 d2 d3 d4.
  destruct s1 as [|s1 [|]]; try discriminate. destruct r1 as [|r1 [|]]; try discriminate.
  destruct s2 as [|s2 [|]]; try discriminate. destruct r2 as [|r2 [|]]; try discriminate.
  destruct s3 as [|s3 [|]]; try discriminate. destruct r3 as [|r3 [|]]; try discriminate.
  destruct s4 as [|s4 [|]]; try discriminate. destruct r4 as [|r4 [|]]; try discriminate.
  unfold external_field_launch, call_kernel. cbn [specialize specialized snd fst].
  unfold external_field_signature, kernel_args. cbn [flat_map arg_words app map a_shape a_strides a_base a_dtype].
  cbn [receive take_ints itemsize].
  rewrite Ht, Ha, Hl. reflexivity.
Qed.
Lemma f64_sees x : f64_1d x -> sees (Arr x) (DArr F64 LA (a_base x) (a_shape x) (a_strides x)).
Proof.
  intros (H & _). cbn [sees]. split; [symmetry; exact H|]. split; [reflexivity|]. intros idx _.
  rewrite <- H. apply any_addr.
Qed.
Lemma ext_floats hash field x y z t a l :
  f64_1d field -> f64_1d x -> f64_1d y -> f64_1d z ->
  scalar_dtype t = F64 -> scalar_dtype a = F64 -> scalar_dtype l = F64 ->
  sees_all [Arr field; Arr x; Arr y; Arr z; Sca t; Sca a; Sca l] (external_field_launch hash field x y z t a l).
Proof.
  intros HF HX HY HZ Ht Ha Hl. eexists. split.
  - apply ext_receive; try assumption; [rewrite Ht|rewrite Ha|rewrite Hl]; reflexivity.
  - repeat (apply Forall2_cons; [first [apply f64_sees; assumption | cbn [sees]; match goal with H : scalar_dtype ?t = F64 |- same_number ?t _ _ => rewrite <- H; apply same_number_model end]|]).
    apply Forall2_nil.
Qed.
Lemma small_bits n : 0 < n < 2 ^ 52 -> B2R 53 1024 (b64_of_bits n) = (IZR n * bpow radix2 (-1074))%R.
Proof.
  intros Hn. unfold b64_of_bits, binary_float_of_bits. rewrite B2R_FF2B.
  unfold binary_float_of_bits_aux, split_bits.
  rewrite (Z.mod_small n (2 ^ 52)) by lia. rewrite (Z.div_small n (2 ^ 52)) by lia.
  rewrite Z.mod_0_l by discriminate. change (Zeq_bool 0 0) with true. cbv iota.
  replace (2 ^ 52 * 2 ^ 11 <=? n) with false by (symmetry; apply Z.leb_gt; lia).
  destruct n as [|p|p]; [lia| |lia]. reflexivity.
Qed.
Lemma ext_int hash field x y z t l n :
  f64_1d field -> f64_1d x -> f64_1d y -> f64_1d z -> scalar_dtype t = F64 -> scalar_dtype l = F64 ->
  0 < n < 2 ^ 52 ->
  exists seen bits,
    receive (fst (external_field_launch hash field x y z t (PyInt n) l))
            (snd (external_field_launch hash field x y z t (PyInt n) l)) = Some seen /\
    nth_error seen 5 = Some (DSca F64 bits) /\
    B2R 53 1024 (b64_of_bits bits) = (IZR n * bpow radix2 (-1074))%R /\
    B2R 53 1024 (b64_of_bits bits) <> IZR n.
Proof.
  intros HF HX HY HZ Ht Hl Hn. eexists. exists n. split.
  - apply ext_receive; try assumption; [rewrite Ht|cbn|rewrite Hl]; reflexivity.
  - split; [cbn [nth_error scalar_bits]; rewrite Z.mod_small by lia; reflexivity|].
    rewrite (small_bits n Hn). split; [reflexivity|]. intros E.
    assert (H1 : (0 < IZR n)%R) by (apply IZR_lt; lia).
    assert (H2 : (bpow radix2 (-1074) < 1)%R) by (change 1%R with (bpow radix2 0); apply bpow_lt; lia).
    nra.
Qed.
(** a kernel compiled for a contiguous array, called with every second element of an array *)
Definition contiguous_call : list arg := [Arr (mkArr F64 0 [4] [8])].
Definition strided_call : list arg := [Arr (mkArr F64 0 [2] [16])].
Lemma layout_wrong hash :
  no_collision hash ([contiguous_call] ++ [strided_call]) /\ Forall proper strided_call /\
  ~ sees_all strided_call (snd (call_kernel hash (after hash new_fn [contiguous_call]) strided_call)).
Proof.
  split; [|split].
  - intros a b Ha Hb _. cbn in Ha, Hb. destruct Ha as [<-|[<-|[]]], Hb as [<-|[<-|[]]]; reflexivity.
  - repeat constructor; lia.
  - unfold after. cbn [fold_left]. unfold call_kernel at 2. cbn [new_fn specialized kernel_dict fst].
    unfold call_kernel. cbn [specialized kernel_dict].
    change (types_of strided_call) with (types_of contiguous_call). rewrite Z.eqb_refl. cbn [snd].
    intros (seen & E & H). cbn in E. injection E as <-. inversion H as [|? ? ? ? H1 _]; subst. cbn [sees] in H1.
    destruct H1 as (_ & _ & H1). specialize (H1 [1]). cbn in H1.
    assert (X : in_shape [2] [1]) by (repeat constructor; lia). apply H1 in X. discriminate X.
Qed.
