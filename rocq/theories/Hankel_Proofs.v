From Verif Require Import Base Fourier_Lib Deposit_Model Deposit_Spec Deposit_Proofs Inject_Proofs Hankel_Model Hankel_Spec.
From Coq Require Import Reals Lra Lia.
From Coquelicot Require Import Complex.
Open Scope Z_scope.

Lemma copy_copy Nz a iz ir : 0 <= iz < Nz -> copy_2dR_to_2dC Nz (copy_2dC_to_2dR Nz a) iz ir = a iz ir.
Proof.
  intros H. unfold copy_2dR_to_2dC, copy_2dC_to_2dR. destruct (Z.ltb_spec iz Nz); [|lia]. destruct (Z.ltb_spec (iz + Nz) Nz); [lia|].
  replace (iz + Nz - Nz) with iz by lia. destruct (a iz ir) as [x y]. unfold Cplus, Cmult, Ci, RtoC, Re, Im; cbn [fst snd]. f_equal; ring.
Qed.

Lemma lsum_parts {A} (f g : A -> R) l : lsum (fun a => (f a, g a)) l = (rsum f l, rsum g l).
Proof. induction l as [|a l IH]; [reflexivity|]. rewrite lsum_cons, IH. reflexivity. Qed.

Lemma dht_sum Nz Nr M F iz ir : 0 <= iz < Nz -> dht Nz Nr M F iz ir = lsum (fun j => Cmult (F iz j) (RtoC (M j ir))) (range Nr).
Proof.
  intros H. unfold dht, copy_2dR_to_2dC, np_dot, copy_2dC_to_2dR.
  destruct (Z.ltb_spec iz Nz); [|lia]. destruct (Z.ltb_spec (iz + Nz) Nz); [lia|]. replace (iz + Nz - Nz) with iz by lia.
  rewrite (lsum_ext _ (fun j => ((Re (F iz j) * M j ir)%R, (Im (F iz j) * M j ir)%R))).
  - rewrite lsum_parts. unfold Cplus, Cmult, Ci, RtoC; cbn [fst snd]. f_equal; ring.
  - intros j _. destruct (F iz j) as [x y]. unfold Cmult, RtoC, Re, Im; cbn [fst snd]. f_equal; ring.
Qed.

(** ** The in-place loops *)
Definition distinct_arrays (r t p m : Z) := r <> t /\ p <> m /\ (p = r /\ m = t \/ p <> r /\ p <> t /\ m <> r /\ m <> t).
Lemma store_same mem b iz ir v : store mem b iz ir v b iz ir = v.
Proof. unfold store. rewrite !Z.eqb_refl. reflexivity. Qed.
Lemma store_other mem b iz ir v b' i j : b' <> b \/ i <> iz \/ j <> ir -> store mem b iz ir v b' i j = mem b' i j.
Proof. unfold store. intros H. destruct (Z.eqb_spec b' b), (Z.eqb_spec i iz), (Z.eqb_spec j ir); cbn [andb]; try reflexivity. lia. Qed.

(** A loop that writes two arrays cell by cell, from the two values read in the same cell. *)
Definition cell2 (f1 f2 : C -> C -> C) (a b x y : Z) (mem : memory) (ij : Z * Z) : memory :=
  let '(iz, ir) := ij in
  store (store mem x iz ir (f1 (mem a iz ir) (mem b iz ir))) y iz ir (f2 (mem a iz ir) (mem b iz ir)).
Lemma loop2 f1 f2 a b x y cells : NoDup cells -> distinct_arrays a b x y ->
  forall mem i j, let mem' := fold_left (cell2 f1 f2 a b x y) cells mem in
  (In (i, j) cells -> mem' x i j = f1 (mem a i j) (mem b i j) /\ mem' y i j = f2 (mem a i j) (mem b i j)) /\
  (~ In (i, j) cells -> forall k, mem' k i j = mem k i j).
Proof.
  intros ND (Hab & Hxy & HH). induction ND as [|[i0 j0] cells NI ND IH]; intros mem i j; cbn [fold_left]; cbv zeta.
  - split; [intros []|reflexivity].
  - destruct (IH (cell2 f1 f2 a b x y mem (i0, j0)) i j) as [I1 I2]. cbv zeta in *. split.
    + intros [E|Hin].
      * injection E as -> ->. split; rewrite (I2 NI); unfold cell2; [|apply store_same].
        rewrite store_other by auto. apply store_same.
      * destruct (I1 Hin) as [-> ->]. assert (D : i <> i0 \/ j <> j0).
        { destruct (Z.eq_dec i i0), (Z.eq_dec j j0); auto. subst; tauto. }
        unfold cell2. rewrite !store_other by tauto. auto.
    + intros N k. cbn [In] in N. rewrite I2 by tauto. unfold cell2.
      assert (D : i <> i0 \/ j <> j0). { destruct (Z.eq_dec i i0), (Z.eq_dec j j0); auto. subst; tauto. }
      rewrite !store_other by tauto. reflexivity.
Qed.

Definition to_p (r t : C) : C := Cmult (RtoC 0.5) (Cminus r (Cmult Ci t)).
Definition to_m (r t : C) : C := Cmult (RtoC 0.5) (Cplus r (Cmult Ci t)).
Definition to_r (p m : C) : C := Cplus p m.
Definition to_t (p m : C) : C := Cmult Ci (Cminus p m).
Lemma rt_to_pm_loop r t p m cells mem : rt_to_pm r t p m cells mem = fold_left (cell2 to_p to_m r t p m) cells mem.
Proof. reflexivity. Qed.
Lemma pm_to_rt_loop p m r t cells mem : pm_to_rt p m r t cells mem = fold_left (cell2 to_r to_t p m r t) cells mem.
Proof. reflexivity. Qed.

Lemma pair_eq (x y x' y' : R) : x = x' -> y = y' -> (x, y) = (x', y').
Proof. intros -> ->. reflexivity. Qed.
Lemma half_R : 0.5%R = (1 / 2)%R. Proof. lra. Qed.
Ltac cbrute := rewrite ?half_R; apply injective_projections; simpl; field.
Lemma rt_pm_rt r t : to_r (to_p r t) (to_m r t) = r /\ to_t (to_p r t) (to_m r t) = t.
Proof. destruct r, t. unfold to_r, to_t, to_p, to_m. split; cbrute. Qed.
Lemma pm_rt_pm p m : to_p (to_r p m) (to_t p m) = p /\ to_m (to_r p m) (to_t p m) = m.
Proof. destruct p, m. unfold to_r, to_t, to_p, to_m. split; cbrute. Qed.

Lemma Cmod2 (z : C) : (Cmod z ^ 2 = Re z ^ 2 + Im z ^ 2)%R.
Proof. unfold Cmod. rewrite pow2_sqrt; [reflexivity|]. destruct z as [x y]; cbn [fst snd]. nra. Qed.
Lemma pm_norm r t : (2 * (Cmod (to_p r t) ^ 2 + Cmod (to_m r t) ^ 2) = Cmod r ^ 2 + Cmod t ^ 2)%R.
Proof. rewrite !Cmod2. destruct r, t. unfold to_p, to_m; rewrite half_R; simpl; field. Qed.

(** ** Round trips *)
Lemma lsum_csum n (f : Z -> C) : lsum f (range (Z.of_nat n)) = csum n (fun k => f (Z.of_nat k)).
Proof.
  induction n as [|n IH]; [reflexivity|]. rewrite Nat2Z.inj_succ. unfold Z.succ. rewrite range_succ by lia.
  rewrite lsum_app, lsum_cons, lsum_nil, IH. cbn [csum]. ring.
Qed.
Lemma IZR_nat n : IZR (Z.of_nat n) = INR n. Proof. symmetry. apply INR_IZR_INZ. Qed.

Lemma fft_dft n F k ir : fft (Z.of_nat n) F (Z.of_nat k) ir = dft n (fun j => F (Z.of_nat j) ir) k.
Proof.
  unfold fft, dft. rewrite lsum_csum. apply csum_ext. intros j _. rewrite mult_IZR, !IZR_nat.
  rewrite Cmult_comm. f_equal. f_equal. unfold Rdiv. ring.
Qed.
Lemma ifft_idft n F k ir : (0 < n)%nat -> ifft (Z.of_nat n) F (Z.of_nat k) ir = idft n (fun j => F (Z.of_nat j) ir) k.
Proof.
  intros Hn. unfold ifft, idft. rewrite lsum_csum, IZR_nat. unfold Cdiv. rewrite Cmult_comm. f_equal.
  - apply csum_ext. intros j _. rewrite mult_IZR, !IZR_nat. rewrite Cmult_comm. f_equal. f_equal. unfold Rdiv. ring.
  - apply lt_0_INR in Hn. rewrite RtoC_div by lra. unfold Cdiv. ring.
Qed.
Lemma fft_ext Nz F G iz ir : (forall j, 0 <= j < Nz -> F j ir = G j ir) -> fft Nz F iz ir = fft Nz G iz ir.
Proof. intros H. unfold fft. apply lsum_ext. intros j Hj. apply in_range in Hj. rewrite H; auto. Qed.
Lemma ifft_ext Nz F G iz ir : (forall j, 0 <= j < Nz -> F j ir = G j ir) -> ifft Nz F iz ir = ifft Nz G iz ir.
Proof. intros H. unfold ifft. f_equal. apply lsum_ext. intros j Hj. apply in_range in Hj. rewrite H; auto. Qed.
Lemma csum_ext_dft n f g k : (forall j, (j < n)%nat -> f j = g j) -> dft n f k = dft n g k.
Proof. intros H. unfold dft. apply csum_ext. intros j Hj. rewrite H; auto. Qed.
Lemma csum_ext_idft n f g k : (forall j, (j < n)%nat -> f j = g j) -> idft n f k = idft n g k.
Proof. intros H. unfold idft. f_equal. apply csum_ext. intros j Hj. rewrite H; auto. Qed.
Lemma fft_ifft Nz G iz ir : 0 <= iz < Nz -> fft Nz (ifft Nz G) iz ir = G iz ir.
Proof.
  intros H. rewrite <- (Z2Nat.id Nz), <- (Z2Nat.id iz) by lia. set (n := Z.to_nat Nz). set (k := Z.to_nat iz).
  assert (Hk : (k < n)%nat) by (unfold k, n; lia). rewrite fft_dft.
  rewrite (csum_ext_dft n _ (idft n (fun j => G (Z.of_nat j) ir))); [apply (dft_idft n (fun j => G (Z.of_nat j) ir)); auto|].
  intros j Hj. apply ifft_idft. lia.
Qed.
Lemma ifft_fft Nz G iz ir : 0 <= iz < Nz -> ifft Nz (fft Nz G) iz ir = G iz ir.
Proof.
  intros H. rewrite <- (Z2Nat.id Nz), <- (Z2Nat.id iz) by lia. set (n := Z.to_nat Nz). set (k := Z.to_nat iz).
  assert (Hk : (k < n)%nat) by (unfold k, n; lia). rewrite ifft_idft by lia.
  rewrite (csum_ext_idft n _ (dft n (fun j => G (Z.of_nat j) ir))); [apply (idft_dft n (fun j => G (Z.of_nat j) ir)); auto|].
  intros j Hj. apply fft_dft.
Qed.
Lemma dht_ext Nz Nr M F G iz ir : 0 <= iz < Nz -> (forall j, 0 <= j < Nr -> F iz j = G iz j) -> dht Nz Nr M F iz ir = dht Nz Nr M G iz ir.
Proof. intros H E. rewrite !dht_sum by auto. apply lsum_ext. intros j Hj. apply in_range in Hj. rewrite E; auto. Qed.

(** Product of two Hankel transforms. *)
Lemma dht_dht Nz Nr M M' F iz ir : 0 <= iz < Nz ->
  dht Nz Nr M' (dht Nz Nr M F) iz ir =
  lsum (fun i => Cmult (F iz i) (RtoC (rsum (fun j => (M i j * M' j ir)%R) (range Nr)))) (range Nr).
Proof.
  intros H. rewrite dht_sum by auto.
  rewrite (lsum_ext _ (fun j => lsum (fun i => Cmult (F iz i) (RtoC (M i j * M' j ir))) (range Nr))).
  - rewrite lsum_swap. apply lsum_ext. intros i _. rewrite lsum_scal, lsum_rsum. reflexivity.
  - intros j _. rewrite dht_sum by auto. rewrite <- lsum_scal_r. apply lsum_ext. intros i _. rewrite RtoC_mult. ring.
Qed.

Lemma rsum_zero {A} (f : A -> R) l : (forall a, In a l -> f a = 0%R) -> rsum f l = 0%R.
Proof. induction l as [|a l IH]; intros H; [reflexivity|]. cbn [rsum fold_right]. rewrite (H a) by (left; auto). fold (rsum f l). rewrite IH; [ring|]. intros; apply H; right; auto. Qed.
Lemma rsum_ext' {A} (f h : A -> R) l : (forall a, In a l -> f a = h a) -> rsum f l = rsum h l.
Proof. induction l as [|a l IH]; intros H; [reflexivity|]. cbn [rsum fold_right]. rewrite (H a) by (left; auto). f_equal. apply IH. intros; apply H; right; auto. Qed.

Section RT.
Context (jn : Z -> R -> R) (zeros : Z -> Z -> R) (rmax : R) (inv pinv : Z -> Z -> R) (Nz Nr m p : Z).
Let invM := dht_invM jn zeros rmax Nr p m.
Let M := dht_M inv pinv p m.
Hypothesis Hinv : m = 0 \/ p = m - 1 -> right_inverse Nr invM inv.
Hypothesis Hpinv : m <> 0 -> p <> m - 1 -> right_inverse_rows1 Nr invM pinv.
(** The mode kr = 0 is not represented. *)
Definition null (ir : Z) : bool := negb (m =? 0) && negb (p =? m - 1) && (ir =? 0).
Lemma product i k : 0 <= i < Nr -> 0 <= k < Nr ->
  rsum (fun j => (invM i j * M j k)%R) (range Nr) = if null k then 0%R else delta_R i k.
Proof.
  intros Hi Hk. unfold null. destruct (negb (m =? 0) && negb (p =? m - 1)) eqn:E; cbn [andb].
  - assert (Em : m <> 0) by (intros ->; discriminate). assert (Ep : p <> m - 1) by (intros ->; rewrite Z.eqb_refl, Bool.andb_comm in E; discriminate).
    unfold M, dht_M. rewrite E. destruct (Z.eqb_spec k 0) as [->|Nk].
    + apply rsum_zero. intros; ring.
    + destruct (Z.eq_dec i 0) as [->|Ni].
      * rewrite rsum_zero; [unfold delta_R; destruct (Z.eqb_spec 0 k); [congruence|reflexivity]|].
        intros j _. unfold invM, dht_invM. cbv zeta. destruct (Z.eqb_spec m 0) as [?|_]; [tauto|].
        destruct (Z.eqb_spec p (m - 1)) as [?|_]; [tauto|]. rewrite Z.eqb_refl. ring.
      * rewrite (Hpinv Em Ep i (k - 1)) by lia. f_equal. lia.
  - assert (D : m = 0 \/ p = m - 1).
    { destruct (Z.eqb_spec m 0); [auto|]. destruct (Z.eqb_spec p (m - 1)); [auto|discriminate]. }
    unfold M, dht_M. rewrite E. apply Hinv; auto.
Qed.
Lemma dht_roundtrip G iz ir : 0 <= iz < Nz -> 0 <= ir < Nr ->
  dht Nz Nr M (dht Nz Nr invM G) iz ir = if null ir then RtoC 0 else G iz ir.
Proof.
  intros Hz Hr. rewrite dht_dht by auto. destruct (null ir) eqn:E.
  - apply lsum_zero. intros i Hi. apply in_range in Hi. rewrite product, E by auto. ring.
  - rewrite (lsum_ext _ (fun i => if i =? ir then G iz i else RtoC 0)); [apply lsum_single; auto|].
    intros i Hi. apply in_range in Hi. rewrite product, E by auto. unfold delta_R. destruct (i =? ir); ring.
Qed.
End RT.

Section RT2.
Context (jn : Z -> R -> R) (zeros : Z -> Z -> R) (rmax : R) (inv pinv : Z -> Z -> Z -> R) (Nz Nr m : Z).
Let tr := make_transformer jn zeros rmax inv pinv Nz Nr m.
Hypothesis H : inverses_ok jn zeros rmax inv pinv Nr m.
Lemma null_first p ir : p = m \/ p = m + 1 -> null m p ir = negb (m =? 0) && (ir =? 0).
Proof.
  intros Hp. unfold null. destruct (Z.eqb_spec p (m - 1)); [lia|]. cbn [negb]. rewrite Bool.andb_true_r. reflexivity.
Qed.
Lemma null_m ir : null m (m - 1) ir = false.
Proof. unfold null. rewrite Z.eqb_refl. cbn [negb]. rewrite Bool.andb_false_r. reflexivity. Qed.

Lemma scal_roundtrip G iz ir : 0 <= iz < Nz -> 0 <= ir < Nr ->
  interp2spect_scal tr (spect2interp_scal tr G) iz ir = if negb (m =? 0) && (ir =? 0) then RtoC 0 else G iz ir.
Proof.
  intros Hz Hr. unfold interp2spect_scal, spect2interp_scal. cbn [tr make_transformer t_Nz t_Nr t_M0 t_invM0].
  destruct (H m) as [H1 H2]; [cbn; auto|].
  rewrite (dht_ext _ _ _ _ (dht Nz Nr (dht_invM jn zeros rmax Nr m m) G)); [|auto|intros; apply fft_ifft; auto].
  rewrite (dht_roundtrip jn zeros rmax (inv m) (pinv m)) by auto. rewrite null_first by auto. reflexivity.
Qed.

Lemma in_cells cells i j : all_cells Nz Nr cells -> 0 <= i < Nz -> 0 <= j < Nr -> In (i, j) cells.
Proof. intros [_ A] Hi Hj. apply A. auto. Qed.
Lemma vect_roundtrip cells cells' Gp Gm iz ir : all_cells Nz Nr cells -> all_cells Nz Nr cells' ->
  0 <= iz < Nz -> 0 <= ir < Nr ->
  let '(Fr, Ft) := spect2interp_vect tr cells Gp Gm in
  let '(Gp', Gm') := interp2spect_vect tr cells' Fr Ft in
  Gp' iz ir = (if negb (m =? 0) && (ir =? 0) then RtoC 0 else Gp iz ir) /\ Gm' iz ir = Gm iz ir.
Proof.
  intros C1 C2 Hz Hr. unfold spect2interp_vect. cbv zeta. unfold interp2spect_vect. cbv zeta.
  cbn [tr make_transformer t_Nz t_Nr t_Mp t_Mm t_invMp t_invMm].
  set (Dp := dht Nz Nr (dht_invM jn zeros rmax Nr (m + 1) m) Gp). set (Dm := dht Nz Nr (dht_invM jn zeros rmax Nr (m - 1) m) Gm).
  rewrite pm_to_rt_loop, rt_to_pm_loop.
  assert (A1 : distinct_arrays buf_p buf_m buf_r buf_t) by (unfold distinct_arrays, buf_p, buf_m, buf_r, buf_t; lia).
  assert (A2 : distinct_arrays buf_r buf_t buf_p buf_m) by (unfold distinct_arrays, buf_p, buf_m, buf_r, buf_t; lia).
  set (mem1 := fold_left (cell2 to_r to_t buf_p buf_m buf_r buf_t) cells (two_arrays Dp Dm)).
  assert (V1 : forall i j, 0 <= i < Nz -> 0 <= j < Nr -> mem1 buf_r i j = to_r (Dp i j) (Dm i j) /\ mem1 buf_t i j = to_t (Dp i j) (Dm i j)).
  { intros i j Hi Hj. destruct (loop2 to_r to_t buf_p buf_m buf_r buf_t cells (proj1 C1) A1 (two_arrays Dp Dm) i j) as [L _].
    exact (L (in_cells cells i j C1 Hi Hj)). }
  set (mem2 := fold_left (cell2 to_p to_m buf_r buf_t buf_p buf_m) cells' (two_arrays (fft Nz (ifft Nz (mem1 buf_r))) (fft Nz (ifft Nz (mem1 buf_t))))).
  assert (V2 : forall i j, 0 <= i < Nz -> 0 <= j < Nr -> mem2 buf_p i j = Dp i j /\ mem2 buf_m i j = Dm i j).
  { intros i j Hi Hj. destruct (loop2 to_p to_m buf_r buf_t buf_p buf_m cells' (proj1 C2) A2 (two_arrays (fft Nz (ifft Nz (mem1 buf_r))) (fft Nz (ifft Nz (mem1 buf_t)))) i j) as [L _].
    destruct (L (in_cells cells' i j C2 Hi Hj)) as [E1 E2]. fold mem2 in E1, E2.
    change (two_arrays ?a ?b buf_r i j) with (a i j) in E1, E2. change (two_arrays ?a ?b buf_t i j) with (b i j) in E1, E2.
    rewrite !fft_ifft in E1, E2 by auto. destruct (V1 i j Hi Hj) as [W1 W2]. rewrite W1, W2 in E1, E2.
    destruct (pm_rt_pm (Dp i j) (Dm i j)) as [Q1 Q2]. rewrite E1, E2. auto. }
  destruct (H (m + 1)) as [H1 H2]; [cbn; auto|]. destruct (H (m - 1)) as [H3 H4]; [cbn; auto|]. split.
  - rewrite (dht_ext _ _ _ _ Dp); [|auto|intros; apply V2; auto].
    unfold Dp. rewrite (dht_roundtrip jn zeros rmax (inv (m + 1)) (pinv (m + 1))) by auto. rewrite null_first by auto. reflexivity.
  - rewrite (dht_ext _ _ _ _ Dm); [|auto|intros; apply V2; auto].
    unfold Dm. rewrite (dht_roundtrip jn zeros rmax (inv (m - 1)) (pinv (m - 1))) by auto. rewrite null_m. reflexivity.
Qed.
End RT2.

Lemma half_C (z : C) : Cmult (RtoC 0.5) z = Cdiv z (RtoC 2).
Proof. rewrite half_R, RtoC_div by lra. field. intros E. injection E. lra. Qed.
Lemma rt_pm_rt_mem Nz Nr r t p m cells cells' mem :
  r <> t -> p <> m -> (p = r /\ m = t) \/ (p <> r /\ p <> t /\ m <> r /\ m <> t) ->
  all_cells Nz Nr cells -> all_cells Nz Nr cells' ->
  let mem1 := rt_to_pm r t p m cells mem in
  let mem2 := pm_to_rt p m r t cells' mem1 in
  forall iz ir, 0 <= iz < Nz -> 0 <= ir < Nr ->
  mem1 p iz ir = ((mem r iz ir - Ci * mem t iz ir) / RtoC 2)%C /\
  mem1 m iz ir = ((mem r iz ir + Ci * mem t iz ir) / RtoC 2)%C /\
  mem2 r iz ir = mem r iz ir /\ mem2 t iz ir = mem t iz ir.
Proof.
  intros H1 H2 H3 C1 C2 mem1 mem2 iz ir Hz Hr.
  destruct (loop2 to_p to_m r t p m cells (proj1 C1) ltac:(repeat split; auto) mem iz ir) as [L1 _].
  destruct (loop2 to_r to_t p m r t cells' (proj1 C2) ltac:(repeat split; auto; destruct H3 as [[? ?]|(? & ? & ? & ?)]; [left; auto|right; auto]) mem1 iz ir) as [L2 _].
  destruct (L1 (in_cells Nz Nr cells iz ir C1 Hz Hr)) as [E1 E2]. destruct (L2 (in_cells Nz Nr cells' iz ir C2 Hz Hr)) as [E3 E4].
  unfold mem2. rewrite pm_to_rt_loop, E3, E4. unfold mem1. rewrite rt_to_pm_loop, E1, E2.
  destruct (rt_pm_rt (mem r iz ir) (mem t iz ir)) as [-> ->]. unfold to_p, to_m. rewrite !half_C. auto.
Qed.
Lemma pm_rt_pm_mem Nz Nr r t p m cells cells' mem :
  r <> t -> p <> m -> (p = r /\ m = t) \/ (p <> r /\ p <> t /\ m <> r /\ m <> t) ->
  all_cells Nz Nr cells -> all_cells Nz Nr cells' ->
  let mem1 := pm_to_rt p m r t cells mem in
  let mem2 := rt_to_pm r t p m cells' mem1 in
  forall iz ir, 0 <= iz < Nz -> 0 <= ir < Nr ->
  mem1 r iz ir = (mem p iz ir + mem m iz ir)%C /\
  mem1 t iz ir = (Ci * (mem p iz ir - mem m iz ir))%C /\
  mem2 p iz ir = mem p iz ir /\ mem2 m iz ir = mem m iz ir.
Proof.
  intros H1 H2 H3 C1 C2 mem1 mem2 iz ir Hz Hr.
  destruct (loop2 to_r to_t p m r t cells (proj1 C1) ltac:(repeat split; auto; destruct H3 as [[? ?]|(? & ? & ? & ?)]; [left; auto|right; auto]) mem iz ir) as [L1 _].
  destruct (loop2 to_p to_m r t p m cells' (proj1 C2) ltac:(repeat split; auto) mem1 iz ir) as [L2 _].
  destruct (L1 (in_cells Nz Nr cells iz ir C1 Hz Hr)) as [E1 E2]. destruct (L2 (in_cells Nz Nr cells' iz ir C2 Hz Hr)) as [E3 E4].
  unfold mem2. rewrite rt_to_pm_loop, E3, E4. unfold mem1. rewrite pm_to_rt_loop, E1, E2.
  destruct (pm_rt_pm (mem p iz ir) (mem m iz ir)) as [-> ->]. unfold to_r, to_t. auto.
Qed.
Lemma norm_mem Nz Nr r t p m cells mem :
  r <> t -> p <> m -> (p = r /\ m = t) \/ (p <> r /\ p <> t /\ m <> r /\ m <> t) ->
  all_cells Nz Nr cells ->
  let mem1 := rt_to_pm r t p m cells mem in
  forall iz ir, 0 <= iz < Nz -> 0 <= ir < Nr ->
  (Cmod (mem r iz ir) ^ 2 + Cmod (mem t iz ir) ^ 2 = 2 * (Cmod (mem1 p iz ir) ^ 2 + Cmod (mem1 m iz ir) ^ 2))%R.
Proof.
  intros H1 H2 H3 C1 mem1 iz ir Hz Hr.
  destruct (loop2 to_p to_m r t p m cells (proj1 C1) ltac:(repeat split; auto) mem iz ir) as [L1 _].
  destruct (L1 (in_cells Nz Nr cells iz ir C1 Hz Hr)) as [E1 E2].
  unfold mem1. rewrite rt_to_pm_loop, E1, E2. symmetry. apply pm_norm.
Qed.

(** ** Wavenumbers *)
Lemma wavenumbers zeros rmax m : (0 < rmax)%R -> (forall i : Z, 0 <= i -> (0 < zeros m i < zeros m (i + 1)%Z)%R) ->
  forall i, 0 <= i -> (kr_of zeros rmax m i < kr_of zeros rmax m (i + 1)%Z)%R /\
    (kr_of zeros rmax m i = 0%R <-> m <> 0 /\ i = 0).
Proof.
  intros P Z0 i I. pose proof PI_RGT_0.
  assert (K : forall j, kr_of zeros rmax m j = (/ rmax * alphas zeros m j)%R).
  { intros j. unfold kr_of. field. split; lra. }
  assert (Ir : (0 < / rmax)%R) by (apply Rinv_0_lt_compat; exact P).
  rewrite !K. unfold alphas.
  destruct (Z.eqb_spec m 0) as [->|M].
  - pose proof (Z0 i I). split; [apply Rmult_lt_compat_l; tauto|]. split; [|intros [H' _]; lia].
    intros E. exfalso. assert (0 < / rmax * zeros 0%Z i)%R by (apply Rmult_lt_0_compat; tauto). lra.
  - replace (i + 1 =? 0) with false by (symmetry; apply Z.eqb_neq; lia). destruct (Z.eqb_spec i 0) as [->|N].
    + split; [apply Rmult_lt_compat_l; [exact Ir|]; apply (Z0 0); lia|]. rewrite Rmult_0_r. tauto.
    + pose proof (Z0 (i - 1) ltac:(lia)) as Q. replace (i - 1 + 1) with i in Q by lia.
      replace (i + 1 - 1) with i by lia. split; [apply Rmult_lt_compat_l; tauto|]. split; [|tauto].
      intros E. exfalso. assert (0 < / rmax * zeros m (i - 1)%Z)%R by (apply Rmult_lt_0_compat; tauto). lra.
Qed.
