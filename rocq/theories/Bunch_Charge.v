From Verif Require Import Base Decomp_Model Decomp_Spec Decomp_Proofs Boost_Model Boost_Proofs Inject_Model Inject_Proofs Load_Model Load_Proofs Bunch_Model Bunch_Spec Bunch_Proofs.
From Coq Require Import Reals Lra Lia.
Open Scope R_scope.

Lemma total_app a b : total (a ++ b) = total a + total b.
Proof. exact (sumR_app a b). Qed.
Lemma total_const {A} (w : R) (l : list A) : total (map (fun _ => w) l) = IZR (Z.of_nat (length l)) * w.
Proof. rewrite <- INR_IZR_INZ. exact (sumR_const w l). Qed.
Lemma total_perm a b : Permutation a b -> total a = total b.
Proof. unfold total. induction 1; cbn; lra. Qed.

Lemma total_sym l : total (map b_w (symmetrized l)) = total (map b_w l).
Proof.
  unfold symmetrized. cbn [flat_map]. rewrite app_nil_r, !map_app, !total_app, !map_map. cbn [rotate b_w].
  assert (E : total (map (fun a => b_w a * 0.25) l) = total (map b_w l) / 4).
  { induction l; cbn; [lra|]. fold (total (map (fun a => b_w a * 0.25) l)). fold (total (map b_w l)). rewrite IHl. lra. }
  rewrite E. lra.
Qed.
Lemma kept_all {A B} (f : A -> option B) l :
  (forall a, In a l -> f a <> None) -> length (flat_map (fun d => match f d with Some u => [(d, u)] | None => [] end) l) = length l.
Proof.
  induction l as [|a l IH]; intros H; [reflexivity|]. cbn [flat_map]. rewrite app_length, IH by (intros; apply H; right; assumption).
  specialize (H a (or_introl eq_refl)). destruct (f a); [reflexivity|congruence].
Qed.

Lemma gaussian_total cl sig_r sig_z n_emit g0 sig_gamma np nm tf zf sy draws l :
  gaussian_beam cl sig_r sig_z n_emit g0 sig_gamma np nm tf zf sy draws = Ok l -> total (map b_w l) = np.
Proof.
  unfold gaussian_beam. intros H.
  destruct (if sy then if (nm mod 4 =? 0)%Z then Ok (nm / 4)%Z else Err AssertionError else Ok nm) as [n|] eqn:En; [|discriminate].
  cbn [bind] in H. set (kept := flat_map _ _) in H. destruct (Z.eqb_spec (Z.of_nat (length kept)) 0) as [|N0]; [discriminate|].
  assert (T : forall f : draw * (R * R * R * R) -> beam, (forall p, b_w (f p) = np / IZR (Z.of_nat (length kept))) -> total (map b_w (map f kept)) = np).
  { intros f Hf. rewrite map_map. rewrite (map_ext _ _ Hf). rewrite total_const. field. apply not_0_IZR. assumption. }
  injection H as <-. destruct sy.
  - rewrite total_sym. apply T. intros [d [[[? ?] ?] ?]]. reflexivity.
  - apply T. intros [d [[[? ?] ?] ?]]. reflexivity.
Qed.
Lemma file_total np zo rows l : file_beam np zo rows = Ok l -> total (map b_w l) = np.
Proof.
  unfold file_beam. intros H. destruct (Z.eqb_spec (Z.of_nat (length rows)) 0) as [|N0]; [discriminate|]. injection H as <-.
  rewrite map_map. etransitivity. { apply f_equal. apply (map_ext _ (fun _ => np / IZR (Z.of_nat (length rows)))). intros [[[[[? ?] ?] ?] ?] ?]. reflexivity. }
  rewrite total_const. field. apply not_0_IZR. assumption.
Qed.

(** The boost commutes with the rotations. *)
Definition tb cl boost (a : beam) : macro := hd {| m_p := {| px := 0; py := 0; pz := 0; pux := 0; puy := 0; puz := 0; pinv_gamma := 0 |}; m_wt := 0 |} (to_boosted cl boost [a]).
Lemma to_boosted_map cl boost l : to_boosted cl boost l = map (tb cl boost) l.
Proof. reflexivity. Qed.
Lemma tb_w cl boost a : m_wt (tb cl boost a) = b_w a. Proof. reflexivity. Qed.

Lemma boost_form cl b : exists F G : R -> R -> R -> R, forall x y z ux uy uz ig,
  let q := boost_particle cl b {| px := x; py := y; pz := z; pux := ux; puy := uy; puz := uz; pinv_gamma := ig |} in
  let s := ux * ux + uy * uy in
  px q = x + F s z uz * ux /\ py q = y + F s z uz * uy /\ pz q = G s z uz /\ pux q = ux /\ puy q = uy.
Proof.
  set (ub := gamma0 b * beta0 b).
  set (nz s uz := gamma0 b * uz - ub * sqrt (1 + (s + uz * uz))).
  set (gb s uz := sqrt (1 + (s + nz s uz ^ 2))).
  exists (fun s z uz => - (- ub * z / cl * cl / gb s uz)), (fun s z uz => gamma0 b * z - - ub * z / cl * nz s uz * cl / gb s uz).
  intros x y z ux uy uz ig q s. unfold q, boost_particle. cbn [px py pz pux puy puz]. fold ub.
  assert (E : gamma0 b * uz - ub * sqrt (1 + (ux * ux + uy * uy + uz * uz)) = nz s uz) by reflexivity. rewrite E.
  assert (E2 : sqrt (1 + (ux ^ 2 + uy ^ 2 + nz s uz ^ 2)) = gb s uz) by (unfold gb, s; f_equal; ring). rewrite E2.
  unfold Rdiv. repeat split; ring.
Qed.
Definition rotp (k : Z) (v : R * R) : R * R :=
  match k with 1%Z => (- snd v, fst v) | 2%Z => (- fst v, - snd v) | 3%Z => (snd v, - fst v) | _ => v end.
Lemma tb_rot cl boost a k : (0 <= k <= 3)%Z ->
  let p := m_p (tb cl boost a) in let q := m_p (tb cl boost (rotate k a)) in
  pz q = pz p /\ (px q, py q) = rotp k (px p, py p) /\ (pux q, puy q) = rotp k (pux p, puy p).
Proof.
  intros Hk p q. assert (C : (k = 0 \/ k = 1 \/ k = 2 \/ k = 3)%Z) by lia. clear Hk.
  destruct boost as [b|].
  - destruct (boost_form cl b) as (F & G & B).
    assert (Bp := fun x y z ux uy uz ig => B x y z ux uy uz ig). cbv zeta in Bp. clear B.
    assert (Fq : forall a, let q := m_p (tb cl (Some b) a) in let s := b_ux a * b_ux a + b_uy a * b_uy a in
      px q = b_x a + F s (b_z a) (b_uz a) * b_ux a /\ py q = b_y a + F s (b_z a) (b_uz a) * b_uy a /\ pz q = G s (b_z a) (b_uz a) /\ pux q = b_ux a /\ puy q = b_uy a).
    { intros a0. unfold tb, to_boosted, map, hd, m_p. cbv zeta. apply Bp. }
    cbv zeta in Fq. destruct (Fq a) as (P1 & P2 & P3 & P4 & P5), (Fq (rotate k a)) as (Q1 & Q2 & Q3 & Q4 & Q5).
    fold p in P1, P2, P3, P4, P5. fold q in Q1, Q2, Q3, Q4, Q5. rewrite P1, P2, P3, P4, P5, Q1, Q2, Q3, Q4, Q5.
    assert (Es : b_ux (rotate k a) * b_ux (rotate k a) + b_uy (rotate k a) * b_uy (rotate k a) = b_ux a * b_ux a + b_uy a * b_uy a)
      by (destruct C as [->|[->|[->| ->]]]; cbn; ring).
    rewrite Es. destruct C as [->|[->|[->| ->]]]; cbn [rotate b_x b_y b_z b_ux b_uy b_uz rotp fst snd]; split; try reflexivity; split; f_equal; ring.
  - destruct C as [->|[->|[->| ->]]]; unfold p, q, tb, to_boosted, map, hd, m_p; cbn; auto.
Qed.

Lemma filter_app' {A} (f : A -> bool) a b : filter f (a ++ b) = filter f a ++ filter f b.
Proof. apply filter_app. Qed.
(** Any linear quantity built from x, y, ux, uy and any selection in z: the four rotated copies cancel. *)
Lemma sym_zero cl boost l (sel : R -> bool) (cx cy cu cv : R) :
  let g m := m_wt m * (cx * px (m_p m) + cy * py (m_p m) + cu * pux (m_p m) + cv * puy (m_p m)) in
  total (map g (filter (fun m => sel (pz (m_p m))) (to_boosted cl boost (symmetrized l)))) = 0.
Proof.
  intros g. rewrite to_boosted_map. unfold symmetrized. cbn [flat_map]. rewrite app_nil_r.
  set (l' := map _ l). clearbody l'. rewrite !map_app, !filter_app, !map_app, !total_app, !map_map.
  induction l' as [|a t IH]; [cbn; lra|]. cbn [map filter].
  destruct (tb_rot cl boost a 0 ltac:(lia)) as (Z0 & X0 & U0), (tb_rot cl boost a 1 ltac:(lia)) as (Z1 & X1 & U1),
    (tb_rot cl boost a 2 ltac:(lia)) as (Z2 & X2 & U2), (tb_rot cl boost a 3 ltac:(lia)) as (Z3 & X3 & U3).
  rewrite Z0, Z1, Z2, Z3. destruct (sel (pz (m_p (tb cl boost a)))); [|exact IH].
  cbn [map total fold_right]. repeat match goal with |- context [fold_right Rplus 0 ?x] => fold (total x) end.
  cbn [rotp fst snd] in *. apply pair_equal_spec in X1 as [X1 Y1]. apply pair_equal_spec in X2 as [X2 Y2]. apply pair_equal_spec in X3 as [X3 Y3].
  apply pair_equal_spec in U1 as [U1 V1]. apply pair_equal_spec in U2 as [U2 V2]. apply pair_equal_spec in U3 as [U3 V3].
  assert (G : g (tb cl boost (rotate 0 a)) + g (tb cl boost (rotate 1 a)) + g (tb cl boost (rotate 2 a)) + g (tb cl boost (rotate 3 a)) = 0).
  { unfold g. rewrite X1, X2, X3, Y1, Y2, Y3, U1, U2, U3, V1, V2, V3. rewrite !tb_w. change (rotate 0 a) with a. cbn [rotate b_w]. ring. }
  lra.
Qed.
Lemma gaussian_sym cl sig_r sig_z n_emit g0 sig_gamma np nm tf zf draws l :
  gaussian_beam cl sig_r sig_z n_emit g0 sig_gamma np nm tf zf true draws = Ok l -> exists l0, l = symmetrized l0.
Proof.
  unfold gaussian_beam. intros H. destruct (nm mod 4 =? 0)%Z; [|discriminate]. cbn [bind] in H.
  destruct (_ =? 0)%Z; [discriminate|]. injection H as <-. eexists. reflexivity.
Qed.

(** *** Cylindrical bunches *)
Lemma gen_count Npz zmin zmax Npr rmin rmax Nt n ang : (0 < Npz)%Z -> (0 < Npr)%Z -> (0 < Nt)%Z -> zmin < zmax -> 0 <= rmin -> rmin < rmax -> 0 < n ->
  Z.of_nat (length (generate_evenly_spaced Npz zmin zmax Npr rmin rmax Nt n NoDens ang)) = (Npz * Npr * Nt)%Z.
Proof.
  intros H1 H2 H3 Hz Hr0 Hr Hn. unfold generate_evenly_spaced. replace (0 <? Npz * Npr * Nt)%Z with true by (symmetry; apply Z.ltb_lt; nia).
  assert (P1 := IZR_lt 0 _ H1). assert (P2 := IZR_lt 0 _ H2). assert (P3 := IZR_lt 0 _ H3).
  rewrite filter_all.
  - assert (L : forall {A B} (f : A -> list B) k l, (forall a, length (f a) = k) -> length (flat_map f l) = (length l * k)%nat).
    { intros A B f k l Hf. induction l; [reflexivity|]. cbn. rewrite app_length, Hf, IHl. reflexivity. }
    rewrite (L _ _ _ (Z.to_nat (Npr * Nt))).
    + rewrite length_range. nia.
    + intros i. rewrite (L _ _ _ (Z.to_nat Nt)); [rewrite length_range; nia|]. intros j. rewrite map_length, length_range. reflexivity.
  - intros p Hp. apply in_flat_map in Hp as [i [Hi Hp]]. apply in_flat_map in Hp as [j [Hj Hp]]. apply in_map_iff in Hp as [k [<- _]].
    apply in_range in Hj. unfold keep. cbn [m_w dens_at].
    assert (J := IZR_le 0 j ltac:(lia)).
    match goal with |- (if Rlt_dec 0 ?w then _ else _) = true => assert (W : 0 < w) end.
    { assert (0 < (rmax - rmin) * 1 / IZR Npr) by (apply Rdiv_lt_0_compat; lra). assert (0 < (zmax - zmin) * 1 / IZR Npz) by (apply Rdiv_lt_0_compat; lra).
      assert (0 < 2 * PI / IZR Nt) by (apply Rdiv_lt_0_compat; [assert (Q := PI_RGT_0); lra|assumption]).
      assert (0 < (rmax - rmin) * 1 / IZR Npr * (IZR j + 0.5)) by (apply Rmult_lt_0_compat; lra).
      assert (0 < rmin + (rmax - rmin) * 1 / IZR Npr * (IZR j + 0.5)) by lra.
      repeat first [assumption | lra | apply Rmult_lt_0_compat]. }
    match goal with |- (if ?d then _ else _) = _ => destruct d; [reflexivity|contradiction] end.
Qed.

Lemma cylinder_count g g0 n p_zmin p_zmax p_rmin p_rmax p_nr p_nz p_nt bw ang :
  0 < g_dz g -> 0 < g_dr g -> (2 <= g_Nz g)%Z -> (2 <= g_Nr g)%Z -> (1 <= p_nz)%Z -> (1 <= p_nr)%Z -> (1 <= p_nt)%Z -> 0 < n -> 1 <= g0 ->
  exists zlo zhi rlo rhi uz l, add_particle_bunch g g0 n p_zmin p_zmax p_rmin p_rmax p_nr p_nz p_nt bw ang = Ok (uz, l) /\
   (zlo <= zhi /\ rlo <= rhi)%Z /\
   (forall i, (0 <= i < g_Nz g)%Z -> (zlo <= i < zhi)%Z <-> (Rmax (g_zmin_loc g) p_zmin < g_z g + (IZR i + 0.5) * g_dz g < Rmin (g_zmax_loc g) p_zmax)) /\
   (forall i, (0 <= i < g_Nr g)%Z -> (rlo <= i < rhi)%Z <-> (p_rmin < 0 + (IZR i + 0.5) * g_dr g < Rmin (g_r_phys g) p_rmax)) /\
   Z.of_nat (length l) = (((zhi - zlo) * p_nz) * ((rhi - rlo) * p_nr) * p_nt)%Z /\
   sqrt (1 + uz ^ 2) = g0 /\ (if bw then uz <= 0 else 0 <= uz).
Proof.
  intros Hdz Hdr HNz HNr Hpz Hpr Hpt Hn Hg.
  destruct (adapt_spec (g_z g) (g_dz g) Hdz (g_Nz g) (Rmax (g_zmin_loc g) p_zmin) (Rmin (g_zmax_loc g) p_zmax) p_nz 0 HNz Hpz ltac:(lia))
    as (zlo & zhi & a & b & Ez & Hz1 & Hz2 & Hz3 & Hz4).
  destruct (adapt_spec 0 (g_dr g) Hdr (g_Nr g) p_rmin (Rmin (g_r_phys g) p_rmax) p_nr 0 HNr Hpr ltac:(lia))
    as (rlo & rhi & a' & b' & Er & Hr1 & Hr2 & Hr3 & Hr4).
  exists zlo, zhi, rlo, rhi. unfold add_particle_bunch, load_uniform. cbv zeta. rewrite Ez. cbn [bind]. rewrite Er. cbn [bind].
  eexists. eexists. split; [reflexivity|]. split; [lia|].
  split; [intros i Hi; rewrite Hz4 by lia; split; [tauto|]; intros; split; [lia|assumption]|].
  split; [intros i Hi; rewrite Hr4 by lia; split; [tauto|]; intros; split; [lia|assumption]|].
  split.
  - destruct (Z.eq_dec zlo zhi) as [->|Dz].
    { rewrite Z.sub_diag, Z.mul_0_l. unfold generate_evenly_spaced. cbn. lia. }
    destruct (Z.eq_dec rlo rhi) as [->|Dr].
    { rewrite Z.sub_diag, Z.mul_0_l. unfold generate_evenly_spaced. rewrite Z.mul_0_r. cbn. lia. }
    destruct (Hz3 ltac:(lia)) as [-> ->], (Hr3 ltac:(lia)) as [-> ->].
    assert (IZR zlo < IZR zhi) by (apply IZR_lt; lia). assert (IZR rlo < IZR rhi) by (apply IZR_lt; lia). assert (R0 := IZR_le 0 rlo ltac:(lia)).
    apply gen_count; try nia; nra.
  - assert (S : 0 <= g0 ^ 2 - 1) by nra. assert (Q := sqrt_pos (g0 ^ 2 - 1)). assert (Q2 := sqrt_sqrt _ S).
    destruct bw.
    + split; [|lra]. replace (1 + (- sqrt (g0 ^ 2 - 1)) ^ 2) with (g0 ^ 2) by nra. apply sqrt_pow2. lra.
    + split; [|lra]. replace (1 + (sqrt (g0 ^ 2 - 1)) ^ 2) with (g0 ^ 2) by nra. apply sqrt_pow2. lra.
Qed.

Lemma loaded_total cl boost c l : valid_comm c -> 0 < c_dz c ->
  (forall zmin zmax p, get_zmin_zmax c false false false None = Ok (zmin, zmax) -> In p (to_boosted cl boost l) -> zmin <= pz (m_p p) < zmax) ->
  total (map m_wt (flat_map (loaded_on cl boost l c) (range (c_size c)))) = total (map b_w l).
Proof.
  intros V D In_box. destruct (C44_main cl boost l c V D) as (zmin & zmax & E & _ & P & _).
  rewrite (total_perm _ _ (Permutation_map m_wt P)). rewrite filter_all.
  - rewrite to_boosted_map, map_map. reflexivity.
  - intros p Hp. apply selected_iff. apply (In_box _ _ p E Hp).
Qed.
Lemma gaussian_loads cl boost c sig_r sig_z n_emit g0 sig_gamma np nm tf zf sy draws l r :
  gaussian_beam cl sig_r sig_z n_emit g0 sig_gamma np nm tf zf sy (draws r) = Ok l ->
  add_particle_bunch_gaussian cl (on_rank c r) boost sig_r sig_z n_emit g0 sig_gamma np nm tf zf sy draws
  = add_particle_bunch_from_arrays cl (on_rank c r) boost l.
Proof. intros H. unfold add_particle_bunch_gaussian. cbn [on_rank c_rank]. rewrite H. reflexivity. Qed.

Lemma gaussian_weights cl sig_r sig_z n_emit g0 sig_gamma np nm tf zf sy draws l :
  gaussian_beam cl sig_r sig_z n_emit g0 sig_gamma np nm tf zf sy draws = Ok l -> l <> [] /\ forall a, In a l -> exists k : R, 0 < k /\ b_w a = np * k.
Proof.
  unfold gaussian_beam. intros H.
  destruct (if sy then if (nm mod 4 =? 0)%Z then Ok (nm / 4)%Z else Err AssertionError else Ok nm) as [n|] eqn:En; [|discriminate].
  cbn [bind] in H. set (kept := flat_map _ _) in H. destruct (Z.eqb_spec (Z.of_nat (length kept)) 0) as [|N0]; [discriminate|].
  assert (P : 0 < IZR (Z.of_nat (length kept))) by (apply IZR_lt; lia).
  assert (Q : 0 < / IZR (Z.of_nat (length kept))) by (apply Rinv_0_lt_compat; assumption).
  injection H as <-. set (f := fun '(_, _) => _). assert (Hf : forall p, b_w (f p) = np / IZR (Z.of_nat (length kept))) by (intros [d [[[? ?] ?] ?]]; reflexivity). clearbody f.
  destruct kept as [|p0 kept0]; [cbn in N0; lia|]. set (kept := p0 :: kept0) in *. destruct sy.
  - split; [unfold symmetrized, kept; cbn; discriminate|]. intros a Ha. exists (/ IZR (Z.of_nat (length kept)) * (1 / 4)). split; [lra|].
    unfold symmetrized in Ha. apply in_flat_map in Ha as [k [Hk Ha]]. apply in_map_iff in Ha as [b [<- Hb]]. apply in_map_iff in Hb as [b' [<- Hb']].
    apply in_map_iff in Hb' as [p [<- _]]. assert (Ew : forall b, b_w (rotate k b) = b_w b) by (intros b; destruct Hk as [<-|[<-|[<-|[<-|[]]]]]; reflexivity).
    rewrite Ew. cbn [b_w]. rewrite Hf. unfold Rdiv. replace 0.25 with (1 * / 4) by lra. ring.
  - split; [unfold kept; cbn; discriminate|]. intros a Ha. exists (/ IZR (Z.of_nat (length kept))). split; [lra|]. apply in_map_iff in Ha as [p [<- _]]. apply Hf.
Qed.

(** Two ranks whose generators give one particle each, in the domain of the other rank, or both in their own domain. *)
Definition wc2 : comm :=
  {| c_rank := 0; c_size := 2; c_left := None; c_right := None; c_Nz := 2; c_zmin := 0; c_dz := 1; c_nguard := 0; c_nzdamp := 0; c_ninject := 0; c_period := 1 |}.
Definition wd (z : R) : draw := {| s_gamma := 0; s_x := 0; s_y := 0; s_z := z; s_ux := 0; s_uy := 0 |}.
Lemma wbeam (np z : R) (n : Z) : gaussian_beam 1 1 1 0 2 0 np n 0 0 false (fun _ => [wd z]) =
  Ok [{| b_x := 1 * 0; b_y := 1 * 0; b_z := 0 + 1 * z; b_ux := 0 / 1 * 0; b_uy := 0 / 1 * 0; b_uz := sqrt (2 ^ 2 - 1 - (0 / 1 * 0) ^ 2 - (0 / 1 * 0) ^ 2); b_w := np / 1 |}].
Proof.
  unfold gaussian_beam, physical, bind. cbn [flat_map]. destruct (Rlt_dec 0 0); [lra|].
  match goal with |- context [Rle_dec ?a ?b] => destruct (Rle_dec a b) as [?|N]; [|exfalso; apply N; cbn; lra] end.
  cbn [app length Z.of_nat Pos.of_succ_nat Z.eqb map]. destruct (Req_EM_T 0 0); [|congruence]. reflexivity.
Qed.
Lemma wload np z r : (0 <= r < 2)%Z -> exists l, add_particle_bunch_gaussian 1 (on_rank wc2 r) None 1 1 0 2 0 np 1 0 0 false (fun _ _ => [wd z]) = Ok l /\
  total (map m_wt l) = (if selected (IZR r) (IZR r + 1) z then np else 0).
Proof.
  intros Hr. rewrite (gaussian_loads 1 None wc2 1 1 0 2 0 np 1 0 0 false (fun _ _ => [wd z]) _ r (wbeam np z 1)).
  assert (C : (r = 0 \/ r = 1)%Z) by lia.
  destruct C as [-> | ->]; (eexists; split; [reflexivity|]); cbn [to_boosted map filter m_p pz b_z];
  match goal with |- context [if selected ?a ?b ?z0 then [_] else _] =>
    match goal with |- _ = if selected ?a' ?b' _ then _ else _ =>
      replace (selected a b z0) with (selected a' b' z); [destruct (selected a' b' z); cbn; lra|f_equal; cbn; ring] end end.
Qed.
