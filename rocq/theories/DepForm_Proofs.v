(** Proofs for C59. *)
From Coq Require Import Reals Lra Lia Psatz.
From Flocq Require Import Core.Core.
From Coquelicot Require Import Rcomplements Complex.
From Verif Require Import Base Shape_Model Shape_Spec Shape_Proofs Deposit_Model Deposit_Spec Deposit_Proofs DepForm_Spec.
Open Scope R_scope.

(** ** Sums with a condition *)
Definition ind (b : bool) : R := if b then 1 else 0.
Lemma zsum_ext n f h : (forall i, (0 <= i < n)%Z -> f i = h i) -> zsum n f = zsum n h.
Proof.
  intros H. unfold zsum. assert (E : forall l, (forall i, In i l -> (0 <= i < n)%Z) -> fold_right (fun i s => f i + s) 0 l = fold_right (fun i s => h i + s) 0 l).
  { induction l as [|a l IH]; intros Hl; [reflexivity|]. simpl. rewrite H, IH; [reflexivity| |apply Hl; left; reflexivity].
    intros i Hi. apply Hl. right. exact Hi. }
  apply E. intros i Hi. apply in_range in Hi. exact Hi.
Qed.
Lemma zsum_plus n f h : zsum n (fun i => f i + h i) = zsum n f + zsum n h.
Proof. unfold zsum. induction (range n) as [|a l IH]; simpl; [lra|]. rewrite IH. lra. Qed.
Lemma zsum_scal n a f : zsum n (fun i => a * f i) = a * zsum n f.
Proof. unfold zsum. induction (range n) as [|b l IH]; simpl; [lra|]. rewrite IH. lra. Qed.

(** Axial: the folded points of cell iz. *)
Lemma fold_axial sh Nz x iz : (2 <= Nz)%Z -> (0 <= iz < Nz)%Z -> (0 <= Zceil x <= Nz)%Z ->
  zsum (npts sh) (fun a => ind (fz Nz (first_pt sh x + a + 2) =? iz)%Z * Sz sh x a) = axial_weight sh Nz x iz.
Proof.
  intros HN Hiz Hc. unfold axial_weight. rewrite <- !sz_spline. unfold weight_at. rewrite <- !zsum_plus. apply zsum_ext. intros a Ha.
  set (v := (first_pt sh x + a)%Z). assert (Hv : (-2 <= v <= Nz + 1)%Z).
  { unfold v, first_pt. destruct sh; cbn [npts] in Ha; lia. }
  replace (first_pt sh x + a + 2)%Z with (v + 2)%Z by (unfold v; lia). unfold fz.
  destruct (Z.ltb_spec (v + 2) 2); [|destruct (Z.ltb_spec (v + 2) (Nz + 2))];
    repeat match goal with |- context [Z.eqb ?a ?b] => destruct (Z.eqb_spec a b); try lia end; unfold ind; try lra.
Qed.

(** Radial: each point. *)
Lemma sr_weight sh x b f beta : (0 <= b < npts sh)%Z ->
  Sr sh x b f beta = (if (first_pt sh x + b <? 0)%Z then f else 1) * radial_weight sh beta x (first_pt sh x + b).
Proof.
  intros Hb. unfold radial_weight. rewrite <- sz_spline.
  assert (Hw : weight_at sh x (first_pt sh x + b) = Sz sh x b).
  { unfold weight_at. rewrite (zsum_ext _ _ (fun i => if (i =? b)%Z then Sz sh x i else 0)).
    2:{ intros i _. destruct (Z.eqb_spec (first_pt sh x + i) (first_pt sh x + b)), (Z.eqb_spec i b); try lia; reflexivity. }
    destruct sh; cbn [npts] in *; [rewrite zsum2|rewrite zsum4].
    - assert (b = 0 \/ b = 1)%Z as [E|E] by lia; subst b; cbn [Z.eqb Pos.eqb]; lra.
    - assert (b = 0 \/ b = 1 \/ b = 2 \/ b = 3)%Z as [E|[E|[E|E]]] by lia; subst b; cbn [Z.eqb Pos.eqb]; lra. }
  rewrite Hw. clear Hw. destruct sh; cbn [npts Sr Sz first_pt] in *.
  - assert (b = 0 \/ b = 1)%Z as [E|E] by lia; subst b; unfold Sr_linear, Sz_linear; cbn [Z.eqb Pos.eqb];
      repeat match goal with |- context [Z.eqb ?a ?b] => destruct (Z.eqb_spec a b); try lia end;
      repeat match goal with |- context [Z.ltb ?a ?b] => destruct (Z.ltb_spec a b); try lia end;
      rewrite ?minus_IZR; ring.
  - assert (b = 0 \/ b = 1 \/ b = 2 \/ b = 3)%Z as [E|[E|[E|E]]] by lia; subst b; unfold Sr_cubic, Sz_cubic; cbn [Z.eqb Pos.eqb];
      repeat match goal with |- context [Z.eqb ?a ?b] => destruct (Z.eqb_spec a b); try lia end;
      repeat match goal with |- context [Z.ltb ?a ?b] => destruct (Z.ltb_spec a b); try lia end;
      rewrite ?minus_IZR; field.
Qed.
Lemma radial_support sh beta x j : (j < first_pt sh x \/ first_pt sh x + npts sh <= j)%Z -> radial_weight sh beta x j = 0.
Proof.
  intros H. unfold radial_weight. rewrite <- sz_spline. unfold weight_at.
  rewrite (zsum_ext _ _ (fun _ => 0 * 0)).
  2:{ intros i Hi. destruct (Z.eqb_spec (first_pt sh x + i) j); [lia|lra]. }
  rewrite zsum_scal. destruct sh; cbn [first_pt npts] in H;
  repeat match goal with |- context [Z.eqb ?a ?b] => destruct (Z.eqb_spec a b); try lia end; lra.
Qed.
Lemma radial_pick sh beta x j : zsum (npts sh) (fun b => ind (first_pt sh x + b =? j)%Z * radial_weight sh beta x (first_pt sh x + b)) = radial_weight sh beta x j.
Proof.
  destruct (Z_lt_le_dec j (first_pt sh x)) as [H|H]; [|destruct (Z_lt_le_dec j (first_pt sh x + npts sh)) as [H1|H1]].
  1,3: rewrite radial_support by lia; rewrite (zsum_ext _ _ (fun _ => 0 * 0)); [rewrite zsum_scal; ring|];
    intros i Hi; destruct (Z.eqb_spec (first_pt sh x + i) j); [lia|unfold ind; ring].
  set (b := (j - first_pt sh x)%Z). assert (Hb : (0 <= b < npts sh)%Z) by lia. 
  rewrite (zsum_ext _ _ (fun i => if (i =? b)%Z then radial_weight sh beta x j else 0)).
  2:{ intros i _. unfold b. destruct (Z.eqb_spec (first_pt sh x + i) j) as [E|E], (Z.eqb_spec i (j - first_pt sh x)); try lia; unfold ind; rewrite ?E; ring. }
  clearbody b. destruct sh; cbn [npts] in *; [rewrite zsum2|rewrite zsum4].
  - assert (b = 0 \/ b = 1)%Z as [E|E] by lia; subst b; cbn [Z.eqb Pos.eqb]; lra.
  - assert (b = 0 \/ b = 1 \/ b = 2 \/ b = 3)%Z as [E|[E|[E|E]]] by lia; subst b; cbn [Z.eqb Pos.eqb]; lra.
Qed.
Lemma fold_radial sh Nr x ir f beta : (2 <= Nr)%Z -> (0 <= ir < Nr)%Z -> (0 <= Zceil x <= Nr)%Z ->
  zsum (npts sh) (fun b => ind (fr Nr (first_pt sh x + b + 2) =? ir)%Z * Sr sh x b f beta) =
  outer_weight sh beta x Nr ir + f * radial_weight sh beta x (-1 - ir).
Proof.
  intros HN Hir Hc. unfold outer_weight.
  assert (E : (if (ir =? Nr - 1)%Z then radial_weight sh beta x Nr + radial_weight sh beta x (Nr + 1) else 0)
            = ind (ir =? Nr - 1)%Z * (radial_weight sh beta x Nr + radial_weight sh beta x (Nr + 1)))
    by (destruct (ir =? Nr - 1)%Z; unfold ind; ring). rewrite E. clear E.
  rewrite <- !(radial_pick sh beta x). rewrite <- !zsum_plus, <- !zsum_scal, <- !zsum_plus. apply zsum_ext. intros b Hb.
  rewrite (sr_weight sh x b f beta Hb). set (w := radial_weight sh beta x (first_pt sh x + b)). clearbody w.
  set (v := (first_pt sh x + b)%Z). assert (Hv : (-2 <= v <= Nr + 1)%Z).
  { unfold v, first_pt. destruct sh; cbn [npts] in Hb; lia. }
  replace (first_pt sh x + b + 2)%Z with (v + 2)%Z by (unfold v; lia). unfold fr.
  destruct (Z.ltb_spec v 0); destruct (Z.eqb_spec (v + 2) 0); try lia; try (destruct (Z.eqb_spec (v + 2) 1)); try lia;
   try (destruct (Z.ltb_spec (v + 2) (Nr + 2))); try lia;
   repeat match goal with |- context [Z.eqb ?a ?b] => destruct (Z.eqb_spec a b); try lia end; unfold ind; ring.
Qed.

(** ** The particle's direction *)
Lemma rj_polar p : rj p = polar_r p.
Proof. unfold rj, polar_r. f_equal. ring. Qed.
Lemma e_polar p : (cos_j p, sin_j p) = polar_e p.
Proof.
  unfold cos_j, sin_j, polar_e. rewrite rj_polar. destruct (Req_EM_T (polar_r p) 0); [reflexivity|].
  f_equal; field; assumption.
Qed.
Lemma scal_polar c k wj p m : scal c k wj p m = Cmult (RtoC (wj * quantity c k p (polar_e p))) (cpow (polar_e p) m).
Proof.
  induction m as [|m IH]; cbn [scal cpow].
  - rewrite <- e_polar. rewrite Cmult_1_r. f_equal. destruct k; unfold quantity, scal0; cbn [Re Im fst snd]; ring.
  - rewrite IH, e_polar. ring.
Qed.
Lemma cpow_opp e m : cpow (Copp e) m = Cmult (RtoC ((-1) ^ m)) (cpow e m).
Proof. induction m as [|m IH]; cbn [cpow pow]; [ring|]. replace (-1 * (-1) ^ m) with (- (-1) ^ m) by ring. rewrite IH, RtoC_opp. ring. Qed.
Lemma quantity_opp c k p e : quantity c k p (Copp e) = match k with Rho | Jz => quantity c k p e | Jr | Jt => - quantity c k p e end.
Proof. destruct k, e; cbn; ring. Qed.
Lemma opposite c k p e m : Cmult (RtoC (quantity c k p (Copp e))) (cpow (Copp e) m) =
  Cmult (RtoC (flip k m)) (Cmult (RtoC (quantity c k p e)) (cpow e m)).
Proof.
  rewrite quantity_opp, cpow_opp. unfold flip. generalize (quantity c k p e) ((-1) ^ m). intros a b. destruct k; rewrite ?RtoC_opp; ring.
Qed.

(** ** One particle *)
Lemma lsum_zsum n (F : Z -> R) z : lsum (fun a => Cmult (RtoC (F a)) z) (range n) = Cmult (RtoC (zsum n F)) z.
Proof.
  unfold zsum. induction (range n) as [|a l IH]; simpl; [ring|]. rewrite IH, RtoC_plus. ring.
Qed.
Lemma ceil_r g p : grid_ok g -> in_radius g p -> (0 <= Zceil (r_cell g p) <= g_Nr g)%Z.
Proof.
  intros (_ & Hd & _) H. unfold in_radius in H. unfold r_cell. rewrite rj_polar.
  assert (A : 0 <= 1 / g_dr g * (polar_r p - 0) <= IZR (g_Nr g)).
  { assert (0 <= polar_r p) by apply sqrt_pos. replace (1 / g_dr g * (polar_r p - 0)) with (polar_r p / g_dr g) by (field; lra).
    split; [apply Rdiv_le_0_compat; lra|]. apply Rle_div_l; lra. }
  split.
  - assert (-1 < Zceil (1 / g_dr g * (polar_r p - 0) - 1 / 2))%Z; [|lia]. apply lt_IZR. eapply Rlt_le_trans; [|apply Zceil_ub]. lra.
  - apply Zceil_glb. lra.
Qed.
Lemma one_particle c g k m s p iz ir : grid_ok g -> in_grid g p -> in_radius g p -> (0 <= iz < g_Nz g)%Z -> (0 <= ir < g_Nr g)%Z ->
  Cmult (pair_with (fun gz gr => delta iz ir (fz (g_Nz g) gz) (fr (g_Nr g) gr)) (contrib c g k m s p)) (RtoC (1 / g_vol g ir)) =
  textbook c g k m iz ir s p.
Proof.
  intros Hg Hin Hr Hiz Hir. unfold textbook, contrib, contributions, pair_with. cbv zeta.
  set (sh := sp_shape s). set (b := bn g sh m p). set (f := flip k m).
  set (z := scal c k (sp_q s * eff_weight (sp_ionizable s) p) p m).
  pose proof (ceil_r g p Hg Hr) as Cr. pose proof (zcell_range g Hg p Hin) as Cz.
  pose proof Hg as (Hdz & Hdr & HNz & HNr & Hv). specialize (Hv ir Hir).
  rewrite lsum_flat_map.
  rewrite (lsum_ext _ (fun a => Cmult (RtoC (ind (fz (g_Nz g) (first_pt sh (z_cell g p) + a + 2) =? iz)%Z * Sz sh (z_cell g p) a))
     (Cmult (RtoC (zsum (npts sh) (fun b0 => ind (fr (g_Nr g) (first_pt sh (r_cell g p) + b0 + 2) =? ir)%Z * Sr sh (r_cell g p) b0 f b))) z))).
  2:{ intros a Ha. rewrite lsum_map. cbn [fst snd]. rewrite <- (lsum_zsum (npts sh)). rewrite <- lsum_scal. apply lsum_ext. intros b0 Hb0.
      assert (E1 : (iz_cell g sh p + a = first_pt sh (z_cell g p) + a + 2)%Z) by (unfold iz_cell, first_pt; destruct sh; lia).
      assert (E2 : (ir_cell g sh p + b0 = first_pt sh (r_cell g p) + b0 + 2)%Z) by (unfold ir_cell, first_pt; destruct sh; lia).
      rewrite E1, E2. unfold delta.
      destruct (fz (g_Nz g) (first_pt sh (z_cell g p) + a + 2) =? iz)%Z, (fr (g_Nr g) (first_pt sh (r_cell g p) + b0 + 2) =? ir)%Z;
        cbn [andb ind]; rewrite !RtoC_mult; ring. }
  rewrite lsum_zsum, fold_axial, fold_radial by assumption.
  unfold z. rewrite scal_polar.
  assert (Ex : r_cell g p = polar_r p / g_dr g - 1 / 2) by (unfold r_cell; rewrite rj_polar; field; lra).
  assert (Ez : z_cell g p = (p_z p - g_zmin g) / g_dz g - 1 / 2) by (unfold z_cell; field; lra).
  assert (Eb : b = ruyten_at g sh m (polar_r p / g_dr g - 1 / 2)) by (unfold b, bn, ruyten_at; rewrite Ex; destruct m; reflexivity).
  rewrite <- Ex, <- Ez in *. rewrite <- Eb.
  transitivity (Cmult (RtoC (sp_q s * weight s p * axial_weight sh (g_Nz g) (z_cell g p) iz / g_vol g ir))
    (Cplus (Cmult (RtoC (outer_weight sh b (r_cell g p) (g_Nr g) ir)) (Cmult (RtoC (quantity c k p (polar_e p))) (cpow (polar_e p) m)))
           (Cmult (RtoC (radial_weight sh b (r_cell g p) (-1 - ir))) (Cmult (RtoC (quantity c k p (Copp (polar_e p)))) (cpow (Copp (polar_e p)) m))))).
  2:{ rewrite !RtoC_mult. ring. }
  rewrite opposite. fold f. change (weight s p) with (eff_weight (sp_ionizable s) p).
  unfold Rdiv. rewrite Rmult_1_l, !RtoC_plus, !RtoC_mult. ring.
Qed.

Lemma deposit_formula c g k m nthreads ptcl sl iz ir : grid_ok g ->
  threads_ok nthreads (depositing ptcl sl) -> all_in_grid g (depositing ptcl sl) ->
  Forall (fun s => Forall (in_radius g) (sp_ptcl s)) (depositing ptcl sl) -> (0 <= iz < g_Nz g)%Z -> (0 <= ir < g_Nr g)%Z ->
  deposit c g k m nthreads ptcl sl iz ir = lsum (fun s => lsum (textbook c g k m iz ir s) (sp_ptcl s)) (depositing ptcl sl).
Proof.
  intros Hg Hth Hin Hr Hiz Hir. rewrite deposit_cell by assumption. rewrite <- lsum_scal_r.
  unfold all_in_grid in Hin. rewrite Forall_forall in Hin, Hr. revert Hin Hr. generalize (depositing ptcl sl). clear ptcl sl Hth.
  induction l as [|s l IH]; intros Hin Hr; [reflexivity|]. cbn [filter].
  assert (IH' := IH (fun x Hx => Hin x (or_intror Hx)) (fun x Hx => Hr x (or_intror Hx))). clear IH.
  pose proof (Hin s (or_introl eq_refl)) as H1. pose proof (Hr s (or_introl eq_refl)) as H2. rewrite Forall_forall in H1, H2.
  destruct (Req_EM_T (sp_q s) 0) as [E|E].
  - rewrite lsum_cons, IH'. rewrite (lsum_zero (textbook c g k m iz ir s)); [ring|]. intros p _. unfold textbook. cbv zeta. rewrite E.
    unfold Rdiv. rewrite !Rmult_0_l. ring.
  - rewrite !lsum_cons, IH'. f_equal. rewrite <- lsum_scal_r. apply lsum_ext. intros p Hp. apply one_particle; auto.
Qed.
