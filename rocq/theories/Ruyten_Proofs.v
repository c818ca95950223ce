(** Proofs for C24. *)
From Verif Require Import Base Chunk_Model Shape_Model Shape_Spec Shape_Proofs Deposit_Model Deposit_Spec Deposit_Proofs Inject_Proofs
  Ruyten_Model Ruyten_Spec.
From Coq Require Import Reals Lra.
From Flocq Require Import Core.Core.
From Coquelicot Require Import Coquelicot.
Open Scope Z_scope.

(** ** From the deposition to a radial weight *)
Definition radial (g : grid) (sh : shape) (j : Z) (r : R) : R :=
  zsum (npts sh) (fun b => if fr (g_Nr g) (ir_cell g sh (unit_particle r 0) + b) =? j
     then Sr sh (r_cell g (unit_particle r 0)) b 1 (bn g sh 0 (unit_particle r 0)) else 0%R).

Lemma r_cell_unit g r z : r_cell g (unit_particle r z) = r_cell g (unit_particle r 0). Proof. reflexivity. Qed.

Lemma ring_radial c g sh z j r : grid_ok g -> in_grid g (unit_particle r z) -> 0 <= j < g_Nr g ->
  ring_charge c g sh z j r = radial g sh j r.
Proof.
  intros Hg Hin Hj. unfold ring_charge.
  assert (Hth : threads_ok 1 (depositing (unit_species sh r z :: nil) None)).
  { split; [lia|]. repeat constructor; cbn; lia. }
  assert (Hal : all_in_grid g (depositing (unit_species sh r z :: nil) None)) by (constructor; [constructor; [exact Hin|constructor]|constructor]).
  set (phi := fun (_ i : Z) => if i =? j then RtoC 1 else RtoC 0).
  assert (E : lsum (fun iz => Cmult (deposit c g Rho 0 1 (unit_species sh r z :: nil) None iz j) (RtoC (g_vol g j))) (range (g_Nz g)) = RtoC (radial g sh j r)).
  2: { rewrite E. reflexivity. }
  transitivity (grid_sum (g_Nz g) (g_Nr g) (fun i j' => Cmult (phi i j')
    (fold_left add_at (sum_reduce_2d_array 1 (g_Nz g) (g_Nr g)
       (fold_left (species_deposit c g Rho 0 1) (depositing (unit_species sh r z :: nil) None) (fun _ => zero2))) zero2 i j'))).
  { unfold grid_sum. apply lsum_ext. intros iz _.
    rewrite (lsum_ext _ (fun j' => if j' =? j then fold_left add_at (sum_reduce_2d_array 1 (g_Nz g) (g_Nr g)
       (fold_left (species_deposit c g Rho 0 1) (depositing (unit_species sh r z :: nil) None) (fun _ => zero2))) zero2 iz j' else RtoC 0)).
    2: { intros j' _. unfold phi. destruct (j' =? j); ring. }
    rewrite (lsum_single (g_Nr g) j) by exact Hj.
    unfold deposit, divide_by_volume. cbv zeta. fold (depositing (unit_species sh r z :: nil) None).
    destruct Hg as (_ & _ & _ & _ & Hv). specialize (Hv j Hj).
    rewrite <- Cmult_assoc, <- RtoC_mult. replace (1 / g_vol g j * g_vol g j)%R with 1%R by (field; exact Hv). ring. }
  rewrite (deposit_pair c g Rho 0 Hg phi 1 _ Hth Hal).
  cbn [depositing filter unit_species sp_tracer negb sp_q].
  destruct (Req_EM_T 1 0) as [A|_]; [lra|].
  rewrite lsum_cons, lsum_nil. cbn [sp_ptcl unit_species]. rewrite lsum_cons, lsum_nil.
  unfold pair_with, contrib, contributions. rewrite lsum_flat_map. cbn [sp_shape unit_species sp_q sp_ionizable].
  rewrite (lsum_ext _ (fun a => Cmult (RtoC (Sz sh (z_cell g (unit_particle r z)) a)) (RtoC (radial g sh j r)))).
  - rewrite lsum_scal_r, lsum_rsum, rsum_zsum, sz_sum. ring.
  - intros a _. rewrite lsum_map. cbn [snd fst Deposit_Model.scal scal0 flip eff_weight unit_particle p_w].
    unfold radial. rewrite <- rsum_zsum. rewrite <- lsum_rsum, <- lsum_scal. apply lsum_ext. intros b _.
    unfold phi. fold (unit_particle r z). rewrite (r_cell_unit g r z).
    change (ir_cell g sh (unit_particle r z)) with (ir_cell g sh (unit_particle r 0)).
    change (bn g sh 0 (unit_particle r z)) with (bn g sh 0 (unit_particle r 0)).
    cbn [pow]. destruct (_ =? j); rewrite !RtoC_mult; ring.
Qed.

(** ** Integrals of polynomials on a cell *)
Definition prim (K c0 c1 c2 c3 u : R) : R :=
  (c0 * K * u + (c0 + c1 * K) * u ^ 2 / 2 + (c1 + c2 * K) * u ^ 3 / 3 + (c2 + c3 * K) * u ^ 4 / 4 + c3 * u ^ 5 / 5)%R.
Definition cub (c0 c1 c2 c3 u : R) : R := (c0 + c1 * u + c2 * u ^ 2 + c3 * u ^ 3)%R.
Lemma piece (K a b c0 c1 c2 c3 : R) (f : R -> R) : (a <= b)%R ->
  (forall x, (a < x < b)%R -> f x = cub c0 c1 c2 c3 (x - K)%R) ->
  is_RInt (fun x => (x * f x)%R) a b (prim K c0 c1 c2 c3 (b - K) - prim K c0 c1 c2 c3 (a - K))%R.
Proof.
  intros Hab Hf. apply (is_RInt_ext (fun x => (x * cub c0 c1 c2 c3 (x - K))%R)).
  { intros x Hx. rewrite Rmin_left, Rmax_right in Hx by exact Hab. rewrite Hf by exact Hx. reflexivity. }
  apply (is_RInt_derive (fun x => prim K c0 c1 c2 c3 (x - K)) (fun x => (x * cub c0 c1 c2 c3 (x - K))%R)).
  - intros x _. unfold prim, cub. auto_derive; [trivial|]. field.
  - intros x _. unfold cub. apply (ex_derive_continuous (fun x : R => (x * (c0 + c1 * (x - K) + c2 * (x - K) ^ 2 + c3 * (x - K) ^ 3))%R)).
    auto_derive. trivial.
Qed.
Lemma piece0 (a b : R) (f : R -> R) : (a <= b)%R -> (forall x, (a < x < b)%R -> f x = 0%R) ->
  is_RInt (fun x => (x * f x)%R) a b 0%R.
Proof.
  intros Hab Hf. replace 0%R with (prim 0 0 0 0 0 (b - 0) - prim 0 0 0 0 0 (a - 0))%R by (unfold prim; field).
  apply piece; [exact Hab|]. intros x Hx. rewrite Hf by exact Hx. unfold cub. ring.
Qed.
Lemma chain (f : R -> R) a b d (l1 l2 l : R) : is_RInt f a b l1 -> is_RInt f b d l2 -> l = (l1 + l2)%R -> is_RInt f a d l.
Proof. intros H1 H2 ->. exact (is_RInt_Chasles f a b d l1 l2 H1 H2). Qed.

(** ** The radial weight cell by cell, in units of dr *)
Section G.
Context (dz zmin dr : R) (Nz Nr : Z) (vol : Z -> R).
Let g := ruyten_grid dz zmin Nz dr Nr vol.
Hypothesis Hg : grid_ok g.

Lemma unit_cell x : (0 <= x)%R -> r_cell g (unit_particle (x * dr) 0) = (x - 1 / 2)%R.
Proof.
  intros Hx. destruct Hg as (_ & Hd & _). cbn in Hd. unfold r_cell, rj. cbn [unit_particle p_x p_y g_dr g ruyten_grid].
  replace ((x * dr) ^ 2 + 0 ^ 2)%R with (Rsqr (x * dr)) by (unfold Rsqr; ring).
  rewrite sqrt_Rsqr by (apply Rmult_le_pos; lra). field. lra.
Qed.
Lemma ceil_cell x k : (IZR k - 1 / 2 < x < IZR k + 1 / 2)%R -> Zceil (x - 1 / 2) = k.
Proof. intros H. apply Zceil_imp. rewrite minus_IZR. lra. Qed.

(** [lin k j]: weight for cell j, for a particle between the middles of the cells k-1 and k. *)
Definition w4 (b0 b1 b2 b3 : bool) (beta u : R) : R :=
  ((if b0 then (1 - u) ^ 3 / 6 else 0) +
   (if b1 then (3 * u ^ 3 - 6 * u ^ 2 + 4) / 6 + beta * (1 - u) * u else 0) +
   (if b2 then (3 * (1 - u) ^ 3 - 6 * (1 - u) ^ 2 + 4) / 6 - beta * (1 - u) * u else 0) +
   (if b3 then u ^ 3 / 6 else 0))%R.
Definition w2 (b0 b1 : bool) (beta u : R) : R :=
  ((if b0 then 1 - u + beta * (1 - u) * u else 0) + (if b1 then u - beta * (1 - u) * u else 0))%R.

Lemma radial_lin j x : (0 <= x)%R -> forall k, k = Zceil (x - 1 / 2) ->
  let ir := Z.min (k + 1) (Nr + 2) in
  radial g Linear j (x * dr) =
  w2 (fr Nr ir =? j) (fr Nr (ir + 1) =? j) (ruyten_linear_coef vol dz dr (Z.min k Nr)) (x - (IZR k - 1 / 2)).
Proof.
  intros Hx k Hk ir. unfold radial. cbn [npts]. unfold zsum. change (range 2) with (0 :: 1 :: nil)%Z. cbn [fold_right].
  unfold ir_cell, bn. rewrite unit_cell by exact Hx. rewrite <- Hk.
  change (g_Nr g) with Nr. fold ir. cbn [g_beta g ruyten_grid Sr].
  unfold Sr_linear. rewrite <- Hk. change (0 =? 1) with false. change (1 =? 1) with true. cbv iota zeta.
  rewrite Z.add_0_r. unfold w2. rewrite minus_IZR.
  destruct (fr Nr ir =? j), (fr Nr (ir + 1) =? j), (0 + (k - 1) <? 0), (1 + (k - 1) <? 0); field.
Qed.
Lemma radial_cub j x : (0 <= x)%R -> forall k, k = Zceil (x - 1 / 2) ->
  let ir := Z.min k Nr in
  radial g Cubic j (x * dr) =
  w4 (fr Nr ir =? j) (fr Nr (ir + 1) =? j) (fr Nr (ir + 2) =? j) (fr Nr (ir + 3) =? j)
     (ruyten_cubic_coef vol dz dr (Z.min k Nr)) (x - (IZR k - 1 / 2)).
Proof.
  intros Hx k Hk ir. unfold radial. cbn [npts]. unfold zsum. change (range 4) with (0 :: 1 :: 2 :: 3 :: nil)%Z. cbn [fold_right].
  unfold ir_cell, bn. rewrite unit_cell by exact Hx. rewrite <- Hk.
  change (g_Nr g) with Nr. fold ir. cbn [g_beta g ruyten_grid Sr].
  unfold Sr_cubic. rewrite <- Hk. cbn [Z.eqb Pos.eqb]. cbv zeta.
  rewrite Z.add_0_r. unfold w4. rewrite minus_IZR.
  destruct (0 + (k - 2) <? 0), (1 + (k - 2) <? 0), (2 + (k - 2) <? 0), (3 + (k - 2) <? 0);
  destruct (fr Nr ir =? j), (fr Nr (ir + 1) =? j), (fr Nr (ir + 2) =? j), (fr Nr (ir + 3) =? j); field.
Qed.

(** The four cases of one piece. *)
Lemma w2_cub b0 b1 be u : w2 b0 b1 be u = cub
  (if b0 then 1 else 0) ((if b0 then be - 1 else 0) + (if b1 then 1 - be else 0)) ((if b0 then - be else 0) + (if b1 then be else 0)) 0 u.
Proof. unfold w2, cub. destruct b0, b1; ring. Qed.
Lemma w4_cub b0 b1 b2 b3 be u : w4 b0 b1 b2 b3 be u = cub
  ((if b0 then 1 / 6 else 0) + (if b1 then 2 / 3 else 0) + (if b2 then 1 / 6 else 0))
  ((if b0 then - 1 / 2 else 0) + (if b1 then be else 0) + (if b2 then 1 / 2 - be else 0))
  ((if b0 then 1 / 2 else 0) + (if b1 then - 1 - be else 0) + (if b2 then 1 / 2 + be else 0))
  ((if b0 then - 1 / 6 else 0) + (if b1 then 1 / 2 else 0) + (if b2 then - 1 / 2 else 0) + (if b3 then 1 / 6 else 0)) u.
Proof. unfold w4, cub. destruct b0, b1, b2, b3; field. Qed.

Lemma HNr : 2 <= Nr. Proof. destruct Hg as (_ & _ & _ & H & _). exact H. Qed.

Lemma piece_lin j k a b b0 b1 : (0 <= a)%R -> (a <= b)%R -> (IZR k - 1 / 2 <= a)%R -> (b <= IZR k + 1 / 2)%R ->
  (fr Nr (Z.min (k + 1) (Nr + 2)) =? j) = b0 -> (fr Nr (Z.min (k + 1) (Nr + 2) + 1) =? j) = b1 ->
  let be := ruyten_linear_coef vol dz dr (Z.min k Nr) in
  let F := prim (IZR k - 1 / 2) (if b0 then 1 else 0) ((if b0 then be - 1 else 0) + (if b1 then 1 - be else 0))
    ((if b0 then - be else 0) + (if b1 then be else 0)) 0 in
  is_RInt (fun x => (x * radial g Linear j (x * dr))%R) a b (F (b - (IZR k - 1 / 2)) - F (a - (IZR k - 1 / 2)))%R.
Proof.
  intros Ha Hab H1 H2 E0 E1 be F. apply piece; [exact Hab|]. intros x Hx.
  rewrite (radial_lin j x ltac:(lra) k) by (symmetry; apply ceil_cell; lra).
  rewrite E0, E1. apply w2_cub.
Qed.
Lemma piece_cub j k a b b0 b1 b2 b3 : (0 <= a)%R -> (a <= b)%R -> (IZR k - 1 / 2 <= a)%R -> (b <= IZR k + 1 / 2)%R ->
  (fr Nr (Z.min k Nr) =? j) = b0 -> (fr Nr (Z.min k Nr + 1) =? j) = b1 ->
  (fr Nr (Z.min k Nr + 2) =? j) = b2 -> (fr Nr (Z.min k Nr + 3) =? j) = b3 ->
  let be := ruyten_cubic_coef vol dz dr (Z.min k Nr) in
  let F := prim (IZR k - 1 / 2)
    ((if b0 then 1 / 6 else 0) + (if b1 then 2 / 3 else 0) + (if b2 then 1 / 6 else 0))
    ((if b0 then - 1 / 2 else 0) + (if b1 then be else 0) + (if b2 then 1 / 2 - be else 0))
    ((if b0 then 1 / 2 else 0) + (if b1 then - 1 - be else 0) + (if b2 then 1 / 2 + be else 0))
    ((if b0 then - 1 / 6 else 0) + (if b1 then 1 / 2 else 0) + (if b2 then - 1 / 2 else 0) + (if b3 then 1 / 6 else 0)) in
  is_RInt (fun x => (x * radial g Cubic j (x * dr))%R) a b (F (b - (IZR k - 1 / 2)) - F (a - (IZR k - 1 / 2)))%R.
Proof.
  intros Ha Hab H1 H2 E0 E1 E2 E3 be F. apply piece; [exact Hab|]. intros x Hx.
  rewrite (radial_cub j x ltac:(lra) k) by (symmetry; apply ceil_cell; lra).
  rewrite E0, E1, E2, E3. apply w4_cub.
Qed.

Ltac solve_fr := pose proof HNr; unfold fr; apply Bool.eq_true_iff_eq; rewrite ?Z.eqb_eq;
  repeat match goal with
  | |- context [?a =? ?b] => destruct (Z.eqb_spec a b)
  | |- context [?a <? ?b] => destruct (Z.ltb_spec a b) end;
  try lia; split; intros; try lia; try discriminate; reflexivity.
Lemma zero_lin j a b : (0 <= a)%R -> (a <= b)%R -> 0 <= j <= Nr - 1 ->
  (b <= IZR j - 1 / 2)%R \/ ((IZR j + 3 / 2 <= a)%R /\ j <= Nr - 2) ->
  is_RInt (fun x => (x * radial g Linear j (x * dr))%R) a b 0%R.
Proof.
  intros Ha Hab Hj H. apply piece0; [exact Hab|]. intros x Hx.
  rewrite (radial_lin j x ltac:(lra) _ eq_refl). set (k := Zceil (x - 1 / 2)).
  assert (Hk : 0 <= k) by (assert (-1 < k); [apply lt_IZR; apply Rlt_le_trans with (2 := Zceil_ub _); lra|lia]).
  assert (Hc : k <= j - 1 \/ (j + 2 <= k /\ j <= Nr - 2)).
  { destruct H as [H|[H H']].
    - left. apply Zceil_glb. rewrite minus_IZR. lra.
    - right. split; [|exact H']. assert (j + 1 < k); [|lia]. apply lt_IZR. apply Rlt_le_trans with (2 := Zceil_ub _). rewrite plus_IZR. lra. }
  replace (fr Nr (Z.min (k + 1) (Nr + 2)) =? j) with false by solve_fr.
  replace (fr Nr (Z.min (k + 1) (Nr + 2) + 1) =? j) with false by solve_fr.
  unfold w2. ring.
Qed.
Lemma zero_cub j a b : (0 <= a)%R -> (a <= b)%R -> 0 <= j <= Nr - 1 ->
  ((b <= IZR j - 3 / 2)%R /\ 2 <= j) \/ ((IZR j + 5 / 2 <= a)%R /\ j <= Nr - 3) ->
  is_RInt (fun x => (x * radial g Cubic j (x * dr))%R) a b 0%R.
Proof.
  intros Ha Hab Hj H. apply piece0; [exact Hab|]. intros x Hx.
  rewrite (radial_cub j x ltac:(lra) _ eq_refl). set (k := Zceil (x - 1 / 2)).
  assert (Hk : 0 <= k) by (assert (-1 < k); [apply lt_IZR; apply Rlt_le_trans with (2 := Zceil_ub _); lra|lia]).
  assert (Hc : (k <= j - 2 /\ 2 <= j) \/ (j + 3 <= k /\ j <= Nr - 3)).
  { destruct H as [[H H']|[H H']].
    - left. split; [|exact H']. apply Zceil_glb. rewrite minus_IZR. lra.
    - right. split; [|exact H']. assert (j + 2 < k); [|lia]. apply lt_IZR. apply Rlt_le_trans with (2 := Zceil_ub _). rewrite plus_IZR. lra. }
  replace (fr Nr (Z.min k Nr) =? j) with false by solve_fr.
  replace (fr Nr (Z.min k Nr + 1) =? j) with false by solve_fr.
  replace (fr Nr (Z.min k Nr + 2) =? j) with false by solve_fr.
  replace (fr Nr (Z.min k Nr + 3) =? j) with false by solve_fr.
  unfold w4. ring.
Qed.

(** ** The coefficients *)
Let nv := norm_vol vol dz dr.
Lemma cumsum_0 f : cumsum f 0 = f 0. Proof. unfold cumsum. change (range (0 + 1)) with (0 :: nil). cbn. ring. Qed.
Lemma cumsum_step f n : 0 <= n -> cumsum f n = (cumsum f (n - 1) + f n)%R.
Proof.
  intros Hn. unfold cumsum. replace (n - 1 + 1) with n by lia. rewrite range_succ by lia. rewrite fold_right_app.
  cbn [fold_right]. replace (f n + 0)%R with (0 + f n)%R by ring. generalize (range n) as l. intros l. generalize 0%R as z.
  induction l as [|a l IH]; intros z; simpl; [reflexivity|]. rewrite IH. ring.
Qed.
Lemma lin_coef k : 1 <= k -> (ruyten_linear_coef vol dz dr k = (cumsum nv (k - 1) - IZR k ^ 2 / 2 - 1 / 24) * 6 / IZR k)%R.
Proof.
  intros Hk. unfold ruyten_linear_coef. destruct (Z.eqb_spec k 0); [lia|].
  assert (1 <= IZR k)%R by (apply (IZR_le 1); lia). cbv zeta. rewrite minus_IZR. fold nv. field. lra.
Qed.
Lemma cub_coef k : 2 <= k -> (ruyten_cubic_coef vol dz dr k = (cumsum nv (k - 1) - IZR k ^ 2 / 2 - 1 / 8) * 6 / IZR k)%R.
Proof.
  intros Hk. unfold ruyten_cubic_coef. destruct (Z.eqb_spec k 0); [lia|]. destruct (Z.eqb_spec (k - 1) 0); [lia|].
  assert (2 <= IZR k)%R by (apply (IZR_le 2); lia). cbv zeta. rewrite minus_IZR. fold nv. field. lra.
Qed.

Lemma lin_cell j X : 0 <= j <= Nr - 2 -> (IZR j + 3 / 2 <= X)%R ->
  is_RInt (fun x => (x * radial g Linear j (x * dr))%R) 0 X (nv j).
Proof.
  intros Hj HX. assert (Hjr : (0 <= IZR j)%R) by (apply (IZR_le 0); lia).
  assert (Hz : is_RInt (fun x => (x * radial g Linear j (x * dr))%R) (IZR j + 3 / 2) X 0%R)
    by (apply zero_lin; try lra; try lia; right; split; [lra|lia]).
  assert (H2 := piece_lin j (j + 1) (IZR j + 1 / 2) (IZR j + 3 / 2) true false ltac:(lra) ltac:(lra)
    ltac:(rewrite plus_IZR; lra) ltac:(rewrite plus_IZR; lra) ltac:(solve_fr) ltac:(solve_fr)). cbv zeta in H2.
  rewrite Z.min_l in H2 by lia. rewrite lin_coef in H2 by lia. replace (j + 1 - 1) with j in H2 by lia.
  rewrite plus_IZR in H2. rewrite cumsum_step in H2 by lia.
  destruct (Z.eq_dec j 0) as [->|Hj0].
  - assert (H1 := piece_lin 0 0 0 (1 / 2) true true ltac:(lra) ltac:(lra) ltac:(lra) ltac:(lra) ltac:(solve_fr) ltac:(solve_fr)).
    cbv zeta in H1. rewrite Z.min_l in H1 by lia. change (ruyten_linear_coef vol dz dr 0) with 0%R in H1.
    replace (0 + 1 / 2)%R with (1 / 2)%R in H2 by lra.
    refine (chain _ _ _ _ _ _ _ H1 (chain _ _ _ _ _ _ _ H2 Hz eq_refl) _).
    replace (cumsum nv (0 - 1)) with 0%R by reflexivity. unfold prim. field.
  - assert (1 <= IZR j)%R by (apply (IZR_le 1); lia).
    assert (H0 : is_RInt (fun x => (x * radial g Linear j (x * dr))%R) 0 (IZR j - 1 / 2) 0%R)
      by (apply zero_lin; try lra; try lia).
    assert (H1 := piece_lin j j (IZR j - 1 / 2) (IZR j + 1 / 2) false true ltac:(lra) ltac:(lra) ltac:(lra) ltac:(lra) ltac:(solve_fr) ltac:(solve_fr)).
    cbv zeta in H1. rewrite Z.min_l in H1 by lia. rewrite lin_coef in H1 by lia.
    refine (chain _ _ _ _ _ _ _ H0 (chain _ _ _ _ _ _ _ H1 (chain _ _ _ _ _ _ _ H2 Hz eq_refl) eq_refl) _).
    unfold prim. field. lra.
Qed.
Lemma cub_cell j X : 0 <= j <= Nr - 3 -> (IZR j + 5 / 2 <= X)%R ->
  is_RInt (fun x => (x * radial g Cubic j (x * dr))%R) 0 X (nv j).
Proof.
  intros Hj HX. assert (Hjr : (0 <= IZR j)%R) by (apply (IZR_le 0); lia).
  assert (Hz : is_RInt (fun x => (x * radial g Cubic j (x * dr))%R) (IZR j + 5 / 2) X 0%R)
    by (apply zero_cub; try lra; try lia; right; split; [lra|lia]).
  assert (H3 := piece_cub j (j + 2) (IZR j + 3 / 2) (IZR j + 5 / 2) true false false false ltac:(lra) ltac:(lra)
    ltac:(rewrite plus_IZR; lra) ltac:(rewrite plus_IZR; lra) ltac:(solve_fr) ltac:(solve_fr) ltac:(solve_fr) ltac:(solve_fr)). cbv zeta in H3.
  rewrite plus_IZR in H3.
  destruct (Z.eq_dec j 0) as [->|Hj0]; [|destruct (Z.eq_dec j 1) as [->|Hj1]].
  - assert (H1 := piece_cub 0 0 0 (1 / 2) false true true false ltac:(lra) ltac:(lra) ltac:(lra) ltac:(lra) ltac:(solve_fr) ltac:(solve_fr) ltac:(solve_fr) ltac:(solve_fr)).
    assert (H2 := piece_cub 0 1 (1 / 2) (0 + 3 / 2) true true false false ltac:(lra) ltac:(lra) ltac:(lra) ltac:(lra) ltac:(solve_fr) ltac:(solve_fr) ltac:(solve_fr) ltac:(solve_fr)).
    cbv zeta in H1, H2. rewrite Z.min_l in H1 by lia. rewrite Z.min_l in H2 by lia.
    refine (chain _ _ _ _ _ _ _ H1 (chain _ _ _ _ _ _ _ H2 (chain _ _ _ _ _ _ _ H3 Hz eq_refl) eq_refl) _).
    unfold ruyten_cubic_coef. cbn [Z.eqb Z.sub Z.add Z.opp Pos.add Z.pos_sub]. fold nv. unfold prim. field.
  - assert (H1 := piece_cub 1 0 0 (1 / 2) true false false true ltac:(lra) ltac:(lra) ltac:(lra) ltac:(lra) ltac:(solve_fr) ltac:(solve_fr) ltac:(solve_fr) ltac:(solve_fr)).
    assert (H2 := piece_cub 1 1 (1 / 2) (3 / 2) false false true false ltac:(lra) ltac:(lra) ltac:(lra) ltac:(lra) ltac:(solve_fr) ltac:(solve_fr) ltac:(solve_fr) ltac:(solve_fr)).
    assert (H2' := piece_cub 1 2 (3 / 2) (1 + 3 / 2) false true false false ltac:(lra) ltac:(lra) ltac:(lra) ltac:(lra) ltac:(solve_fr) ltac:(solve_fr) ltac:(solve_fr) ltac:(solve_fr)).
    cbv zeta in H1, H2, H2'. rewrite Z.min_l in H1 by lia. rewrite Z.min_l in H2 by lia. rewrite Z.min_l in H2' by lia.
    rewrite (cub_coef 2) in H2' by lia. change (2 - 1) with 1 in H2'. rewrite cumsum_step, cumsum_0 in H2' by lia.
    refine (chain _ _ _ _ _ _ _ H1 (chain _ _ _ _ _ _ _ H2 (chain _ _ _ _ _ _ _ H2' (chain _ _ _ _ _ _ _ H3 Hz eq_refl) eq_refl) eq_refl) _).
    unfold ruyten_cubic_coef. cbn [Z.eqb Z.sub Z.add Z.opp Pos.add Z.pos_sub]. fold nv. unfold prim. field.
  - assert (2 <= IZR j)%R by (apply (IZR_le 2); lia).
    assert (H0 : is_RInt (fun x => (x * radial g Cubic j (x * dr))%R) 0 (IZR j - 3 / 2) 0%R)
      by (apply zero_cub; try lra; try lia; left; split; [lra|lia]).
    assert (H1 := piece_cub j (j - 1) (IZR j - 3 / 2) (IZR j - 1 / 2) false false false true ltac:(lra) ltac:(lra) ltac:(rewrite minus_IZR; lra) ltac:(rewrite minus_IZR; lra) ltac:(solve_fr) ltac:(solve_fr) ltac:(solve_fr) ltac:(solve_fr)).
    assert (H2 := piece_cub j j (IZR j - 1 / 2) (IZR j + 1 / 2) false false true false ltac:(lra) ltac:(lra) ltac:(lra) ltac:(lra) ltac:(solve_fr) ltac:(solve_fr) ltac:(solve_fr) ltac:(solve_fr)).
    assert (H2' := piece_cub j (j + 1) (IZR j + 1 / 2) (IZR j + 3 / 2) false true false false ltac:(lra) ltac:(lra) ltac:(rewrite plus_IZR; lra) ltac:(rewrite plus_IZR; lra) ltac:(solve_fr) ltac:(solve_fr) ltac:(solve_fr) ltac:(solve_fr)).
    cbv zeta in H1, H2, H2'. rewrite Z.min_l in H2 by lia. rewrite Z.min_l in H2' by lia.
    rewrite (cub_coef j) in H2 by lia. rewrite (cub_coef (j + 1)) in H2' by lia. replace (j + 1 - 1) with j in H2' by lia.
    rewrite cumsum_step in H2' by lia. rewrite plus_IZR in H2'. rewrite minus_IZR in H1.
    refine (chain _ _ _ _ _ _ _ H0 (chain _ _ _ _ _ _ _ H1 (chain _ _ _ _ _ _ _ H2 (chain _ _ _ _ _ _ _ H2' (chain _ _ _ _ _ _ _ H3 Hz eq_refl) eq_refl) eq_refl) eq_refl) _).
    unfold prim. field. lra.
Qed.

(** Last cell, linear shape, standard volumes. *)
Lemma lin_last : (forall j, 0 <= j -> vol j = standard_vol dz dr j) ->
  is_RInt (fun x => (x * radial g Linear (Nr - 1) (x * dr))%R) 0 (IZR Nr) (nv (Nr - 1)).
Proof.
  intros Hv. pose proof HNr as HN. assert (2 <= IZR Nr)%R by (apply (IZR_le 2); exact HN).
  assert (Hnv : forall j, 0 <= j -> (nv j = IZR j + 1 / 2)%R).
  { intros j Hj. unfold nv, norm_vol. rewrite Hv by exact Hj. unfold standard_vol. destruct Hg as (Hz & Hd & _). cbn in Hz, Hd.
    field. pose proof PI_RGT_0. repeat split; lra. }
  assert (Hcs : forall n, 0 <= n -> (cumsum nv n = (IZR n + 1) ^ 2 / 2)%R).
  { intros n Hn. pattern n. apply natlike_ind; [| |exact Hn].
    - rewrite cumsum_0, Hnv by lia. field.
    - intros x Hx IH. unfold Z.succ. rewrite cumsum_step by lia. replace (x + 1 - 1) with x by lia. rewrite IH, Hnv by lia.
      rewrite plus_IZR. field. }
  assert (H0 : is_RInt (fun x => (x * radial g Linear (Nr - 1) (x * dr))%R) 0 (IZR Nr - 3 / 2) 0%R)
    by (apply zero_lin; try lra; try lia; left; rewrite minus_IZR; lra).
  assert (H1 := piece_lin (Nr - 1) (Nr - 1) (IZR Nr - 3 / 2) (IZR Nr - 1 / 2) false true ltac:(lra) ltac:(lra) ltac:(rewrite minus_IZR; lra) ltac:(rewrite minus_IZR; lra) ltac:(solve_fr) ltac:(solve_fr)).
  assert (H2 := piece_lin (Nr - 1) Nr (IZR Nr - 1 / 2) (IZR Nr) true true ltac:(lra) ltac:(lra) ltac:(lra) ltac:(lra) ltac:(solve_fr) ltac:(solve_fr)).
  cbv zeta in H1, H2. rewrite Z.min_l in H1 by lia. rewrite lin_coef in H1 by lia. rewrite Hcs in H1 by lia.
  rewrite minus_IZR in H1. rewrite minus_IZR in H1.
  refine (chain _ _ _ _ _ _ _ H0 (chain _ _ _ _ _ _ _ H1 H2 eq_refl) _).
  rewrite Hnv by lia. rewrite minus_IZR. unfold prim. field. lra.
Qed.

(** ** Back to the radius *)
Lemma scaled (rho c z : R) sh j X I : in_grid g (unit_particle 0 z) -> 0 <= j < Nr -> (0 <= X)%R ->
  is_RInt (fun x => (x * radial g sh j (x * dr))%R) 0 X I ->
  is_RInt (fun r => (rho * (2 * PI * r * dz) * ring_charge c g sh z j r)%R) 0 (X * dr) (rho * (2 * PI * dr ^ 2 * dz) * I)%R.
Proof.
  intros Hin Hj HX H. destruct Hg as (Hz & Hd & _). cbn in Hz, Hd.
  apply (is_RInt_ext (fun r => scal (rho * (2 * PI * dr ^ 2 * dz))%R (scal (/ dr)%R (((/ dr * r + 0) * radial g sh j ((/ dr * r + 0) * dr))%R)))).
  { intros r Hr. rewrite (ring_radial c g sh z j r Hg) by (assumption || exact Hin).
    replace ((/ dr * r + 0) * dr)%R with r by (field; lra).
    unfold scal; cbn; unfold mult; cbn. field. lra. }
  apply (is_RInt_scal (fun r => scal (/ dr)%R (((/ dr * r + 0) * radial g sh j ((/ dr * r + 0) * dr))%R)) 0 (X * dr) (rho * (2 * PI * dr ^ 2 * dz))%R I).
  apply (is_RInt_comp_lin (fun x => (x * radial g sh j (x * dr))%R) (/ dr) 0 0 (X * dr) I).
  replace (/ dr * 0 + 0)%R with 0%R by ring. replace (/ dr * (X * dr) + 0)%R with X by (field; lra). exact H.
Qed.

Lemma uniform c rho z sh j R0 : in_grid g (unit_particle 0 z) -> 0 <= j <= Nr - 1 - reach sh ->
  ((IZR j + IZR (reach sh) + 1 / 2) * dr <= R0)%R ->
  is_RInt (fun r => (rho * (2 * PI * r * dz) * ring_charge c g sh z j r)%R) 0 R0 (rho * vol j)%R.
Proof.
  intros Hin Hj HR. destruct Hg as (Hz & Hd & _). cbn in Hz, Hd. pose proof PI_RGT_0.
  assert (Hjr : (0 <= IZR j)%R) by (apply (IZR_le 0); lia).
  assert (HX : (IZR j + IZR (reach sh) + 1 / 2 <= R0 / dr)%R).
  { apply Rmult_le_reg_r with dr; [exact Hd|]. replace (R0 / dr * dr)%R with R0 by (field; lra). exact HR. }
  replace R0 with (R0 / dr * dr)%R by (field; lra).
  replace (rho * vol j)%R with (rho * (2 * PI * dr ^ 2 * dz) * nv j)%R by (unfold nv, norm_vol; field; repeat split; lra).
  assert (0 <= reach sh) by (destruct sh; cbn; lia).
  assert (0 <= IZR (reach sh))%R by (apply (IZR_le 0); assumption).
  apply scaled; [exact Hin|lia|lra|].
  destruct sh; cbn [reach] in *.
  - apply lin_cell; [lia|lra].
  - apply cub_cell; [lia|lra].
Qed.
Lemma uniform_last c rho z : in_grid g (unit_particle 0 z) -> (forall j, 0 <= j -> vol j = standard_vol dz dr j) ->
  is_RInt (fun r => (rho * (2 * PI * r * dz) * ring_charge c g Linear z (Nr - 1) r)%R) 0 (IZR Nr * dr) (rho * vol (Nr - 1))%R.
Proof.
  intros Hin Hv. destruct Hg as (Hz & Hd & _). cbn in Hz, Hd. pose proof PI_RGT_0. pose proof HNr.
  replace (rho * vol (Nr - 1))%R with (rho * (2 * PI * dr ^ 2 * dz) * nv (Nr - 1))%R by (unfold nv, norm_vol; field; repeat split; lra).
  apply scaled; [exact Hin|lia|apply (IZR_le 0); lia|]. apply lin_last. exact Hv.
Qed.
End G.
