From Verif Require Import Base Decomp_Model Fourier_Lib Window_Model.
From Coq Require Import Reals Lra Sorting.Sorted.
From Flocq Require Import Core.Core.
From Coquelicot Require Import Coquelicot.
Open Scope Z_scope.

(** ** C15 *)
Definition last_or (t0 : R) (l : list R) : R := last l t0.

(** distance between window and grid, in the direction of motion *)
Definition lag_ok (v dz d : R) : Prop :=
  if Rle_dec 0 v then (0 <= d < dz)%R else (- dz < d <= 0)%R.

Lemma trunc_lag v dz d s : (0 < dz)%R -> (0 <= s)%R -> lag_ok v dz d ->
  lag_ok v dz (d + v * s - IZR (Ztrunc ((d + v * s) / dz)) * dz).
Proof.
  unfold lag_ok. intros Hz Hs H. destruct (Rle_dec 0 v) as [V|V].
  - assert (P : (0 <= d + v * s)%R) by (assert (0 <= v * s)%R by (apply Rmult_le_pos; lra); lra).
    set (x := (d + v * s)%R) in *. assert (Q : (0 <= x / dz)%R) by (apply Rdiv_le_0_compat; auto).
    rewrite Ztrunc_floor by auto. pose proof (Zfloor_lb (x / dz)) as L. pose proof (Zfloor_ub (x / dz)) as U.
    assert (E : (x = x / dz * dz)%R) by (field; lra).
    split.
    + assert (IZR (Zfloor (x / dz)) * dz <= x / dz * dz)%R by (apply Rmult_le_compat_r; lra). lra.
    + assert (x / dz * dz < (IZR (Zfloor (x / dz)) + 1) * dz)%R by (apply Rmult_lt_compat_r; lra). lra.
  - assert (P : (d + v * s <= 0)%R).
    { assert (0 <= - v * s)%R by (apply Rmult_le_pos; lra). lra. }
    set (x := (d + v * s)%R) in *.
    assert (E : (x = x / dz * dz)%R) by (field; lra).
    assert (Q : (x / dz <= 0)%R).
    { apply Rmult_le_reg_r with dz; auto. rewrite <- E. lra. }
    rewrite Ztrunc_ceil by auto. pose proof (Zceil_ub (x / dz)) as L. pose proof (Zceil_lb (x / dz)) as U.
    split.
    + assert ((IZR (Zceil (x / dz)) - 1) * dz < x / dz * dz)%R by (apply Rmult_lt_compat_r; lra). lra.
    + assert (x / dz * dz <= IZR (Zceil (x / dz)) * dz)%R by (apply Rmult_le_compat_r; lra). lra.
Qed.

Definition winv (size : Z) (v dz z0 tl : R) (N : Z) (w0 w : Z -> wrank) : Prop :=
  (forall r, 0 <= r < size ->
     g_zmin (w r) = (z0 + IZR N * dz)%R /\ w_last (w r) = tl /\
     i_zmin (w r) = (i_zmin (w0 r) + IZR N * dz)%R /\ i_zmax (w r) = (i_zmax (w0 r) + IZR N * dz)%R) /\
  (exists z, w_zmin (w 0) = Some z /\ lag_ok v dz (z - (z0 + IZR N * dz)) /\
             exists t00, (z = z0 + v * (tl - t00))%R /\ t00 = w_last (w0 0)).

Lemma winv_move size v dz z0 tl N w0 w t : 1 <= size -> (0 < dz)%R -> (tl <= t)%R ->
  winv size v dz z0 tl N w0 w -> exists N', winv size v dz z0 t N' w0 (move_grids v dz t w).
Proof.
  intros Hs Hz Ht (A & z & W & L & t00 & E & E0).
  destruct (A 0 ltac:(lia)) as (G & T & _).
  set (n := Ztrunc ((z + v * (t - tl) - (z0 + IZR N * dz)) / dz)%R).
  assert (M : move_grids v dz t w =
    fun r => apply_move dz t (if r =? 0 then Some (z + v * (t - tl))%R else None) n (w r)).
  { unfold move_grids, advance. rewrite W, G, T. reflexivity. }
  exists (N + n). rewrite M. split.
  - intros r Hr. destruct (A r Hr) as (G' & T' & I0 & I1).
    assert (D : n = 0 -> (IZR n * dz = 0)%R) by (intros ->; lra).
    unfold apply_move. destruct (Z.eqb_spec n 0) as [N0|N0]; simpl; rewrite G', I0, I1, plus_IZR.
    + specialize (D N0). repeat split; lra.
    + repeat split; lra.
  - exists (z + v * (t - tl))%R. split; [reflexivity|]. split.
    + pose proof (trunc_lag v dz _ (t - tl) Hz ltac:(lra) L) as X.
      replace (z - (z0 + IZR N * dz) + v * (t - tl))%R with (z + v * (t - tl) - (z0 + IZR N * dz))%R in X by lra.
      fold n in X. rewrite plus_IZR.
      replace (z + v * (t - tl) - (z0 + (IZR N + IZR n) * dz))%R with
        (z + v * (t - tl) - (z0 + IZR N * dz) - IZR n * dz)%R by lra. exact X.
    + exists t00. split; [|exact E0]. rewrite E. lra.
Qed.

(** Non-decreasing sequence of times starting from [t]. *)
Fixpoint ascending (t : R) (l : list R) : Prop :=
  match l with [] => True | u :: l => (t <= u)%R /\ ascending u l end.

Lemma last_cons (t d : R) ts : last (t :: ts) d = last ts t.
Proof.
  revert t d. induction ts as [|a ts IH]; intros t d; [reflexivity|].
  change (last (t :: a :: ts) d) with (last (a :: ts) d). rewrite (IH a d), (IH a t). reflexivity.
Qed.

Lemma winv_moves size v dz z0 w0 : 1 <= size -> (0 < dz)%R -> forall ts tl N w,
  ascending tl ts -> winv size v dz z0 tl N w0 w ->
  exists N', winv size v dz z0 (last ts tl) N' w0 (moves v dz ts w).
Proof.
  intros Hs Hz. induction ts as [|t ts IH]; intros tl N w Ha Hw; [exists N; exact Hw|].
  destruct Ha as [Ht Ha]. destruct (winv_move _ _ _ _ _ _ _ _ _ Hs Hz Ht Hw) as [N' Hw'].
  destruct (IH t N' _ Ha Hw') as [N'' H]. exists N''.
  rewrite last_cons. exact H.
Qed.

Lemma C15_main b size v dz dt t0 gz iz0 iz1 ts w0 :
  1 <= size -> (0 < dz)%R ->
  (forall r, 0 <= r < size -> window_init b r size dt t0 gz (iz0 r) (iz1 r) = Ok (w0 r)) ->
  ascending (t0 - dt) ts ->
  exists N, forall r, 0 <= r < size ->
    g_zmin (moves v dz ts w0 r) = (gz + IZR N * dz)%R /\
    i_zmin (moves v dz ts w0 r) = (iz0 r + IZR N * dz)%R /\
    i_zmax (moves v dz ts w0 r) = (iz1 r + IZR N * dz)%R /\
    let nominal := (gz + v * (last ts (t0 - dt) - t0 + dt))%R in
    lag_ok v dz (nominal - g_zmin (moves v dz ts w0 r)).
Proof.
  intros Hs Hz HI HA.
  assert (I : forall r, 0 <= r < size -> w0 r = {| g_zmin := gz; i_zmin := iz0 r; i_zmax := iz1 r;
             w_zmin := if r =? 0 then Some gz else None; w_last := (t0 - dt)%R |}).
  { intros r Hr. specialize (HI r Hr). unfold window_init in HI.
    destruct (_ || _); [discriminate|]. congruence. }
  assert (W : winv size v dz gz (t0 - dt) 0 w0 w0).
  { split.
    - intros r Hr. rewrite (I r Hr). simpl. repeat split; lra.
    - exists gz. rewrite (I 0 ltac:(lia)). simpl. split; [reflexivity|]. split.
      + unfold lag_ok. destruct Rle_dec; lra.
      + exists (t0 - dt)%R. split; [lra|reflexivity]. }
  destruct (winv_moves size v dz gz w0 Hs Hz ts _ _ _ HA W) as (N & A & z & E & L & t00 & Ez & Et).
  exists N. intros r Hr. destruct (A r Hr) as (G & T & I0 & I1). rewrite G, I0, I1, (I r Hr). simpl.
  repeat split. rewrite (I 0 ltac:(lia)) in Et. simpl in Et. subst t00.
  replace (gz + v * (last ts (t0 - dt) - t0 + dt))%R with z by (rewrite Ez; lra). exact L.
Qed.

Lemma C15_init b rank size dt time gz iz0 iz1 : 1 <= size -> 0 <= rank < size ->
  (rank = 0 \/ rank = size - 1) ->
  (window_init b rank size dt time gz iz0 iz1 = Err ValueError <-> b = Periodic).
Proof.
  intros Hs Hr He. unfold window_init, left_proc, right_proc. destruct b.
  - split; [intros _; auto|intros _].
    destruct (Z.eqb_spec rank (size - 1)), (Z.eqb_spec rank 0); simpl; auto; lia.
  - split; [|discriminate].
    destruct (Z.eqb_spec rank (size - 1)), (Z.eqb_spec rank 0); simpl; intros; try discriminate.
Qed.

(** ** C16 *)
Lemma fftfreq_value N dz k : (0 < N)%nat -> (dz <> 0)%R -> (k < N)%nat ->
  exists q, (kz_true N dz k * dz = 2 * PI * IZR (Z.of_nat k + Z.of_nat N * q) / INR N)%R.
Proof.
  intros HN Hz Hk. assert (P : (0 < INR N)%R) by (apply lt_0_INR; auto).
  unfold kz_true, fftfreq. destruct (Nat.ltb_spec k ((N - 1) / 2 + 1)).
  - exists 0. rewrite Z.mul_0_r, Z.add_0_r, <- INR_IZR_INZ. field. lra.
  - exists (-1).
    replace (- (Z.of_nat N / 2) + (Z.of_nat k - Z.of_nat ((N - 1) / 2 + 1))) with (Z.of_nat k + Z.of_nat N * -1).
    + field. lra.
    + assert (H2 : Z.of_nat ((N - 1) / 2 + 1) = (Z.of_nat N - 1) / 2 + 1).
      { rewrite Nat2Z.inj_add, Nat2Z.inj_div, Nat2Z.inj_sub by lia. reflexivity. }
      rewrite H2. pose proof (Z.div_mod (Z.of_nat N) 2). pose proof (Z.div_mod (Z.of_nat N - 1) 2).
      pose proof (Z.mod_pos_bound (Z.of_nat N) 2). pose proof (Z.mod_pos_bound (Z.of_nat N - 1) 2). lia.
Qed.

Lemma field_shift_eq N dz k : (0 < N)%nat -> (dz <> 0)%R -> (k < N)%nat ->
  field_shift N dz k = cis (2 * PI * INR k / INR N).
Proof.
  intros HN Hz Hk. unfold field_shift. destruct (fftfreq_value N dz k HN Hz Hk) as [q ->].
  rewrite cis_mod by auto. rewrite (Z.mul_comm (Z.of_nat N)), Z.mod_add by lia.
  rewrite (Z.mod_small (Z.of_nat k)) by lia. rewrite (INR_IZR_INZ k). reflexivity.
Qed.

Lemma iter_mul t n : Nat.iter n (fun p => Cmult p (cis t)) (RtoC 1) = cis (t * INR n).
Proof. rewrite <- cpow_cis. induction n; cbn [Nat.iter cpow]; [reflexivity|]. simpl. f_equal. exact IHn. Qed.

Lemma power_shift_cis t n : power_shift (cis t) n = cis (t * IZR n).
Proof.
  unfold power_shift. rewrite iter_mul. destruct (Z.ltb_spec n 0).
  - rewrite <- cis_neg. f_equal. rewrite INR_IZR_INZ. replace (Z.of_nat (Z.abs_nat n)) with (- n) by lia.
    rewrite opp_IZR. ring.
  - f_equal. f_equal. rewrite INR_IZR_INZ. f_equal. lia.
Qed.

Lemma shift_add N dz n m k : (0 < N)%nat -> (dz <> 0)%R -> (k < N)%nat ->
  Cmult (power_shift (field_shift N dz k) n) (power_shift (field_shift N dz k) m)
  = power_shift (field_shift N dz k) (n + m).
Proof.
  intros. rewrite !field_shift_eq, !power_shift_cis, <- cis_add, plus_IZR by auto. f_equal. ring.
Qed.

Definition wrapZ (N : nat) (j : nat) (n : Z) : nat := Z.to_nat ((Z.of_nat j + n) mod Z.of_nat N).

Lemma idft_shift N dz (F : nat -> nat -> C) n ir j : (0 < N)%nat -> (dz <> 0)%R -> (j < N)%nat ->
  idft N (fun k => shift_spect_array (field_shift N dz) n F k ir) j
  = idft N (fun k => F k ir) (wrapZ N j n).
Proof.
  intros HN Hz Hj. assert (P : (0 < INR N)%R) by (apply lt_0_INR; auto).
  unfold idft. f_equal. apply csum_ext. intros k Hk. unfold shift_spect_array.
  rewrite field_shift_eq, power_shift_cis by auto. rewrite <- Cmult_assoc, <- cis_add. f_equal.
  transitivity (cis (2 * PI * IZR ((Z.of_nat j + n) * Z.of_nat k) / INR N)).
  - f_equal. rewrite mult_IZR, plus_IZR, <- !INR_IZR_INZ. field. lra.
  - rewrite cis_mod by auto. rewrite Z.mul_mod_idemp_l || rewrite <- Z.mul_mod_idemp_l by lia.
    rewrite <- cis_mod by auto. f_equal. rewrite mult_IZR, <- (INR_IZR_INZ k). unfold wrapZ.
    rewrite (INR_IZR_INZ (Z.to_nat _)). rewrite Z2Nat.id; [field; lra|].
    apply Z.mod_pos_bound; lia.
Qed.

Lemma C16_main use_pml N dz n (f : fname -> nat -> nat -> C) name ir j :
  (0 < N)%nat -> (dz <> 0)%R -> (j < N)%nat ->
  let spect := fun nm k i => dft N (fun z => f nm z i) k in
  let moved := shift_spect_grid use_pml true true (field_shift N dz) n spect in
  (match name with Rho_next => False | Ep_pml | Em_pml | Bp_pml | Bm_pml => use_pml = true | _ => True end) ->
  idft N (fun k => moved name k ir) j = f name (wrapZ N j n) ir.
Proof.
  intros HN Hz Hj spect moved Hs.
  assert (E : moved name = shift_spect_array (field_shift N dz) n (spect name)).
  { unfold moved, shift_spect_grid. destruct name; try reflexivity; try contradiction; rewrite Hs; reflexivity. }
  rewrite E, idft_shift by auto. unfold spect. 
  rewrite (idft_dft N (fun z => f name z ir)); [reflexivity|].
  unfold wrapZ. pose proof (Z.mod_pos_bound (Z.of_nat j + n) (Z.of_nat N) ltac:(lia)). lia.
Qed.
