From Verif Require Import Base Decomp_Model Mirror_Model Damp_Model.
From Coq Require Import Reals Lra Lia.
From Coquelicot Require Import Complex.
Open Scope R_scope.

Section Factors.
Context (ng nd ni : Z) (Hg : (0 <= ng)%Z) (Hd : (0 <= nd)%Z) (Hi : (0 <= ni)%Z).
Notation F := (generate_damp_array ng nd ni).
Lemma F_zero i : (i < ng + ni)%Z -> F i = 0.
Proof. intros H. unfold generate_damp_array. rewrite (proj2 (Z.ltb_lt _ _)) by assumption. reflexivity. Qed.
Lemma F_one i : (2 * (ng + ni) + nd <= 2 * i)%Z -> F i = 1.
Proof.
  intros H. unfold generate_damp_array. rewrite (proj2 (Z.ltb_ge _ _)) by lia.
  destruct (Rlt_dec _ _) as [L|]; [|reflexivity]. apply IZR_le in H. rewrite plus_IZR, !mult_IZR, plus_IZR in H. lra.
Qed.
Lemma F_sin i : (ng + ni <= i)%Z -> (2 * i < 2 * (ng + ni) + nd)%Z ->
  F i = sin (IZR (i - (ng + ni)) * PI / IZR nd) ^ 2 /\ 0 <= IZR (i - (ng + ni)) * PI / IZR nd <= PI / 2.
Proof.
  intros H1 H2. assert (D : 0 < IZR nd) by (apply (IZR_lt 0); lia). assert (Pi := PI_RGT_0). split.
  - unfold generate_damp_array. rewrite (proj2 (Z.ltb_ge _ _)) by lia. apply IZR_lt in H2. rewrite plus_IZR, !mult_IZR, plus_IZR in H2.
    destruct (Rlt_dec _ _) as [L|]; [|lra]. rewrite minus_IZR, plus_IZR. do 2 f_equal. field. lra.
  - assert (A : 0 <= IZR (i - (ng + ni))) by (apply (IZR_le 0); lia).
    assert (B : 2 * IZR (i - (ng + ni)) <= IZR nd) by (rewrite <- (mult_IZR 2); apply IZR_le; lia). split.
    + apply Rmult_le_pos; [apply Rmult_le_pos; lra|left; apply Rinv_0_lt_compat; assumption].
    + apply Rmult_le_reg_r with (IZR nd); [assumption|]. unfold Rdiv. rewrite Rmult_assoc, Rinv_l by lra. nra.
Qed.
Lemma F_range i : 0 <= F i <= 1.
Proof.
  destruct (Z_lt_le_dec i (ng + ni)) as [L|L]; [rewrite F_zero by assumption; lra|].
  destruct (Z_lt_le_dec (2 * i) (2 * (ng + ni) + nd)) as [M|M]; [|rewrite F_one by assumption; lra].
  destruct (F_sin i L M) as [-> _]. assert (S := SIN_bound (IZR (i - (ng + ni)) * PI / IZR nd)). nra.
Qed.
Lemma F_mono i j : (i <= j)%Z -> F i <= F j.
Proof.
  intros H. destruct (Z_lt_le_dec i (ng + ni)) as [L|L]; [rewrite (F_zero i) by assumption; apply F_range|].
  destruct (Z_lt_le_dec (2 * j) (2 * (ng + ni) + nd)) as [M|M]; [|rewrite (F_one j) by assumption; apply F_range].
  destruct (F_sin i L ltac:(lia)) as [-> [A1 A2]], (F_sin j ltac:(lia) M) as [-> [B1 B2]].
  assert (D : 0 < IZR nd) by (apply (IZR_lt 0); lia). assert (Pi := PI_RGT_0).
  assert (LE : IZR (i - (ng + ni)) * PI / IZR nd <= IZR (j - (ng + ni)) * PI / IZR nd).
  { unfold Rdiv. apply Rmult_le_compat_r; [left; apply Rinv_0_lt_compat; assumption|]. apply Rmult_le_compat_r; [lra|]. apply IZR_le. lia. }
  assert (S1 : 0 <= sin (IZR (i - (ng + ni)) * PI / IZR nd)) by (apply sin_ge_0; lra).
  assert (S2 : sin (IZR (i - (ng + ni)) * PI / IZR nd) <= sin (IZR (j - (ng + ni)) * PI / IZR nd)) by (apply sin_incr_1; lra).
  nra.
Qed.
End Factors.

Lemma Cmod_scale z r : 0 <= r <= 1 -> Cmod (Cmult z (RtoC r)) <= Cmod z.
Proof. intros H. rewrite Cmod_mult, Cmod_R, Rabs_pos_eq by lra. assert (P := Cmod_ge_0 z). nra. Qed.

(** Effect of the longitudinal damping: one factor per row *)
Definition row_factor (c : comm) (Nz iz : Z) : R :=
  if (c_nzdamp c =? 0)%Z then 1 else
  (match c_left c with None => generate_damp_array (c_nguard c) (c_nzdamp c) (c_ninject c) iz | Some _ => 1 end) *
  (match c_right c with None => generate_damp_array (c_nguard c) (c_nzdamp c) (c_ninject c) (Nz - 1 - iz) | Some _ => 1 end).
Lemma Cmult_RR z a b : Cmult (Cmult z (RtoC a)) (RtoC b) = Cmult z (RtoC (a * b)).
Proof. rewrite RtoC_mult. ring. Qed.
Lemma damp_rows c Nz g : (0 <= c_nguard c)%Z -> (0 <= c_nzdamp c)%Z -> (0 <= c_ninject c)%Z -> (c_nguard c + c_nzdamp c + c_ninject c <= Nz)%Z ->
  exists g', damp_EB_open_boundary c Nz g = Ok g' /\ ig_pml g' = ig_pml g /\ ig_dz g' = ig_dz g /\
  forall f iz ir, ig_arr g' f iz ir = if damped f (ig_pml g) then Cmult (ig_arr g f iz ir) (RtoC (row_factor c Nz iz)) else ig_arr g f iz ir.
Proof.
  intros H1 H2 H3 H4. unfold damp_EB_open_boundary, row_factor.
  assert (U : forall x, Cmult x (RtoC 1) = x) by (intros; ring).
  destruct (Z.eqb_spec (c_nzdamp c) 0) as [E0|E0].
  { exists g. split; [reflexivity|]. split; [reflexivity|]. split; [reflexivity|]. intros. destruct (damped _ _); [rewrite U|]; reflexivity. }
  rewrite (proj2 (Z.ltb_ge _ _)) by assumption. set (nd := (c_nguard c + c_nzdamp c + c_ninject c)%Z) in *.
  assert (FR : forall i, (nd <= i)%Z -> generate_damp_array (c_nguard c) (c_nzdamp c) (c_ninject c) i = 1) by (intros; apply F_one; unfold nd in *; lia).
  destruct (c_left c), (c_right c); cbn [bind]; eexists; (split; [reflexivity|]); (split; [reflexivity|]); (split; [reflexivity|]);
    intros f iz ir; cbn [ig_arr ig_pml]; destruct (damped f (ig_pml g)); cbn [andb]; try reflexivity; rewrite ?Rmult_1_l, ?Rmult_1_r.
  - rewrite U. reflexivity.
  - replace (nd - 1 - (iz - (Nz - nd)))%Z with (Nz - 1 - iz)%Z by lia. destruct (Z.leb_spec (Nz - nd) iz); [reflexivity|]. rewrite FR by lia. rewrite U. reflexivity.
  - destruct (Z.ltb_spec iz nd); [reflexivity|]. rewrite FR by lia. rewrite U. reflexivity.
  - replace (nd - 1 - (iz - (Nz - nd)))%Z with (Nz - 1 - iz)%Z by lia.
    destruct (Z.leb_spec (Nz - nd) iz), (Z.ltb_spec iz nd); rewrite ?(FR iz) by lia; rewrite ?(FR (Nz - 1 - iz)%Z) by lia; rewrite ?Rmult_1_l, ?Rmult_1_r, ?U, ?Cmult_RR; reflexivity.
Qed.
Lemma row_range c Nz iz : (0 <= c_nguard c)%Z -> (0 <= c_nzdamp c)%Z -> (0 <= c_ninject c)%Z -> 0 <= row_factor c Nz iz <= 1.
Proof.
  intros H1 H2 H3. unfold row_factor. destruct (c_nzdamp c =? 0)%Z; [lra|].
  assert (A := F_range (c_nguard c) (c_nzdamp c) (c_ninject c) H2 iz). assert (B := F_range (c_nguard c) (c_nzdamp c) (c_ninject c) H2 (Nz - 1 - iz)%Z).
  destruct (c_left c), (c_right c); nra.
Qed.

(** PML *)
Lemma pml_range n k i : 0 <= k -> 0 < generate_pml_damp_array n k i <= 1.
Proof.
  intros H. unfold generate_pml_damp_array. set (x := IZR i * 1 / IZR n). split; [apply exp_pos|].
  rewrite <- exp_0. assert (Q : -4 * k * x ^ 2 <= 0) by (assert (P := pow2_ge_0 x); nra).
  destruct (Rle_lt_or_eq_dec _ _ Q) as [L|E]; [left; apply exp_increasing; assumption|right; rewrite E; reflexivity].
Qed.
Lemma pml_mono n k i j : 0 <= k -> (0 < n)%Z -> (0 <= i <= j)%Z -> generate_pml_damp_array n k j <= generate_pml_damp_array n k i.
Proof.
  intros H N [I J]. unfold generate_pml_damp_array. apply (IZR_le 0) in I. apply IZR_le in J. assert (P : 0 < / IZR n) by (apply Rinv_0_lt_compat, (IZR_lt 0); assumption).
  assert (Q : (IZR i * 1 / IZR n) ^ 2 <= (IZR j * 1 / IZR n) ^ 2).
  { unfold Rdiv. rewrite !Rmult_1_r. apply pow_incr. split; [nra|]. apply Rmult_le_compat_r; lra. }
  assert (Q' : -4 * k * (IZR j * 1 / IZR n) ^ 2 <= -4 * k * (IZR i * 1 / IZR n) ^ 2) by nra.
  destruct (Rle_lt_or_eq_dec _ _ Q') as [L|E]; [left; apply exp_increasing; assumption|right; rewrite E; reflexivity].
Qed.

Lemma scale_at c0 d F a f iz ir : scale_cols c0 d F a f iz ir = if same f F && (c0 <=? ir)%Z then Cmult (a F iz ir) (RtoC (d (ir - c0)%Z)) else a f iz ir.
Proof. reflexivity. Qed.
Lemma add_at c0 F P a f iz ir : add_cols c0 F P a f iz ir = if same f F && (c0 <=? ir)%Z then Cplus (a F iz ir) (a P iz ir) else a f iz ir.
Proof. reflexivity. Qed.
Lemma sub_at c0 F P a f iz ir : sub_cols c0 F P a f iz ir = if same f F && (c0 <=? ir)%Z then Cminus (a F iz ir) (a P iz ir) else a f iz ir.
Proof. reflexivity. Qed.
Ltac read := repeat (rewrite scale_at || rewrite add_at || rewrite sub_at; cbn [same andb]).
Lemma pml_effect n Nr k g iz ir : let d := generate_pml_damp_array n k in let g' := damp_pml_EB n Nr k g in
  let s := if (Nr - n <=? ir)%Z then d (ir - (Nr - n))%Z else 1 in
  ig_arr g' Ez iz ir = Cmult (ig_arr g Ez iz ir) (RtoC s) /\ ig_arr g' Bz iz ir = Cmult (ig_arr g Bz iz ir) (RtoC s) /\
  ig_arr g' Et_pml iz ir = Cmult (ig_arr g Et_pml iz ir) (RtoC s) /\ ig_arr g' Bt_pml iz ir = Cmult (ig_arr g Bt_pml iz ir) (RtoC s) /\
  Cminus (ig_arr g' Et iz ir) (ig_arr g' Et_pml iz ir) = Cminus (ig_arr g Et iz ir) (ig_arr g Et_pml iz ir) /\
  Cminus (ig_arr g' Bt iz ir) (ig_arr g' Bt_pml iz ir) = Cminus (ig_arr g Bt iz ir) (ig_arr g Bt_pml iz ir) /\
  forall f, match f with Er | Br | Er_pml | Br_pml | Other _ => ig_arr g' f iz ir = ig_arr g f iz ir | _ => True end.
Proof.
  cbv zeta. unfold damp_pml_EB. cbn [ig_arr]. set (d := generate_pml_damp_array n k). set (c0 := (Nr - n)%Z). clearbody d c0.
  read. destruct (c0 <=? ir)%Z; cbn [andb].
  - repeat (split; [try reflexivity; ring|]). intros []; try exact I; read; reflexivity.
  - repeat (split; [try reflexivity; ring|]). intros []; try exact I; read; reflexivity.
Qed.
