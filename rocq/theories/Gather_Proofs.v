From Verif Require Import Base Shape_Model Gather_Model Gather_Spec.
From Coq Require Import Reals Lra Lia.
From Coquelicot Require Import Complex.
From Flocq Require Import Core.Raux.
Open Scope R_scope.

Lemma cacc_const s t f : cacc s f (Cmult (RtoC t) f) = Cmult (RtoC (t + s)) f.
Proof. unfold cacc. rewrite RtoC_plus. ring. Qed.
Lemma cacc_first s f : cacc s f (RtoC 0) = Cmult (RtoC s) f.
Proof. unfold cacc. ring. Qed.
(** Gathering a field that is constant on the grid: only the weight of the cells below the axis matters. *)
Definition const_result (m : nat) (F : R * R * R) (ex a b d : C) (gd : R) : R * R * R :=
  add_mode m F (Cmult (RtoC (1 - gd * (1 + (-1) ^ m))) a, Cmult (RtoC (1 - gd * (1 + (-1) ^ m))) b, Cmult (RtoC (1 - gd * (1 - (-1) ^ m))) d) ex.

Section Const.
Context (g : ggrid) (dz dr rmax : R) (G : regular g dz dr).
Context (rj z : R) (Hr0 : 0 <= rj) (Hr1 : rj < rmax <= IZR (gg_Nr g) * dr) (Hz : gg_zmin g <= z <= gg_zmin g + IZR (gg_Nz g) * dz).
Lemma rcell : -1 / 2 <= gg_invdr g * (rj - gg_rmin g) - 0.5 < IZR (gg_Nr g) - 1 / 2.
Proof.
  destruct G as (D1 & D2 & I1 & I2 & R0 & _). rewrite I2, R0. rewrite Rminus_0_r. assert (P : 0 < / dr) by (apply Rinv_0_lt_compat; assumption).
  assert (A : 0 <= 1 / dr * rj) by (unfold Rdiv; nra). assert (B : 1 / dr * rj < IZR (gg_Nr g)).
  { apply Rmult_lt_reg_r with dr; [assumption|]. replace (1 / dr * rj * dr) with rj by (field; lra). lra. }
  lra.
Qed.
Lemma zcell : -1 / 2 <= gg_invdz g * (z - gg_zmin g) - 0.5 <= IZR (gg_Nz g) - 1 / 2.
Proof.
  destruct G as (D1 & D2 & I1 & I2 & R0 & _). rewrite I1. assert (P : 0 < / dz) by (apply Rinv_0_lt_compat; assumption).
  assert (A : 0 <= 1 / dz * (z - gg_zmin g)) by (unfold Rdiv; nra). assert (B : 1 / dz * (z - gg_zmin g) <= IZR (gg_Nz g)).
  { apply Rmult_le_reg_r with dz; [assumption|]. replace (1 / dz * (z - gg_zmin g) * dz) with (z - gg_zmin g) by (field; lra). lra. }
  lra.
Qed.
Lemma floor_range x N : (1 <= N)%Z -> -1 / 2 <= x <= IZR N - 1 / 2 -> (-1 <= Zfloor x <= N - 1)%Z.
Proof.
  intros HN [H1 H2]. split.
  - apply Zfloor_lub. lra.
  - assert (A : (Zfloor x < N)%Z); [|lia]. apply lt_IZR. assert (B := Zfloor_lb x). lra.
Qed.
Context (fld : mfield) (a b d : C) (Ha : equal_to g (f_r fld) a) (Hb : equal_to g (f_t fld) b) (Hd : equal_to g (f_z fld) d).

Lemma linear_const ex m F : exists gd, linear_mode g rj z ex m fld F = const_result m F ex a b d gd.
Proof.
  assert (Rc := rcell). assert (Zc := zcell). unfold linear_mode.
  set (r_cell := gg_invdr g * (rj - gg_rmin g) - 0.5) in *. set (z_cell := gg_invdz g * (z - gg_zmin g) - 0.5) in *.
  destruct G as (_ & _ & _ & _ & _ & Nz2 & Nr2).
  assert (FR := floor_range r_cell (gg_Nr g) ltac:(lia) ltac:(lra)). assert (FZ := floor_range z_cell (gg_Nz g) ltac:(lia) ltac:(lra)).
  rewrite !plus_IZR. set (kr := Zfloor r_cell) in *. set (kz := Zfloor z_cell) in *.
  assert (Bz : forall k, (-1 <= k <= gg_Nz g)%Z -> let k1 := if (k <? 0)%Z then (k + gg_Nz g)%Z else k in
     (0 <= (if (k1 >? gg_Nz g - 1)%Z then (k1 - gg_Nz g)%Z else k1) < gg_Nz g)%Z).
  { intros k Hk. cbv zeta. rewrite !Z.gtb_ltb. destruct (Z.ltb_spec k 0); match goal with |- context [(?u <? ?v)%Z] => destruct (Z.ltb_spec u v) end; lia. }
  assert (B1 := Bz kz ltac:(lia)). assert (B2 := Bz (kz + 1)%Z ltac:(lia)). clear Bz. cbv zeta in B1, B2.
  match type of B1 with (_ <= ?t < _)%Z => set (z1 := t) in * end. match type of B2 with (_ <= ?t < _)%Z => set (z2 := t) in * end.
  destruct (Z.ltb_spec kr 0) as [Neg|Pos].
  - exists (IZR kr + 1 - r_cell). assert (kr = -1)%Z by lia. replace (kr + 1)%Z with 0%Z by lia.
    replace (0 >? gg_Nr g - 1)%Z with false by (rewrite Z.gtb_ltb; symmetry; apply Z.ltb_ge; lia).
    unfold add_linear_gather_for_mode. cbn [Z.eqb andb]. unfold const_result.
    rewrite !(Ha z1 0%Z), !(Ha z2 0%Z), !(Hb z1 0%Z), !(Hb z2 0%Z), !(Hd z1 0%Z), !(Hd z2 0%Z) by lia.
    rewrite !cacc_first, !cacc_const.
    f_equal. replace (IZR kr) with (-1) by (rewrite H; reflexivity). f_equal; [f_equal|]; f_equal; f_equal; ring.
  - exists 0. unfold add_linear_gather_for_mode.
    assert (C1 : (0 <= (if (kr >? gg_Nr g - 1)%Z then (gg_Nr g - 1)%Z else kr) < gg_Nr g)%Z) by (rewrite Z.gtb_ltb; destruct (Z.ltb_spec (gg_Nr g - 1) kr); lia).
    assert (C2 : (0 <= (if (kr + 1 >? gg_Nr g - 1)%Z then (gg_Nr g - 1)%Z else kr + 1) < gg_Nr g)%Z) by (rewrite Z.gtb_ltb; destruct (Z.ltb_spec (gg_Nr g - 1) (kr + 1)); lia).
    match type of C1 with (_ <= ?t < _)%Z => set (r1 := t) in * end. match type of C2 with (_ <= ?t < _)%Z => set (r2 := t) in * end.
    unfold const_result.
    rewrite !(Ha z1 r1), !(Ha z2 r1), !(Ha z1 r2), !(Ha z2 r2), !(Hb z1 r1), !(Hb z2 r1), !(Hb z1 r2), !(Hb z2 r2), !(Hd z1 r1), !(Hd z2 r1), !(Hd z1 r2), !(Hd z2 r2) by lia.
    rewrite (Ha z1 0%Z), (Ha z2 0%Z), (Hb z1 0%Z), (Hb z2 0%Z), (Hd z1 0%Z), (Hd z2 0%Z) by lia.
    destruct ((r1 =? r2) && (r2 =? 0))%Z; rewrite !cacc_first, !cacc_const; f_equal; (f_equal; [f_equal|]; f_equal; f_equal; ring).
Qed.

Lemma cubic_sum l : cubic_S l 0 + cubic_S l 1 + cubic_S l 2 + cubic_S l 3 = 1.
Proof. unfold cubic_S. field. Qed.
Lemma cubic_const ex m F : exists gd, cubic_mode g rj z ex m fld F = const_result m F ex a b d gd.
Proof.
  assert (Rc := rcell). assert (Zc := zcell). unfold cubic_mode.
  set (r_cell := gg_invdr g * (rj - gg_rmin g) - 0.5) in *. set (z_cell := gg_invdz g * (z - gg_zmin g) - 0.5) in *.
  destruct G as (_ & _ & _ & _ & _ & Nz2 & Nr2).
  assert (FR := floor_range r_cell (gg_Nr g) ltac:(lia) ltac:(lra)). assert (FZ := floor_range z_cell (gg_Nz g) ltac:(lia) ltac:(lra)).
  set (kr := Zfloor r_cell) in *. set (kz := Zfloor z_cell) in *.
  assert (SR := cubic_sum (r_cell - IZR (kr - 1))). assert (SZ := cubic_sum (z_cell - IZR (kz - 1))).
  set (Sr := cubic_S (r_cell - IZR (kr - 1))) in *. set (Sz := cubic_S (z_cell - IZR (kz - 1))) in *.
  assert (Az : forall k, (0 <= k <= 3)%Z -> (0 <= adjust_z (gg_Nz g) (kz - 1 + k) < gg_Nz g)%Z).
  { intros k Hk. unfold adjust_z. rewrite !Z.gtb_ltb. destruct (Z.ltb_spec (kz - 1 + k) 0), (Z.ltb_spec (gg_Nz g - 1) (kz - 1 + k)); lia. }
  assert (Ar : forall k, (0 <= k <= 3)%Z -> (0 <= adjust_r (gg_Nr g) (kr - 1 + k) < gg_Nr g)%Z).
  { intros k Hk. unfold adjust_r. rewrite !Z.gtb_ltb. destruct (Z.ltb_spec (kr - 1 + k) 0), (Z.ltb_spec (gg_Nr g - 1) (kr - 1 + k)); lia. }
  unfold add_cubic_gather_for_mode, const_result. change (range 4) with [0; 1; 2; 3]%Z. cbn [fold_left].
  exists (fold_right (fun k s => (if (kr - 1 + k <? 0)%Z then Sr k else 0) + s) 0 [0; 1; 2; 3]%Z). cbn [fold_right].
  assert (S0 : Sz 0%Z = 1 - Sz 1%Z - Sz 2%Z - Sz 3%Z) by lra. assert (S1 : Sr 0%Z = 1 - Sr 1%Z - Sr 2%Z - Sr 3%Z) by lra.
  set (z0 := adjust_z (gg_Nz g) (kz - 1 + 0)) in *. set (z1 := adjust_z (gg_Nz g) (kz - 1 + 1)) in *. set (z2 := adjust_z (gg_Nz g) (kz - 1 + 2)) in *. set (z3 := adjust_z (gg_Nz g) (kz - 1 + 3)) in *.
  set (r0 := adjust_r (gg_Nr g) (kr - 1 + 0)) in *. set (r1 := adjust_r (gg_Nr g) (kr - 1 + 1)) in *. set (r2 := adjust_r (gg_Nr g) (kr - 1 + 2)) in *. set (r3 := adjust_r (gg_Nr g) (kr - 1 + 3)) in *.
  assert (Z0 := Az 0%Z ltac:(lia)). assert (Z1 := Az 1%Z ltac:(lia)). assert (Z2 := Az 2%Z ltac:(lia)). assert (Z3 := Az 3%Z ltac:(lia)).
  assert (R0 := Ar 0%Z ltac:(lia)). assert (R1 := Ar 1%Z ltac:(lia)). assert (R2 := Ar 2%Z ltac:(lia)). assert (R3 := Ar 3%Z ltac:(lia)).
  fold z0 in Z0. fold z1 in Z1. fold z2 in Z2. fold z3 in Z3. fold r0 in R0. fold r1 in R1. fold r2 in R2. fold r3 in R3. clear Az Ar.
  assert (FA : forall i j, (0 <= i < gg_Nz g)%Z -> (0 <= j < gg_Nr g)%Z -> f_r fld i j = a /\ f_t fld i j = b /\ f_z fld i j = d) by (intros; auto).
  repeat match goal with |- context [f_r fld ?i ?j] => destruct (FA i j ltac:(assumption) ltac:(assumption)) as (-> & -> & ->) end.
  set (q := (-1) ^ m). set (u0 := (kr - 1 + 0 <? 0)%Z). set (u1 := (kr - 1 + 1 <? 0)%Z). set (u2 := (kr - 1 + 2 <? 0)%Z). set (u3 := (kr - 1 + 3 <? 0)%Z).
  rewrite !cacc_first, !cacc_const.
  rewrite S0. clearbody u0 u1 u2 u3. clear - S1. generalize dependent (Sr 0%Z). intros s0 ->.
  f_equal. f_equal; [f_equal|]; f_equal; f_equal; destruct u0, u1, u2, u3; ring.
Qed.
Lemma shape_const sh ex m F : exists gd, shape_mode sh g rj z ex m fld F = const_result m F ex a b d gd.
Proof. destruct sh; [apply linear_const|apply cubic_const]. Qed.
End Const.

(** The modes of a uniform field: whatever the guard weight, each mode gives its exact contribution. *)
Definition mode_part (Fx Fy Fz : R) (co si : R) (m : nat) : R * R * R :=
  match m with 0%nat => (0, 0, Fz) | 1%nat => (Fx * co + Fy * si, Fy * co - Fx * si, 0) | _ => (0, 0, 0) end.
Lemma mode_gives g dz dr rmax rj z sh co si Fx Fy Fz m fld F :
  regular g dz dr -> 0 <= rj -> rj < rmax <= IZR (gg_Nr g) * dr -> gg_zmin g <= z <= gg_zmin g + IZR (gg_Nz g) * dz ->
  equal_to g (f_r fld) (match m with 1%nat => (Fx / 2, Fy / 2) | _ => RtoC 0 end) ->
  equal_to g (f_t fld) (match m with 1%nat => (Fy / 2, - Fx / 2) | _ => RtoC 0 end) ->
  equal_to g (f_z fld) (match m with 0%nat => RtoC Fz | _ => RtoC 0 end) ->
  shape_mode sh g rj z (Cpow_nat (co, - si) m) m fld F = vadd F (mode_part Fx Fy Fz co si m).
Proof.
  intros G R0 R1 Z0 H1 H2 H3. destruct F as [[f1 f2] f3].
  destruct (shape_const g dz dr rmax G rj z R0 R1 Z0 fld _ _ _ H1 H2 H3 sh (Cpow_nat (co, - si) m) m (f1, f2, f3)) as [gd ->].
  unfold const_result, add_mode. destruct m as [|[|m]]; cbn [mode_part vadd Cpow_nat pow].
  - f_equal; [f_equal|]; cbn; field.
  - f_equal; [f_equal|]; cbn; field.
  - generalize (Cmult (co, - si) (Cmult (co, - si) (Cpow_nat (co, - si) m))). intros [e1 e2].
    generalize (-1 * (-1 * (-1) ^ m)). intros q. f_equal; [f_equal|]; cbn; ring.
Qed.
Lemma cylindrical_spec x y : let '(rj, co, si) := cylindrical x y in rj = sqrt (x ^ 2 + y ^ 2) /\ 0 <= rj /\ co * co + si * si = 1.
Proof.
  unfold cylindrical. assert (P := sqrt_pos (x ^ 2 + y ^ 2)). destruct (Req_EM_T (sqrt (x ^ 2 + y ^ 2)) 0) as [E|E].
  - split; [reflexivity|]. split; [exact P|]. ring.
  - split; [reflexivity|]. split; [exact P|]. assert (Q := sqrt_sqrt (x ^ 2 + y ^ 2) ltac:(nra)). set (r := sqrt _) in *.
    replace (x * (1 / r) * (x * (1 / r)) + y * (1 / r) * (y * (1 / r))) with ((x ^ 2 + y ^ 2) * (/ r * / r)) by (unfold Rdiv; ring). rewrite <- Q. field. exact E.
Qed.
Lemma cart_vadd co si a b : cart co si (vadd a b) = vadd (cart co si a) (cart co si b).
Proof. destruct a as [[]], b as [[]]. cbn. f_equal. f_equal; ring. Qed.
Lemma vadd_0 a : vadd a (0, 0, 0) = a.
Proof. destruct a as [[]]. cbn. f_equal; [f_equal|]; ring. Qed.
Lemma vadd_l0 a : vadd (0, 0, 0) a = a.
Proof. destruct a as [[]]. cbn. f_equal; [f_equal|]; ring. Qed.
Lemma high_modes sh g dz dr rmax rj z co si (Fx Fy Fz : R) l : forall m acc, (2 <= m)%nat ->
  regular g dz dr -> 0 <= rj -> rj < rmax <= IZR (gg_Nr g) * dr -> gg_zmin g <= z <= gg_zmin g + IZR (gg_Nz g) * dz ->
  (forall k fld, nth_error l k = Some fld -> equal_to g (f_r fld) (RtoC 0) /\ equal_to g (f_t fld) (RtoC 0) /\ equal_to g (f_z fld) (RtoC 0)) ->
  snd (fold_left (fun '(m, acc) fld => (S m, if Rlt_dec rj rmax then vadd acc (cart co si (shape_mode sh g rj z (Cpow_nat (co, - si) m) m fld (0, 0, 0))) else acc)) l (m, acc)) = acc.
Proof.
  induction l as [|fld l IH]; intros m acc Hm G R0 R1 Z0 H; [reflexivity|]. cbn [fold_left]. rewrite IH; try assumption; [|lia|intros k f Hk; apply (H (S k)); exact Hk].
  destruct (Rlt_dec rj rmax); [|reflexivity]. destruct (H 0%nat fld eq_refl) as (A & B & D). destruct m as [|[|m]]; [lia|lia|].
  rewrite (mode_gives g dz dr rmax rj z sh co si Fx Fy Fz (S (S m)) fld (0, 0, 0)); try assumption. cbn [mode_part]. rewrite vadd_0. destruct acc as [[]]. cbn. f_equal; [f_equal|]; ring.
Qed.
Lemma gather_uniform sh g dz dr rmax modes x y z Fx Fy Fz :
  regular g dz dr -> in_box g dz dr rmax x y z -> uniform_modes g Fx Fy Fz modes ->
  (2 <= length modes)%nat \/ (length modes = 1%nat /\ Fx = 0 /\ Fy = 0) -> gather_field sh g rmax modes x y z = (Fx, Fy, Fz).
Proof.
  intros G [Z0 R1] U L. unfold gather_field. assert (CS := cylindrical_spec x y). destruct (cylindrical x y) as [[rj co] si]. destruct CS as (E & R0 & CS). rewrite <- E in R1.
  assert (M : forall m fld F, nth_error modes m = Some fld -> shape_mode sh g rj z (Cpow_nat (co, - si) m) m fld F = vadd F (mode_part Fx Fy Fz co si m)).
  { intros m fld F N. destruct (U m fld N) as (A & B & D). apply mode_gives with dz dr rmax; assumption. }
  assert (X : co * (Fx * co + Fy * si) - si * (Fy * co - Fx * si) = Fx) by (replace Fx with (Fx * (co * co + si * si)) at 3 by (rewrite CS; ring); ring).
  assert (Y : si * (Fx * co + Fy * si) + co * (Fy * co - Fx * si) = Fy) by (replace Fy with (Fy * (co * co + si * si)) at 3 by (rewrite CS; ring); ring).
  assert (V2 : cart co si (vadd (vadd (0, 0, 0) (mode_part Fx Fy Fz co si 0)) (mode_part Fx Fy Fz co si 1)) = (Fx, Fy, Fz)).
  { cbn [mode_part vadd cart]. rewrite !Rplus_0_l, X, Y, Rplus_0_r. reflexivity. }
  destruct modes as [|m0 [|m1 rest]].
  - cbn [length] in L. exfalso. destruct L as [L|[L _]]; [lia|discriminate].
  - destruct L as [L|(_ & -> & ->)]; [cbn in L; lia|]. cbn [fold_left snd]. destruct (Rlt_dec rj rmax) as [_|N]; [|exfalso; lra].
    rewrite (M 0%nat m0 _ eq_refl). cbn [mode_part vadd cart]. f_equal; [f_equal|]; ring.
  - assert (M0 := M 0%nat m0 (0, 0, 0) eq_refl). assert (M1 := fun F => M 1%nat m1 F eq_refl).
    destruct rest as [|m2 rest].
    + destruct (Rlt_dec rj rmax) as [_|N]; [|exfalso; lra]. change (RtoC 1) with (Cpow_nat (co, - si) 0). rewrite M0.
      replace (co, - si) with (Cpow_nat (co, - si) 1) by (cbn [Cpow_nat]; apply Cmult_1_r). rewrite M1. exact V2.
    + cbn [fold_left]. change (snd (fold_left (fun '(m, acc) fld => (S m, if Rlt_dec rj rmax then vadd acc (cart co si (shape_mode sh g rj z (Cpow_nat (co, - si) m) m fld (0, 0, 0))) else acc)) (m2 :: rest)
        (2%nat, if Rlt_dec rj rmax then vadd (if Rlt_dec rj rmax then vadd (0, 0, 0) (cart co si (shape_mode sh g rj z (Cpow_nat (co, - si) 0) 0 m0 (0, 0, 0))) else (0, 0, 0)) (cart co si (shape_mode sh g rj z (Cpow_nat (co, - si) 1) 1 m1 (0, 0, 0)))
          else (if Rlt_dec rj rmax then vadd (0, 0, 0) (cart co si (shape_mode sh g rj z (Cpow_nat (co, - si) 0) 0 m0 (0, 0, 0))) else (0, 0, 0)))) = (Fx, Fy, Fz)).
      rewrite (high_modes sh g dz dr rmax rj z co si Fx Fy Fz); try assumption; [|lia|intros k f Hk; exact (U (S (S k)) f Hk)].
      destruct (Rlt_dec rj rmax) as [_|N]; [|exfalso; lra]. rewrite M0, M1. rewrite !vadd_l0, <- cart_vadd. rewrite vadd_l0 in V2. exact V2.
Qed.
Lemma gather_outside sh g rmax modes x y z : rmax <= sqrt (x ^ 2 + y ^ 2) -> gather_field sh g rmax modes x y z = (0, 0, 0).
Proof.
  intros H. unfold gather_field. assert (CS := cylindrical_spec x y). destruct (cylindrical x y) as [[rj co] si]. destruct CS as (E & R0 & CS). rewrite <- E in H.
  assert (K : forall l m, snd (fold_left (fun '(m, acc) fld => (S m, if Rlt_dec rj rmax then vadd acc (cart co si (shape_mode sh g rj z (Cpow_nat (co, - si) m) m fld (0, 0, 0))) else acc)) l (m, (0, 0, 0))) = (0, 0, 0)).
  { induction l as [|f l IH]; intros m; [reflexivity|]. cbn [fold_left]. destruct (Rlt_dec rj rmax); [lra|]. apply IH. }
  destruct modes as [|m0 [|m1 [|m2 r]]]; try apply K. destruct (Rlt_dec rj rmax); [lra|]. cbn. f_equal. f_equal; ring.
Qed.
