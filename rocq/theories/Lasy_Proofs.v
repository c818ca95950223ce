From Coq Require Import ZArith List Reals Lra Lia String.
From Coquelicot Require Import Complex.
From Flocq Require Import Core.
From Verif Require Import Base Fourier_Lib Lasy_Model Lasy_Spec.
Import ListNotations.
Open Scope R_scope.

Lemma tent_0 u : u <= -1 \/ 1 <= u -> tent u = 0.
Proof. intros H. unfold tent. apply Rmax_left. destruct H; [rewrite Rabs_left by lra|rewrite Rabs_right by lra]; lra. Qed.
Lemma tent_pos u : 0 <= u <= 1 -> tent u = 1 - u.
Proof. intros H. unfold tent. rewrite Rabs_right by lra. apply Rmax_right. lra. Qed.
Lemma tent_neg u : -1 <= u <= 0 -> tent u = 1 + u.
Proof. intros H. unfold tent. rewrite Rabs_left1 by lra. rewrite Rmax_right by lra. ring. Qed.
Lemma csum_two n (f : nat -> C) k : (S k < n)%nat -> (forall j, (j < n)%nat -> j <> k -> j <> S k -> f j = RtoC 0) -> csum n f = Cplus (f k) (f (S k)).
Proof.
  intros Hk H.
  rewrite (csum_ext n f (fun j => Cplus (if Nat.eqb j k then f k else RtoC 0) (if Nat.eqb j (S k) then f (S k) else RtoC 0))).
  - rewrite csum_plus. rewrite (csum_single n _ k); [|lia|]. rewrite (csum_single n _ (S k)); [|lia|].
    + rewrite !Nat.eqb_refl. reflexivity.
    + intros j _ Hj. apply Nat.eqb_neq in Hj. rewrite Hj. reflexivity.
    + intros j _ Hj. apply Nat.eqb_neq in Hj. rewrite Hj. reflexivity.
  - intros j Hj. destruct (Nat.eqb_spec j k) as [->|N1].
    + destruct (Nat.eqb_spec k (S k)); [lia|]. ring.
    + destruct (Nat.eqb_spec j (S k)) as [->|N2]; [ring|]. rewrite H by auto. ring.
Qed.
(** The tents around [u], between the nodes [k] and [k+1] *)
Lemma tents n k u (v : nat -> C) : (S k < n)%nat -> INR k <= u < INR (S k) ->
  csum n (fun i => Cmult (RtoC (tent (u - INR i))) (v i)) = Cplus (Cmult (RtoC (INR k + 1 - u)) (v k)) (Cmult (RtoC (u - INR k)) (v (S k))).
Proof.
  intros Hk Hu. rewrite S_INR in Hu. rewrite (csum_two n _ k Hk).
  - rewrite (tent_pos (u - INR k)) by lra. rewrite (tent_neg (u - INR (S k))) by (rewrite S_INR; lra). rewrite S_INR.
    f_equal; f_equal; f_equal; lra.
  - intros j Hj N1 N2. rewrite tent_0; [ring|]. destruct (Nat.lt_ge_cases j k) as [L|L].
    + right. assert (INR j + 1 <= INR k) by (rewrite <- S_INR; apply le_INR; lia). lra.
    + left. assert (INR k + 2 <= INR j) by (replace 2 with (INR 2) by (simpl; lra); rewrite <- plus_INR; apply le_INR; lia). lra.
Qed.
Lemma nz a b : 0 < a * b -> b <> 0 /\ a <> 0.
Proof. intros H. split; intros ->; lra. Qed.
(** One axis of the code *)
Lemma floor_in unit offset spacing n x : 0 < spacing * unit -> (1 <= n)%nat ->
  let u := (x - offset * unit) * (1 / (spacing * unit)) in
  (((Zfloor u <? 0) || (Z.of_nat n - 1 <? Zfloor u + 1))%Z = false <-> within unit offset spacing n x).
Proof.
  intros P N u. assert (E : x = offset * unit + u * (spacing * unit)) by (unfold u; field; apply (nz _ _ P)).
  unfold within, node. simpl INR. rewrite Bool.orb_false_iff, Z.ltb_ge, Z.ltb_ge.
  assert (M : INR (n - 1) = IZR (Z.of_nat n - 1)) by (rewrite INR_IZR_INZ; f_equal; lia). rewrite M.
  split.
  - intros [H1 H2]. assert (0 <= u) by (apply Rle_trans with (IZR (Zfloor u)); [apply (IZR_le 0); lia|apply Zfloor_lb]).
    assert (u < IZR (Z.of_nat n - 1)). { apply Rlt_le_trans with (IZR (Zfloor u) + 1); [apply Zfloor_ub|]. rewrite <- plus_IZR. apply IZR_le. lia. }
    rewrite E. split; nra.
  - rewrite E. intros [H1 H2]. assert (U0 : 0 <= u) by nra. assert (U1 : u < IZR (Z.of_nat n - 1)) by nra.
    split; [apply Zfloor_lub; exact U0|]. assert (Zfloor u < Z.of_nat n - 1)%Z; [|lia]. apply lt_IZR. apply Rle_lt_trans with u; [apply Zfloor_lb|exact U1].
Qed.
Lemma axis unit offset spacing n x (v : nat -> C) : 0 < spacing * unit -> (1 <= n)%nat -> within unit offset spacing n x ->
  let u := (x - offset * unit) * (1 / (spacing * unit)) in
  exists k, Zfloor u = Z.of_nat k /\
    linear unit offset spacing n x v = Cplus (Cmult (RtoC (IZR (Zfloor u + 1) - u)) (v k)) (Cmult (RtoC (u - IZR (Zfloor u))) (v (S k))).
Proof.
  intros P N W u. pose proof (proj2 (floor_in unit offset spacing n x P N) W) as F. fold u in F. apply Bool.orb_false_iff in F.
  rewrite Z.ltb_ge, Z.ltb_ge in F. destruct F as [F1 F2]. exists (Z.to_nat (Zfloor u)). rewrite Z2Nat.id by lia. split; [reflexivity|].
  unfold linear. rewrite (csum_ext n _ (fun i => Cmult (RtoC (tent (u - INR i))) (v i))).
  - rewrite (tents n (Z.to_nat (Zfloor u)) u v); [|lia|].
    + rewrite INR_IZR_INZ, Z2Nat.id by lia. rewrite plus_IZR. reflexivity.
    + rewrite S_INR, INR_IZR_INZ, Z2Nat.id by lia. split; [apply Zfloor_lb|apply Zfloor_ub].
  - intros i _. f_equal. f_equal. f_equal. unfold node, u. field. apply (nz _ _ P).
Qed.
Lemma ltb_or4 a b c d : (a || b || c || d)%bool = ((a || b) || (c || d))%bool.
Proof. destruct a, b, c, d; reflexivity. Qed.

Lemma fold_modes (d : Z -> C) (cs sn : nat -> R) r z nm : r <> 0 -> (forall m, (1 <= m)%nat -> cpow z m = (cs m, sn m)) -> forall a,
  fold_left (fun (env : option C) m => match env with None => None | Some env =>
     if Req_EM_T r 0 then None else Some (Cplus env (Cplus (Cmult (RtoC (fst (cpow z (Z.to_nat m)))) (d (2 * m - 1)%Z)) (Cmult (RtoC (snd (cpow z (Z.to_nat m)))) (d (2 * m)%Z)))) end)
    (map Z.of_nat (seq 1 nm)) (Some a) =
  Some (Cplus a (csum nm (fun k => Cplus (Cmult (RtoC (cs (k + 1)%nat)) (d (2 * Z.of_nat k + 1)%Z)) (Cmult (RtoC (sn (k + 1)%nat)) (d (2 * Z.of_nat k + 2)%Z))))).
Proof.
  intros R0 Hz a. induction nm as [|nm IH]; [simpl; f_equal; ring|].
  rewrite seq_S, map_app, fold_left_app, IH. cbn [map fold_left csum]. destruct (Req_EM_T r 0); [contradiction|].
  rewrite Nat2Z.id. rewrite (Hz (1 + nm)%nat) by lia. cbn [fst snd]. replace (nm + 1)%nat with (1 + nm)%nat by lia.
  replace (2 * Z.of_nat (1 + nm) - 1)%Z with (2 * Z.of_nat nm + 1)%Z by lia. replace (2 * Z.of_nat (1 + nm))%Z with (2 * Z.of_nat nm + 2)%Z by lia.
  f_equal. symmetry. apply Cplus_assoc.
Qed.

Section Theta.
Context (f : lfile) (ds dr : R) (nm nt nr : nat).
Hypothesis SP : exists s, f_spacing f = (ds, dr, s).
Hypothesis SH : f_shape f = (2 * Z.of_nat nm + 1, Z.of_nat nt, Z.of_nat nr)%Z.
Hypothesis OFF : snd (fst (f_offset f)) = 0.
Hypothesis PT : 0 < ds * f_unit f. Hypothesis PR : 0 < dr * f_unit f.
Hypothesis NT : (1 <= nt)%nat. Hypothesis NR : (1 <= nr)%nat.
Lemma rad r th : 0 < r -> sqrt (r * cos th * (r * cos th) + r * sin th * (r * sin th)) = r.
Proof.
  intros H. replace (r * cos th * (r * cos th) + r * sin th * (r * sin th)) with (r * r * ((sin th)² + (cos th)²)) by (unfold Rsqr; ring).
  rewrite sin2_cos2, Rmult_1_r. apply sqrt_square. lra.
Qed.
Lemma theta_out r th t : 0 < r -> ~ (within (f_unit f) 0 ds nt t /\ within (f_unit f) 0 dr nr r) ->
  theta_interp f (r * cos th) (r * sin th) t = Some (RtoC 0).
Proof.
  intros H N. unfold theta_interp. destruct SP as [s ->]. rewrite SH. rewrite (rad r th H).
  pose proof (floor_in (f_unit f) 0 ds nt t PT NT) as F1. pose proof (floor_in (f_unit f) 0 dr nr r PR NR) as F2. cbv zeta in F1, F2.
  rewrite Rmult_0_l, Rminus_0_r in F1, F2. rewrite ltb_or4.
  destruct ((Zfloor (t * (1 / (ds * f_unit f))) <? 0) || (Z.of_nat nt - 1 <? Zfloor (t * (1 / (ds * f_unit f))) + 1))%Z eqn:E1; [reflexivity|].
  destruct ((Zfloor (r * (1 / (dr * f_unit f))) <? 0) || (Z.of_nat nr - 1 <? Zfloor (r * (1 / (dr * f_unit f))) + 1))%Z eqn:E2; [reflexivity|].
  exfalso. apply N. tauto.
Qed.
Lemma theta_in r th t : 0 < r -> within (f_unit f) 0 ds nt t -> within (f_unit f) 0 dr nr r ->
  theta_interp f (r * cos th) (r * sin th) t =
  Some (linear (f_unit f) 0 ds nt t (fun it => linear (f_unit f) 0 dr nr r (fun ir => angular f nm th it ir))).
Proof.
  intros H W1 W2. unfold theta_interp. destruct SP as [s ->]. rewrite SH. rewrite (rad r th H).
  pose proof (proj2 (floor_in (f_unit f) 0 ds nt t PT NT) W1) as F1. pose proof (proj2 (floor_in (f_unit f) 0 dr nr r PR NR) W2) as F2. cbv zeta in F1, F2.
  rewrite Rmult_0_l, Rminus_0_r in F1, F2. rewrite ltb_or4, F1, F2. cbn [orb].
  replace (Z.to_nat ((2 * Z.of_nat nm + 1) / 2 + 1 - 1)) with nm.
  2:{ rewrite (Z.mul_comm 2), Z.div_add_l by lia. change (1 / 2)%Z with 0%Z. lia. }
  replace (r * cos th / r) with (cos th) by (field; lra). replace (r * sin th / r) with (sin th) by (field; lra).
  assert (Hz : forall m, (1 <= m)%nat -> cpow (cos th, sin th) m = (cos (INR m * th), sin (INR m * th))).
  { intros m Hm. change (cos th, sin th) with (cis th). rewrite cpow_cis. unfold cis. rewrite (Rmult_comm th). reflexivity. }
  assert (R0 : r <> 0) by lra.
  set (ut := t * (1 / (ds * f_unit f))) in *. set (ur := r * (1 / (dr * f_unit f))) in *.
  etransitivity; [exact (fold_modes (fun i => bil (ut - IZR (Zfloor ut)) (IZR (Zfloor ut + 1) - ut) (ur - IZR (Zfloor ur)) (IZR (Zfloor ur + 1) - ur) (f_data f i) (Zfloor ut) (Zfloor ur))
    (fun m => cos (INR m * th)) (fun m => sin (INR m * th)) r (cos th, sin th) nm R0 Hz _)|].
  f_equal.
  destruct (axis (f_unit f) 0 ds nt t (fun it => linear (f_unit f) 0 dr nr r (fun ir => angular f nm th it ir)) PT NT W1) as [k [Ek ->]].
  destruct (axis (f_unit f) 0 dr nr r (fun ir => angular f nm th k ir) PR NR W2) as [j [Ej ->]].
  destruct (axis (f_unit f) 0 dr nr r (fun ir => angular f nm th (S k) ir) PR NR W2) as [j' [Ej' ->]].
  cbv zeta in Ek, Ej, Ej'. rewrite Ej in Ej'. apply Nat2Z.inj in Ej'. subst j'.
  rewrite Rmult_0_l, !Rminus_0_r in *. fold ut in Ek |- *. fold ur in Ej |- *.
  unfold bil. rewrite Ek, Ej. unfold angular. rewrite !Nat2Z.inj_succ. unfold Z.succ.
  set (a1 := IZR (Z.of_nat k + 1) - ut). set (a0 := ut - IZR (Z.of_nat k)). set (b1 := IZR (Z.of_nat j + 1) - ur). set (b0 := ur - IZR (Z.of_nat j)).
  clearbody a1 a0 b1 b0. rewrite !RtoC_mult.
  match goal with |- Cplus ?A (csum nm ?F) = Cplus (Cmult ?a (Cplus (Cmult ?b (Cplus ?A00 (csum nm ?F00))) (Cmult ?c (Cplus ?A01 (csum nm ?F01)))))
      (Cmult ?a' (Cplus (Cmult ?b' (Cplus ?A10 (csum nm ?F10))) (Cmult ?c' (Cplus ?A11 (csum nm ?F11))))) =>
    replace (csum nm F) with (Cplus (Cmult a (Cplus (Cmult b (csum nm F00)) (Cmult c (csum nm F01)))) (Cmult a' (Cplus (Cmult b' (csum nm F10)) (Cmult c' (csum nm F11)))));
    [ring|] end.
  rewrite <- !csum_scal, <- !csum_plus, <- !csum_scal, <- !csum_plus. apply csum_ext. intros i _. ring.
Qed.
End Theta.

Section Cart.
Context (f : lfile) (ds dy dx t0 ymin xmin : R) (nt ny nx : nat).
Hypothesis SP : f_spacing f = (ds, dy, dx).
Hypothesis SH : f_shape f = (Z.of_nat nt, Z.of_nat ny, Z.of_nat nx).
Hypothesis OFF : f_offset f = (t0, ymin, xmin).
Hypothesis UN : f_unit f = 1 \/ (xmin = 0 /\ ymin = 0).
Hypothesis PT : 0 < ds * f_unit f. Hypothesis PY : 0 < dy * f_unit f. Hypothesis PX : 0 < dx * f_unit f.
Hypothesis NT : (1 <= nt)%nat. Hypothesis NY : (1 <= ny)%nat. Hypothesis NX : (1 <= nx)%nat.
Lemma ox : xmin * f_unit f = xmin. Proof. destruct UN as [-> |[-> _]]; ring. Qed.
Lemma oy : ymin * f_unit f = ymin. Proof. destruct UN as [-> |[_ ->]]; ring. Qed.
Lemma ltb_or6 a b c d e g : (a || b || c || d || e || g)%bool = ((a || b) || (c || d) || (e || g))%bool.
Proof. destruct a, b, c, d, e, g; reflexivity. Qed.
Lemma cart_out x y t : ~ (within (f_unit f) 0 ds nt t /\ within (f_unit f) ymin dy ny y /\ within (f_unit f) xmin dx nx x) -> cart_interp f x y t = Some (RtoC 0).
Proof.
  intros N. unfold cart_interp. rewrite SP, SH, OFF.
  pose proof (floor_in (f_unit f) 0 ds nt t PT NT) as F1. pose proof (floor_in (f_unit f) ymin dy ny y PY NY) as F2. pose proof (floor_in (f_unit f) xmin dx nx x PX NX) as F3.
  cbv zeta in F1, F2, F3. rewrite Rmult_0_l, Rminus_0_r in F1. rewrite oy in F2. rewrite ox in F3. rewrite ltb_or6.
  destruct ((Zfloor (t * (1 / (ds * f_unit f))) <? 0) || (Z.of_nat nt - 1 <? Zfloor (t * (1 / (ds * f_unit f))) + 1))%Z eqn:E1; [reflexivity|].
  destruct ((Zfloor ((y - ymin) * (1 / (dy * f_unit f))) <? 0) || (Z.of_nat ny - 1 <? Zfloor ((y - ymin) * (1 / (dy * f_unit f))) + 1))%Z eqn:E2; [reflexivity|].
  destruct ((Zfloor ((x - xmin) * (1 / (dx * f_unit f))) <? 0) || (Z.of_nat nx - 1 <? Zfloor ((x - xmin) * (1 / (dx * f_unit f))) + 1))%Z eqn:E3; [reflexivity|].
  exfalso. apply N. tauto.
Qed.
Lemma cart_in x y t : within (f_unit f) 0 ds nt t -> within (f_unit f) ymin dy ny y -> within (f_unit f) xmin dx nx x ->
  cart_interp f x y t = Some (linear (f_unit f) 0 ds nt t (fun it => linear (f_unit f) ymin dy ny y (fun iy => linear (f_unit f) xmin dx nx x (fun ix =>
    f_data f (Z.of_nat it) (Z.of_nat iy) (Z.of_nat ix))))).
Proof.
  intros W1 W2 W3. unfold cart_interp. rewrite SP, SH, OFF.
  pose proof (proj2 (floor_in (f_unit f) 0 ds nt t PT NT) W1) as F1. pose proof (proj2 (floor_in (f_unit f) ymin dy ny y PY NY) W2) as F2. pose proof (proj2 (floor_in (f_unit f) xmin dx nx x PX NX) W3) as F3.
  cbv zeta in F1, F2, F3. rewrite Rmult_0_l, Rminus_0_r in F1. rewrite oy in F2. rewrite ox in F3. rewrite ltb_or6, F1, F2, F3. cbn [orb]. f_equal.
  set (D := fun it iy ix : nat => f_data f (Z.of_nat it) (Z.of_nat iy) (Z.of_nat ix)).
  assert (K1 := axis (f_unit f) 0 ds nt t (fun it => linear (f_unit f) ymin dy ny y (fun iy => linear (f_unit f) xmin dx nx x (fun ix => D it iy ix))) PT NT W1).
  cbv zeta in K1. rewrite Rmult_0_l, Rminus_0_r in K1. destruct K1 as [k [Ek E1]]. etransitivity; [|symmetry; exact E1]. clear E1.
  assert (KY : exists j, Zfloor ((y - ymin) * (1 / (dy * f_unit f))) = Z.of_nat j /\ forall v, linear (f_unit f) ymin dy ny y v =
    Cplus (Cmult (RtoC (IZR (Zfloor ((y - ymin) * (1 / (dy * f_unit f))) + 1) - (y - ymin) * (1 / (dy * f_unit f)))) (v j)) (Cmult (RtoC ((y - ymin) * (1 / (dy * f_unit f)) - IZR (Zfloor ((y - ymin) * (1 / (dy * f_unit f)))))) (v (S j)))).
  { destruct (axis (f_unit f) ymin dy ny y (fun _ => RtoC 0) PY NY W2) as [j [Ej _]]. rewrite oy in Ej. exists j. split; [exact Ej|]. intros v.
    destruct (axis (f_unit f) ymin dy ny y v PY NY W2) as [j' [Ej' E]]. rewrite oy in Ej', E. rewrite Ej in Ej'. apply Nat2Z.inj in Ej'. subst j'. exact E. }
  assert (KX : exists j, Zfloor ((x - xmin) * (1 / (dx * f_unit f))) = Z.of_nat j /\ forall v, linear (f_unit f) xmin dx nx x v =
    Cplus (Cmult (RtoC (IZR (Zfloor ((x - xmin) * (1 / (dx * f_unit f))) + 1) - (x - xmin) * (1 / (dx * f_unit f)))) (v j)) (Cmult (RtoC ((x - xmin) * (1 / (dx * f_unit f)) - IZR (Zfloor ((x - xmin) * (1 / (dx * f_unit f)))))) (v (S j)))).
  { destruct (axis (f_unit f) xmin dx nx x (fun _ => RtoC 0) PX NX W3) as [j [Ej _]]. rewrite ox in Ej. exists j. split; [exact Ej|]. intros v.
    destruct (axis (f_unit f) xmin dx nx x v PX NX W3) as [j' [Ej' E]]. rewrite ox in Ej', E. rewrite Ej in Ej'. apply Nat2Z.inj in Ej'. subst j'. exact E. }
  destruct KY as [j [Ej LY]]. destruct KX as [i [Ei LX]]. rewrite !LY, !LX.
  set (ut := t * (1 / (ds * f_unit f))) in *. set (uy := (y - ymin) * (1 / (dy * f_unit f))) in *. set (ux := (x - xmin) * (1 / (dx * f_unit f))) in *.
  unfold D. rewrite Ek, Ej, Ei, !Nat2Z.inj_succ. unfold Z.succ. rewrite !RtoC_mult. ring.
Qed.
End Cart.
Lemma field_eq f t_start i env x y z t : i x y (t - t_start) = Some env ->
  E_field {| l_omega := f_omega f; l_pol := f_pol f; l_tmin := fst (fst (f_offset f)); l_tstart := t_start; l_interp := i |} x y z t = Some (field_of f t_start env t).
Proof.
  intros E. unfold E_field. cbn [l_interp l_tstart l_omega l_tmin l_pol]. rewrite E. unfold field_of, Re. rewrite Ropp_mult_distr_l.
  rewrite !(Cmult_comm (_ (f_pol f))). reflexivity.
Qed.
Lemma recent_ok f : recent f -> check_version f = Ok tt.
Proof.
  intros [a [b [c [E1 [E2 H]]]]]. unfold check_version. rewrite E1, E2. cbn [ints bind]. rewrite String.eqb_refl. cbn [andb tuple_ge].
  destruct (Z.eqb_spec a 0) as [->|Na].
  - destruct (Z.eqb_spec b 3) as [->|Nb].
    + destruct (Z.eqb_spec c 0) as [->|Nc]; [reflexivity|]. destruct (Z.ltb_spec 0 c); [reflexivity|lia].
    + destruct (Z.ltb_spec 3 b); [reflexivity|lia].
  - destruct (Z.ltb_spec 0 a); [reflexivity|lia].
Qed.
