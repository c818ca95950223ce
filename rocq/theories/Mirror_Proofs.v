From Verif Require Import Base Decomp_Model Decomp_Proofs Mirror_Model Mirror_Spec.
From Coq Require Import Reals Lra Lia.
From Flocq Require Import Core.Raux.
Open Scope R_scope.

Lemma nth_enum {A} (l : list A) n : nth_error (combine (range (Z.of_nat (length l))) l) n =
  match nth_error l n with Some a => Some (Z.of_nat n, a) | None => None end.
Proof.
  unfold range, zrange. rewrite Nat2Z.id.
  assert (H : forall (l : list A) s n, nth_error (combine (map Z.of_nat (seq s (length l))) l) n =
     match nth_error l n with Some a => Some (Z.of_nat (s + n), a) | None => None end).
  { clear. induction l as [|a l IH]; intros s n; [destruct n; reflexivity|]. cbn [length seq map combine].
    destruct n; [rewrite Nat.add_0_r; reflexivity|]. cbn [nth_error]. rewrite IH. replace (S s + n)%nat with (s + S n)%nat by lia. reflexivity. }
  apply (H l 0%nat n).
Qed.
Lemma enum_length {A} (l : list A) : length (combine (range (Z.of_nat (length l))) l) = length l.
Proof. rewrite combine_length, length_range, Nat2Z.id. apply Nat.min_id. Qed.
Lemma mem_iff i l : existsb (Z.eqb i) l = true <-> In i l.
Proof.
  rewrite existsb_exists. split.
  - intros (x & Hx & E). apply Z.eqb_eq in E. subst. assumption.
  - intros H. exists i. split; [assumption|apply Z.eqb_refl].
Qed.
Section Main.
Context {A : Type} (zero : A).
Lemma mirror_exact cl mi c t (l : list igrid) zmin zmax n g f : get_zmin_zmax c true true true (Some (c_rank c)) = Ok (zmin, zmax) ->
  0 < c_dz c -> Forall (fun g => ig_dz g = c_dz c) l -> nth_error l n = Some g ->
  let zs := mirror_z cl mi t (m_start mi) in let ze := mirror_z cl mi t (m_end mi) in zs <= ze ->
  exists l' g', set_fields_to_zero zero cl mi c t l = Ok l' /\ length l' = length l /\ nth_error l' n = Some g' /\
  ig_pml g' = ig_pml g /\ ig_dz g' = ig_dz g /\
  (forall iz ir, concerned mi (Z.of_nat n) g f -> zmin <= zs < zmax ->
     (Zfloor ((zs - zmin) / c_dz c) - Zfloor ((ze - zs) / c_dz c) <= iz < Zfloor ((zs - zmin) / c_dz c))%Z -> (0 <= iz)%Z -> ig_arr g' f iz ir = zero) /\
  (forall iz ir, ~ (concerned mi (Z.of_nat n) g f /\ zmin <= zs < zmax /\
     (Zfloor ((zs - zmin) / c_dz c) - Zfloor ((ze - zs) / c_dz c) <= iz < Zfloor ((zs - zmin) / c_dz c))%Z /\ (0 <= iz)%Z) -> ig_arr g' f iz ir = ig_arr g f iz ir).
Proof.
  intros Hz D U Hn zs ze Hse. unfold set_fields_to_zero. fold zs ze. rewrite Hz. cbn [bind].
  destruct ((if Rlt_dec zs zmin then true else false) || (if Rge_dec zs zmax then true else false)) eqn:T.
  - exists l, g. split; [reflexivity|]. split; [reflexivity|]. split; [assumption|]. split; [reflexivity|]. split; [reflexivity|].
    split; [|reflexivity]. intros iz ir _ Hr _. destruct (Rlt_dec zs zmin), (Rge_dec zs zmax); try discriminate; lra.
  - assert (Hr : zmin <= zs < zmax) by (destruct (Rlt_dec zs zmin), (Rge_dec zs zmax); try discriminate; lra). clear T.
    destruct l as [|g0 tl] eqn:El; [destruct n; discriminate|]. rewrite <- El in *.
    assert (D0 : ig_dz g0 = c_dz c) by (rewrite El in U; inversion U; assumption). rewrite D0.
    assert (P1 : 0 <= (zs - zmin) / c_dz c) by (apply Rmult_le_pos; [lra|left; apply Rinv_0_lt_compat; assumption]).
    assert (P2 : 0 <= (ze - zs) / c_dz c) by (apply Rmult_le_pos; [lra|left; apply Rinv_0_lt_compat; assumption]).
    rewrite !Ztrunc_floor by assumption. set (im := Zfloor ((zs - zmin) / c_dz c)). set (nc := Zfloor ((ze - zs) / c_dz c)).
    match goal with |- context [map ?F (combine _ _)] => set (F0 := F) end.
    exists (map F0 (combine (range (Z.of_nat (length l))) l)), (F0 (Z.of_nat n, g)). split; [reflexivity|]. split; [rewrite map_length; apply enum_length|].
    split. { apply map_nth_error. rewrite nth_enum, Hn. reflexivity. }
    unfold F0. clear F0.
    set (sel := match m_modes mi with Some l => negb (existsb (Z.eqb (Z.of_nat n)) l) | None => false end).
    assert (Cm : sel = false <-> match m_modes mi with None => True | Some l => In (Z.of_nat n) l end).
    { unfold sel. destruct (m_modes mi) as [ml|]; [|split; trivial]. rewrite negb_false_iff. apply mem_iff. }
    assert (Cf : is_EB f || (ig_pml g && is_pml f) = true <-> match f with Er | Et | Ez | Br | Bt | Bz => True | Other _ => False | _ => ig_pml g = true end).
    { destruct f; cbn; rewrite ?andb_true_r, ?andb_false_r; split; intros; trivial; try discriminate; try contradiction. }
    unfold concerned. destruct sel.
    + split; [reflexivity|]. split; [reflexivity|]. split; [|reflexivity]. intros iz ir [Q _]. apply Cm in Q. discriminate.
    + cbn [ig_pml ig_dz ig_arr]. split; [reflexivity|]. split; [reflexivity|].
      destruct (is_EB f || (ig_pml g && is_pml f)).
      * split.
        -- intros iz ir _ _ Hi Hi0. unfold zero_rows. rewrite (proj2 (Z.leb_le _ _)), (proj2 (Z.ltb_lt _ _)) by lia. reflexivity.
        -- intros iz ir Q. unfold zero_rows. destruct (Z.leb_spec (Z.max (im - nc) 0) iz), (Z.ltb_spec iz im); cbn [andb]; try reflexivity.
           exfalso. apply Q. split; [split; [apply Cm; reflexivity|apply Cf; reflexivity]|]. split; [assumption|]. lia.
      * split; [|reflexivity]. intros iz ir [_ Q]. apply Cf in Q. discriminate.
Qed.
(** Cells whose centre is at or above [zs] are at or above the last row zeroed. *)
Lemma above zmin dz zs iz : 0 < dz -> zs <= centre zmin dz iz -> ~ (iz < Zfloor ((zs - zmin) / dz))%Z.
Proof.
  unfold centre. intros D H Q. assert (L := Zfloor_lb ((zs - zmin) / dz)). assert (Q' : (iz + 1 <= Zfloor ((zs - zmin) / dz))%Z) by lia. apply IZR_le in Q'. clear Q. rename Q' into Q. rewrite plus_IZR in Q.
  assert (B : (IZR iz + 1) * dz <= zs - zmin).
  { apply Rle_trans with ((zs - zmin) / dz * dz); [apply Rmult_le_compat_r; lra|]. right. field. lra. }
  lra.
Qed.
End Main.
