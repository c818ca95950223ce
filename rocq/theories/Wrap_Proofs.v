From Verif Require Import Base Wrap_Model.
From Coq Require Import Reals Lra SpecFloat.
Open Scope Z_scope.

Lemma while_down_R zmax l : (0 < l)%R -> forall n z, (z - zmax < INR n * l)%R ->
  exists m : nat, forall f, (n < f)%nat ->
    while_down R Rge_b Rminus f zmax l z = Some (z - INR m * l)%R /\
    (z - INR m * l < zmax)%R /\ ((m = 0)%nat \/ (zmax - l <= z - INR m * l)%R).
Proof.
  intros Hl. induction n as [|n IH]; intros z H.
  - simpl in H. exists 0%nat. intros [|f] Hf; [lia|]. simpl. unfold Rge_b.
    destruct (Rle_dec zmax z); [lra|]. rewrite Rmult_0_l, Rminus_0_r. repeat split; auto; lra.
  - destruct (Rle_dec zmax z) as [L|L].
    + rewrite S_INR in H. destruct (IH (z - l)%R) as [m Hm]; [lra|].
      exists (S m). intros [|f] Hf; [lia|]. cbn [while_down]. unfold Rge_b at 1.
      destruct (Rle_dec zmax z); [|lra]. destruct (Hm f ltac:(lia)) as (E & B & D).
      rewrite E, S_INR. replace (z - (INR m + 1) * l)%R with (z - l - INR m * l)%R by lra.
      repeat split; auto. right. destruct D as [->|D]; [simpl; lra|exact D].
    + exists 0%nat. intros [|f] Hf; [lia|]. simpl. unfold Rge_b.
      destruct (Rle_dec zmax z); [lra|]. rewrite Rmult_0_l, Rminus_0_r. repeat split; auto; lra.
Qed.

Lemma while_up_R zmin l : (0 < l)%R -> forall n z, (zmin - z <= INR n * l)%R ->
  exists m : nat, forall f, (n < f)%nat ->
    while_up R Rlt_b Rplus f zmin l z = Some (z + INR m * l)%R /\
    (zmin <= z + INR m * l)%R /\ ((m = 0)%nat \/ (z + INR m * l < zmin + l)%R).
Proof.
  intros Hl. induction n as [|n IH]; intros z H.
  - simpl in H. exists 0%nat. intros [|f] Hf; [lia|]. simpl. unfold Rlt_b.
    destruct (Rlt_dec z zmin); [lra|]. rewrite Rmult_0_l, Rplus_0_r. repeat split; auto; lra.
  - destruct (Rlt_dec z zmin) as [L|L].
    + rewrite S_INR in H. destruct (IH (z + l)%R) as [m Hm]; [lra|].
      exists (S m). intros [|f] Hf; [lia|]. cbn [while_up]. unfold Rlt_b at 1.
      destruct (Rlt_dec z zmin); [|lra]. destruct (Hm f ltac:(lia)) as (E & B & D).
      rewrite E, S_INR. replace (z + (INR m + 1) * l)%R with (z + l + INR m * l)%R by lra.
      repeat split; auto. right. destruct D as [->|D]; [simpl; lra|exact D].
    + exists 0%nat. intros [|f] Hf; [lia|]. simpl. unfold Rlt_b.
      destruct (Rlt_dec z zmin); [lra|]. rewrite Rmult_0_l, Rplus_0_r. repeat split; auto; lra.
Qed.

Lemma nat_above x : exists n : nat, (x < INR n)%R.
Proof.
  destruct (Rle_lt_dec x 0).
  - exists 1%nat. simpl. lra.
  - exists (Z.to_nat (up x)). rewrite INR_IZR_INZ. destruct (archimed x).
    rewrite Z2Nat.id; [lra|]. apply le_IZR. lra.
Qed.

Definition wrapped (zmin zmax z z' : R) : Prop :=
  (zmin <= z' < zmax)%R /\ (exists k : Z, z' = z + IZR k * (zmax - zmin))%R /\
  ((zmin <= z < zmax)%R -> z' = z).

Lemma wrap1_R zmin zmax z : (zmin < zmax)%R ->
  exists n z', (forall f, (n <= f)%nat -> wrap1 R Rge_b Rlt_b Rminus Rplus f zmin zmax z = Some z')
     /\ wrapped zmin zmax z z'.
Proof.
  intros H. set (l := (zmax - zmin)%R). assert (Hl : (0 < l)%R) by (unfold l; lra).
  assert (A : exists n : nat, (z - zmax < INR n * l)%R).
  { destruct (nat_above ((z - zmax) / l)%R) as [n Hn]. exists n.
    apply Rmult_lt_compat_r with (r := l) in Hn; auto. unfold Rdiv in Hn. rewrite Rmult_assoc, Rinv_l in Hn; lra. }
  destruct A as [n1 A]. destruct (while_down_R zmax l Hl n1 z A) as [m1 D].
  assert (B : exists n : nat, (zmin - (z - INR m1 * l) <= INR n * l)%R).
  { destruct (nat_above ((zmin - (z - INR m1 * l)) / l)%R) as [n Hn]. exists n.
    apply Rmult_lt_compat_r with (r := l) in Hn; auto. unfold Rdiv in Hn. rewrite Rmult_assoc, Rinv_l in Hn; lra. }
  destruct B as [n2 B]. destruct (while_up_R zmin l Hl n2 _ B) as [m2 U].
  exists (S (n1 + n2)), (z - INR m1 * l + INR m2 * l)%R. split.
  - intros f Hf. unfold wrap1. fold l. destruct (D f ltac:(lia)) as [-> _].
    destruct (U f ltac:(lia)) as [-> _]. reflexivity.
  - destruct (D (S n1) ltac:(lia)) as (_ & D1 & D2). destruct (U (S n2) ltac:(lia)) as (_ & U1 & U2).
    assert (R1 : (zmin <= z - INR m1 * l + INR m2 * l < zmax)%R).
    { split; auto. destruct U2 as [->|U2]; [simpl; lra|]. unfold l in *; lra. }
    split; [exact R1|]. split.
    + exists (Z.of_nat m2 - Z.of_nat m1). rewrite minus_IZR, <- !INR_IZR_INZ. unfold l. lra.
    + intros Hz.
      assert (m1 = 0)%nat.
      { destruct D2 as [|D2]; auto. destruct m1; auto. exfalso. rewrite S_INR in *.
        assert (0 <= INR m1 * l)%R by (apply Rmult_le_pos; [apply pos_INR|lra]).
        unfold l in *. lra. }
      subst m1. simpl in *. rewrite Rmult_0_l, Rminus_0_r in *.
      assert (m2 = 0)%nat.
      { destruct U2 as [|U2]; auto. destruct m2; auto. exfalso. rewrite S_INR in *.
        assert (0 <= INR m2 * l)%R by (apply Rmult_le_pos; [apply pos_INR|lra]). lra. }
      subst m2. simpl. lra.
Qed.

Lemma C09_main zmin zmax zs : (zmin < zmax)%R ->
  exists n zs', (forall f, (n <= f)%nat -> shift_periodic_R f zmin zmax zs = Some zs') /\
    Forall2 (wrapped zmin zmax) zs zs'.
Proof.
  intros H. induction zs as [|z zs (n & zs' & E & F)].
  - exists 0%nat, []. split; auto.
  - destruct (wrap1_R zmin zmax z H) as (n1 & z' & E1 & W). exists (n + n1)%nat, (z' :: zs').
    split; [|constructor; auto]. intros f Hf. unfold shift_periodic_R in *. cbn [shift_periodic].
    rewrite E1 by lia. rewrite E by lia. reflexivity.
Qed.

Definition f0 := S754_zero false.
Definition f1 := S754_finite false 4503599627370496 (-52).
Definition fbig := S754_finite false 4503599627370496 8.       (* 2^60 *)
Definition ftiny := S754_finite true 4503599627370496 (-152).  (* -2^-100 *)

Lemma C09_edge : shift_periodic_64 2 f0 f1 [ftiny] = Some [f1].
Proof. vm_compute. reflexivity. Qed.
Lemma C09_hang_step : forall f, while_down spec_float f_ge f_sub f f1 f1 fbig = None.
Proof.
  assert (A : f_ge fbig f1 = true) by (vm_compute; reflexivity).
  assert (B : f_sub fbig f1 = fbig) by (vm_compute; reflexivity).
  intros f. induction f as [|f IH]; [reflexivity|]. cbn [while_down]. rewrite A, B. exact IH.
Qed.
Lemma C09_hang : forall f, shift_periodic_64 f f0 f1 [fbig] = None.
Proof.
  intros f. unfold shift_periodic_64. cbn [shift_periodic]. unfold wrap1.
  assert (E : f_sub f1 f0 = f1) by (vm_compute; reflexivity). rewrite E, C09_hang_step. reflexivity.
Qed.
