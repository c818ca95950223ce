From Coq Require Import ZArith Reals List Lia Lra.
From Flocq Require Import Core.
From Verif Require Import Base Sort_Model Ionize_Model Ionize_Spec Ionize_Proofs Ionize_Props Draw_Model Draw_Spec.
Import ListNotations.
Open Scope Z_scope.

Lemma ionizes_iff c tab level_start level_max Ntot batch_size ion per_level targets s st others ip cuda k :
  ready level_start level_max Ntot batch_size ion per_level targets s st ip ->
  ionizes c tab level_start level_max Ntot batch_size ion per_level targets s st others ip cuda k <-> (random_draw cuda k < probability c tab ion ip (ionization_level s ip))%R.
Proof.
  intros (Hb & Hl & Hw & Hs & Ht & Hi & Hm). set (draw := fun i => if i =? ip then random_draw cuda k else others i).
  assert (HN : 0 <= Ntot) by lia.
  assert (D : draw ip = random_draw cuda k) by (unfold draw; rewrite Z.eqb_refl; reflexivity).
  assert (Ev : event c tab level_max ion draw s ip = if Rlt_dec (random_draw cuda k) (probability c tab ion ip (ionization_level s ip)) then true else false).
  { unfold event. rewrite D, (proj2 (Z.ltb_lt _ _) Hm). reflexivity. }
  split.
  - intros (s' & st' & E & L). destruct (C27_levels c tab level_start level_max Ntot batch_size ion draw per_level targets s st s' st' Hb HN Hl Hw Hs Ht E) as (_ & _ & _ & A).
    rewrite (A ip Hi), Ev in L. destruct (Rlt_dec _ _) as [H|H]; [exact H|lia].
  - intros H. destruct (C27_electrons c tab level_start level_max Ntot batch_size ion draw per_level targets s st Hb HN Hl Hs Ht) as (s' & st' & E & _).
    exists s', st'. split; [exact E|].
    destruct (C27_levels c tab level_start level_max Ntot batch_size ion draw per_level targets s st s' st' Hb HN Hl Hw Hs Ht E) as (_ & _ & _ & A).
    rewrite (A ip Hi), Ev. destruct (Rlt_dec _ _) as [_|N]; [reflexivity|contradiction].
Qed.
Lemma count_below N P (p : R) : 0 < N -> (0 <= p <= 1)%R -> (forall k, P k <-> (IZR k / IZR N < p)%R) -> exists n, exactly N P n /\ (p * IZR N <= IZR n < p * IZR N + 1)%R.
Proof.
  intros HN Hp HP. assert (PN : (0 < IZR N)%R) by (apply IZR_lt; exact HN). set (n := Zceil (p * IZR N)).
  assert (C1 : (p * IZR N <= IZR n)%R) by apply Zceil_ub. assert (C2 : (IZR n < p * IZR N + 1)%R) by (pose proof (Zceil_lb (p * IZR N)); fold n in H; lra).
  assert (n0 : 0 <= n) by (apply le_IZR; apply Rle_trans with (2 := C1); apply Rmult_le_pos; lra).
  assert (nN : n <= N). { apply Zceil_glb. rewrite <- (Rmult_1_l (IZR N)) at 2. apply Rmult_le_compat_r; lra. }
  exists n. split; [|split; assumption]. exists (range n). split; [apply NoDup_range|]. split.
  - intros k. rewrite in_range, HP. assert (Q : (IZR k / IZR N < p)%R <-> k < n).
    { transitivity (IZR k < p * IZR N)%R.
      - split; intros H.
        + apply (Rmult_lt_compat_r (IZR N)) in H; [|exact PN]. unfold Rdiv in H. rewrite Rmult_assoc, Rinv_l, Rmult_1_r in H by lra. exact H.
        + apply (Rmult_lt_reg_r (IZR N)); [exact PN|]. unfold Rdiv. rewrite Rmult_assoc, Rinv_l, Rmult_1_r by lra. exact H.
      - split; intros H.
        + apply lt_IZR. lra.
        + assert (k <= n - 1) by lia. apply IZR_le in H0. rewrite minus_IZR in H0. lra. }
    rewrite Q. lia.
  - unfold range, zrange. rewrite map_length, seq_length. lia.
Qed.

(** single precision *)
Local Open Scope R_scope.
Notation fexp := (FLT_exp (-149) 24).
Notation F := (generic_format radix2 fexp).
Local Instance prec24 : Prec_gt_0 24. Proof. reflexivity. Qed.
Lemma nearest x g : F g -> F (rnd32 x) /\ Rabs (rnd32 x - x) <= Rabs (g - x).
Proof. intros Fg. destruct (round_N_pt radix2 fexp (fun t => negb (Z.even t)) x) as [A B]. split; [exact A|exact (B g Fg)]. Qed.
Lemma F_bpow e : (-149 <= fexp (e + 1))%Z -> (fexp (e + 1) <= e)%Z -> F (bpow radix2 e).
Proof. intros _ H. apply generic_format_bpow. exact H. Qed.
Lemma top k : (2 ^ 32 - 128 < k < 2 ^ 32)%Z -> rnd32 (IZR k) = bpow radix2 32.
Proof.
  intros H. assert (B : bpow radix2 32 = IZR (2 ^ 32)) by reflexivity.
  assert (K1 : bpow radix2 32 - 128 < IZR k) by (rewrite B, <- minus_IZR; apply IZR_lt; lia). assert (K2 : IZR k < bpow radix2 32) by (rewrite B; apply IZR_lt; lia).
  assert (Fg : F (bpow radix2 32)) by (apply F_bpow; cbn; lia).
  destruct (nearest (IZR k) _ Fg) as [Ff D]. rewrite (Rabs_pos_eq (bpow radix2 32 - IZR k)) in D by lra. apply Rabs_le_inv in D.
  destruct (Rle_lt_or_eq_dec (rnd32 (IZR k)) (bpow radix2 32)) as [L|E]; [lra| |exact E]. exfalso.
  pose proof (pred_ge_gt radix2 fexp _ _ Ff Fg L) as P. rewrite pred_bpow in P. change (bpow radix2 (fexp 32)) with 256 in P. lra.
Qed.
Lemma one : rnd32 (1 + bpow radix2 (-33)) = 1.
Proof.
  assert (Fg : F 1) by (change 1 with (bpow radix2 0); apply F_bpow; cbn; lia).
  assert (S : 0 < bpow radix2 (-33) < bpow radix2 (-24)) by (split; [apply bpow_gt_0|apply bpow_lt; lia]).
  destruct (nearest (1 + bpow radix2 (-33)) 1 Fg) as [Ff D]. replace (1 - (1 + bpow radix2 (-33))) with (- bpow radix2 (-33)) in D by ring. rewrite Rabs_Ropp, (Rabs_pos_eq (bpow radix2 (-33))) in D by lra. apply Rabs_le_inv in D.
  destruct (Rle_lt_or_eq_dec 1 (rnd32 (1 + bpow radix2 (-33)))) as [L|E]; [lra| |symmetry; exact E]. exfalso.
  pose proof (succ_le_lt radix2 fexp _ _ Fg Ff L) as P. rewrite succ_eq_pos in P by lra. change 1 with (bpow radix2 0) in P at 2. rewrite ulp_bpow in P. change (fexp (0 + 1)) with (-23)%Z in P.
  assert (bpow radix2 (-23) = 2 * bpow radix2 (-24)) by (cbn; lra). lra.
Qed.
Lemma zero k : (2 ^ 32 - 128 < k < 2 ^ 32)%Z -> cupy_rand k = 0.
Proof.
  intros H. unfold cupy_rand. rewrite (top k H). rewrite <- bpow_plus. change (bpow radix2 (32 + -32)) with 1. rewrite one. cbv zeta. destruct (Req_EM_T 1 1) as [_|N]; [reflexivity|exfalso; apply N; reflexivity].
Qed.
Lemma rnd32_nonneg x : 0 <= x -> 0 <= rnd32 x.
Proof. intros H. apply round_ge_generic; [apply FLT_exp_valid; exact prec24|apply valid_rnd_N|apply generic_format_0|exact H]. Qed.
Lemma draw_nonneg cuda k : (0 <= k)%Z -> 0 <= random_draw cuda k.
Proof.
  intros H. apply IZR_le in H. destruct cuda; cbn [random_draw].
  - unfold cupy_rand. cbv zeta. destruct (Req_EM_T _ 1) as [_|_]; [lra|]. apply rnd32_nonneg. apply Rplus_le_le_0_compat; [|apply bpow_ge_0]. apply Rmult_le_pos; [apply rnd32_nonneg; exact H|apply bpow_ge_0].
  - unfold numpy_rand. apply Rmult_le_pos; [exact H|]. apply Rlt_le, Rinv_0_lt_compat, bpow_gt_0.
Qed.
