From Verif Require Import Base Decomp_Model Decomp_Proofs Step_Model Step_Spec Step_Proofs
  Period_Model Period_Spec Period_Proofs.
From Coq Require Import Reals Lra.
From Flocq Require Import Core.Core.
Open Scope Z_scope.

Lemma auto_period b size g cdt dz p : (0 < cdt)%R -> (0 < dz)%R ->
  ~ (b = Periodic /\ size = 1) ->
  init_period b size g cdt dz None = Ok p ->
  1 <= p /\ (IZR p * (2 * cdt) <= (IZR g / 2 - 3) * dz)%R.
Proof.
  intros Hc Hz HN. unfold init_period.
  set (x := ((IZR g / 2 - 3) / (2 * cdt / dz))%R).
  assert (E : match b with Periodic => if size =? 1 then 1 else Ztrunc x | Open => Ztrunc x end = Ztrunc x).
  { destruct b; auto. destruct (Z.eqb_spec size 1); auto. exfalso; auto. }
  rewrite E. destruct (Z.ltb_spec (Ztrunc x) 1); [discriminate|]. intros H1. injection H1 as <-.
  split; auto.
  assert (X : (0 <= x)%R).
  { destruct (Rle_lt_dec 0 x); auto. exfalso.
    rewrite Ztrunc_ceil in H by lra. pose proof (Zceil_lb x). apply IZR_le in H. 
    assert (Zceil x <= 0)%Z by (apply Zceil_glb; lra). apply IZR_le in H1. lra. }
  rewrite Ztrunc_floor in * by auto. pose proof (Zfloor_lb x) as L.
  assert (Q : (x * (2 * cdt) = (IZR g / 2 - 3) * dz)%R) by (unfold x; field; lra).
  rewrite <- Q. apply Rmult_le_compat_r; lra.
Qed.

Lemma auto_period_rejects b size g cdt dz : (0 < cdt)%R -> (0 < dz)%R ->
  ~ (b = Periodic /\ size = 1) ->
  ((IZR g / 2 - 3) * dz < 2 * cdt)%R -> init_period b size g cdt dz None = Err ValueError.
Proof.
  intros Hc Hz HN HL. destruct (init_period b size g cdt dz None) as [p|e] eqn:E.
  - destruct (auto_period _ _ _ _ _ _ Hc Hz HN E) as [A B].
    apply IZR_le in A. assert (1 * (2 * cdt) <= IZR p * (2 * cdt))%R by (apply Rmult_le_compat_r; lra). lra.
  - unfold init_period in E. destruct (_ <? 1); congruence.
Qed.

Lemma touch_low sh zc a : (IZR a + 3 / 2 <= zc)%R ->
  (forall i, In i (deposit_rows sh zc) -> 2 + a <= i) /\ (forall i, In i (gather_cells sh zc) -> a <= i).
Proof.
  intros H.
  assert (C : a + 2 <= Zceil zc).
  { pose proof (Zceil_ub zc) as U. assert (a + 1 < Zceil zc); [|lia].
    apply lt_IZR. rewrite plus_IZR. lra. }
  assert (F : a + 1 <= Zfloor zc).
  { apply Zfloor_lub. rewrite plus_IZR. lra. }
  split; intros i; destruct sh; cbn [deposit_rows gather_cells In]; lia.
Qed.
Lemma touch_high sh zc m : (zc <= IZR m - 5 / 2)%R ->
  (forall i, In i (deposit_rows sh zc) -> i < 2 + m) /\ (forall i, In i (gather_cells sh zc) -> i < m).
Proof.
  intros H.
  assert (C : Zceil zc <= m - 2).
  { apply Zceil_glb. rewrite minus_IZR. lra. }
  assert (F : Zfloor zc <= m - 3).
  { pose proof (Zfloor_lb zc). assert (Zfloor zc < m - 2); [|lia]. apply lt_IZR. rewrite minus_IZR. lra. }
  split; intros i; destruct sh; cbn [deposit_rows gather_cells In]; lia.
Qed.

Lemma half_bounds g : 0 <= g -> (IZR (g / 2) <= IZR g / 2 <= IZR (g / 2) + 1 / 2)%R.
Proof.
  intros. pose proof (Z.div_mod g 2 ltac:(lia)). pose proof (Z.mod_pos_bound g 2 ltac:(lia)).
  set (q := g / 2) in *. set (m := g mod 2) in *.
  assert (E : (IZR g = 2 * IZR q + IZR m)%R) by (rewrite H0, plus_IZR, mult_IZR; reflexivity).
  assert (0 <= IZR m <= 1)%R by (split; [apply IZR_le|apply IZR_le]; lia). lra.
Qed.

Lemma strays_touch sh dz N g T e : (0 < dz)%R -> 0 <= g ->
  (T <= (IZR g / 2 - 2) * dz)%R ->
  strays_at_most T (IZR g * dz) (IZR (N + g) * dz) e ->
  touches_within sh dz (N + 2 * g) (g / 2) e.
Proof.
  intros Hz Hg HT.
  assert (K : forall gm z, (IZR g * dz - T <= z - gm <= IZR (N + g) * dz + T)%R ->
     (IZR (g / 2) + 3 / 2 <= z_cell dz gm z)%R /\ (z_cell dz gm z <= IZR (N + 2 * g - g / 2) - 5 / 2)%R).
  { intros gm z H. unfold z_cell. pose proof (half_bounds g Hg) as HB.
    rewrite minus_IZR, !plus_IZR, mult_IZR in *.
    assert (X : ((IZR g / 2 + 2) * dz <= z - gm <= (IZR N + IZR g + (IZR g / 2 - 2)) * dz)%R) by lra.
    assert (Q : ((IZR g / 2 + 2) <= (z - gm) / dz <= (IZR N + IZR g + (IZR g / 2 - 2)))%R).
    { destruct X as [X1 X2]. split.
      - apply Rmult_le_reg_r with dz; auto. unfold Rdiv. rewrite Rmult_assoc, Rinv_l by lra. lra.
      - apply Rmult_le_reg_r with dz; auto. unfold Rdiv. rewrite Rmult_assoc, Rinv_l by lra. lra. }
    lra. }
  destruct e; cbn [touches_within strays_at_most]; auto; intros H p Hp i Hi; specialize (H p Hp); apply K in H as [H1 H2];
  destruct (touch_low sh _ _ H1) as [A B]; destruct (touch_high sh _ _ H2) as [C D].
  - specialize (A i Hi). specialize (C i Hi). lia.
  - specialize (B i Hi). specialize (D i Hi). lia.
Qed.

Lemma strays_mono T T' lo hi e : (T <= T')%R -> strays_at_most T lo hi e -> strays_at_most T' lo hi e.
Proof. intros H. destruct e; simpl; auto; intros A p Hp; specialize (A p Hp); lra. Qed.

Section Main.
Variables (k : conf) (exch : Z -> R -> species -> species) (here : R -> ant -> bool)
  (kick : Z -> ptc -> R * R * R) (laser : R -> ptc -> R * R) (elem : Z -> species -> species).

Lemma C08_main Nz zmin0 zmax0 b rank size n_order ng st nd ni cl c N iz calls s s' sh :
  (0 < cl)%R -> (0 < k_dt k)%R ->
  init Nz zmin0 zmax0 b rank size n_order ng st nd ni (cl * k_dt k) None = Ok c ->
  ~ (b = Periodic /\ size = 1) -> 0 <= c_nguard c -> (0 < c_dz c)%R ->
  k_period k = c_period c -> k_dz k = c_dz c ->
  get_Nz_and_iz c true true false (Some rank) = Ok (N, iz) ->
  env_ok cl (IZR iz * c_dz c) (IZR (iz + N) * c_dz c) exch here kick elem ->
  (Rabs (grid_speed k) <= cl)%R ->
  window_ok k cl s ->
  st_gmin s = (st_zmin s + IZR (iz - c_nguard c) * c_dz c)%R ->
  (forall an p, In an (st_ants s) -> In p (an_ptc an) -> (Rabs (vz p) <= cl)%R) ->
  steps k exch here kick laser elem calls s = Ok s' ->
  exists N' iz', get_Nz_and_iz c true true true (Some rank) = Ok (N', iz') /\
  exists t, st_trace s' = st_trace s ++ t /\
            Forall (touches_within sh (c_dz c) N' (c_nguard c / 2)) t.
Proof.
  intros Hcl Hdt HI HN Hg Hdz Hp Hz HL ENV Hv HW Hgm HA HS.
  apply (guard_ext c true true (Some rank) (N, iz)) in HL. simpl in HL.
  do 2 eexists. split; [exact HL|].
  assert (P : 1 <= c_period c /\ (IZR (c_period c) * (2 * (cl * k_dt k)) <= (IZR (c_nguard c) / 2 - 3) * c_dz c)%R).
  { unfold init in HI. destruct (init_nguard b size n_order ng st) as [g|]; cbn [bind] in HI; [|discriminate].
    destruct (init_period _ _ _ _ _ _) as [p|] eqn:EP; cbn [bind] in HI; [|discriminate].
    injection HI as <-. cbn [c_period c_nguard c_dz] in *.
    eapply auto_period; eauto. apply Rmult_lt_0_compat; auto. }
  destruct P as [P1 P2].
  destruct (steps_strays k exch here kick laser elem cl cl _ _ (IZR (iz - c_nguard c) * c_dz c)%R ENV
     ltac:(lra) ltac:(lra) ltac:(lra) Hv calls ltac:(lia) s s' HS) as ((t & E & F) & _ & _).
  { split; [exact Hgm|]. split; [exact HW|]. exact HA. }
  exists t. split; [exact E|]. eapply Forall_impl; [|exact F]. intros e He.
  apply (strays_touch sh (c_dz c) N (c_nguard c) (T k cl cl (wd k s))); auto.
  - unfold T. rewrite Hp.
    assert (wd k s <= c_dz c)%R by (unfold wd; destruct (st_win s); lra). lra.
  - replace (IZR (c_nguard c) * c_dz c)%R with (IZR iz * c_dz c - IZR (iz - c_nguard c) * c_dz c)%R
      by (rewrite minus_IZR; lra).
    replace (IZR (N + c_nguard c) * c_dz c)%R with (IZR (iz + N) * c_dz c - IZR (iz - c_nguard c) * c_dz c)%R
      by (rewrite minus_IZR, !plus_IZR; lra).
    exact He.
Qed.

(** One periodic rank: no guard cells, the two extra rows on each side of the deposition array
    must be enough. *)
Definition reach (sh : shape) : R := match sh with Linear => 3 / 2 | Cubic => 1 / 2 end.

Lemma strays_rows sh dz N T e : (0 < dz)%R -> (T < reach sh * dz)%R ->
  strays_at_most T 0 (IZR N * dz) e ->
  match e with
  | EvDeposit _ sn => forall p, In p (members sn) ->
      forall i, In i (deposit_rows sh (z_cell dz (sn_gmin sn) (pz p))) -> 0 <= i < N + 4
  | _ => True end.
Proof.
  intros Hz HT. destruct e; simpl; auto. intros H p Hp i Hi. specialize (H p Hp).
  unfold z_cell in Hi. set (y := ((pz p - sn_gmin s) / dz)%R) in *.
  assert (Y : (- reach sh < y < IZR N + reach sh)%R).
  { unfold y. split.
    - apply Rmult_lt_reg_r with dz; auto. unfold Rdiv. rewrite Rmult_assoc, Rinv_l by lra. lra.
    - apply Rmult_lt_reg_r with dz; auto. unfold Rdiv. rewrite Rmult_assoc, Rinv_l by lra. lra. }
  pose proof (Zceil_ub (y - 1 / 2)) as U. pose proof (Zceil_lb (y - 1 / 2)) as L.
  set (cc := Zceil (y - 1 / 2)) in *.
  destruct sh; cbn [deposit_rows In] in Hi; unfold reach in Y.
  - assert (-2 < cc) by (apply lt_IZR; lra).
    assert (cc < N + 2) by (apply lt_IZR; rewrite plus_IZR; lra). lia.
  - assert (-1 < cc) by (apply lt_IZR; lra).
    assert (cc < N + 1) by (apply lt_IZR; rewrite plus_IZR; lra). lia.
Qed.

Lemma C08_single Nz cl calls s s' sh :
  (0 < cl)%R -> (0 < k_dt k)%R -> (0 < k_dz k)%R -> k_period k = 1 -> 0 <= Nz ->
  env_ok cl 0 (IZR Nz * k_dz k) exch here kick elem ->
  st_win s = None ->
  st_gmin s = st_zmin s ->
  (forall an p, In an (st_ants s) -> In p (an_ptc an) -> (Rabs (vz p) <= cl)%R) ->
  ((cl + Rabs (grid_speed k)) * k_dt k < reach sh * k_dz k)%R ->
  steps k exch here kick laser elem calls s = Ok s' ->
  exists t, st_trace s' = st_trace s ++ t /\
    Forall (fun e => match e with
      | EvDeposit _ sn => forall p, In p (members sn) ->
          forall i, In i (deposit_rows sh (z_cell (k_dz k) (sn_gmin sn) (pz p))) -> 0 <= i < Nz + 4
      | _ => True end) t.
Proof.
  intros Hcl Hdt Hdz Hp HNz ENV HW Hgm HA HR HS.
  destruct (steps_strays k exch here kick laser elem cl (Rabs (grid_speed k)) _ _ 0%R ENV
     ltac:(lra) ltac:(lra) ltac:(lra) ltac:(lra) calls ltac:(lia) s s' HS) as ((t & E & F) & _ & _).
  { split; [lra|]. split; [unfold window_ok; rewrite HW; exact I|exact HA]. }
  exists t. split; [exact E|]. eapply Forall_impl; [|exact F]. intros e He.
  apply (strays_rows sh (k_dz k) Nz (T k cl (Rabs (grid_speed k)) (wd k s))); auto.
  - unfold T, wd. rewrite HW, Hp. lra.
  - replace (0 - 0)%R with 0%R in He by lra. rewrite Rminus_0_r in He. exact He.
Qed.
End Main.
