(** C81: particles injected through a plane move ballistically until they cross it. *)
From Verif Require Import Base Boost_Model Push_Model Push_Spec Plane_Model Plane_Spec Plane_Proofs.
From Coq Require Import Reals Lra Psatz.
Open Scope R_scope.

(** What one more iteration does to the particle number k, whatever the fields: it moves in straight line, with its momentum
    unchanged, if it is before the plane (in the lab frame, half a step ahead); it gets the Vay push otherwise. *)
Theorem C81_selection : forall (c e : R) cross F q m l zl b time dt N k a s t s' t',
  0 < c -> q <> 0 -> boost_ok b ->
  bunch_run c e cross F N time dt (add_bunch q m l (Some zl) b) = Ok (s, t) ->
  bunch_run c e cross F (S N) time dt (add_bunch q m l (Some zl) b) = Ok (s', t') ->
  nth_error (b_ptcl s) k = Some a ->
  t = time + INR N * dt /\ exists a', nth_error (b_ptcl s') k = Some a' /\
    (lab_z c b (pz a) (t + dt / 2) <= zl -> ballistic c a a' dt) /\
    (zl < lab_z c b (pz a) (t + dt / 2) ->
       pm a' = push_p_vay (pm a) (F N (b_ptcl s) a) (q * dt / (m * c)) (1 / 2 * q * dt / m) /\
       px a' = px a + vel_x c a' * dt /\ py a' = py a + vel_y c a' * dt /\ pz a' = pz a + vel_z c a' * dt).
Proof.
  intros c e cross F q m l zl b time dt N k a s t s' t' Hc Hq Hb R R' Ha.
  set (s0 := add_bunch q m l (Some zl) b) in *.
  destruct (run_ok c e cross F dt N time s0 Hq) as (l1 & R1 & _). rewrite R1 in R. injection R as Es Et.
  split; [symmetry; exact Et|].
  cbn [bunch_run] in R'. rewrite R1 in R'. cbn [bind] in R'. rewrite iter_map in R' by exact Hq. cbn [bind] in R'. injection R' as Es' _.
  subst s s' t. cbn [b_ptcl b_q b_m b_injector] in *. eexists. split; [apply map_nth_error; exact Ha|].
  change (b_injector s0) with (Some (ballistic_before_plane zl b)). change (b_q s0) with q. change (b_m s0) with m.
  unfold kicked, push_p_after_plane_numba. replace (0.5 * dt) with (dt / 2) by lra.
  pose proof (plane_iff c b zl (pz a) (time + INR N * dt + dt / 2) Hc Hb) as P.
  match goal with |- context [Rlt_dec ?x ?y] => change y with (pz a); destruct (Rlt_dec x (pz a)) as [L|L] end.
  - apply P in L. split; [intros; lra|]. intros _. cbn. repeat split; reflexivity.
  - split; [|intros Q; exfalso; apply L, P, Q]. intros _. unfold ballistic. cbn. repeat split; reflexivity.
Qed.
Print Assumptions C81_selection.

(** A particle not faster backwards than the plane (-beta c in the simulation frame) follows the same straight line, with the same
    momentum, over as many steps as this line stays before the plane, whatever the fields and the other particles. *)
Theorem C81_ballistic : forall (c e : R) cross F q m l zl b time dt N k a0,
  0 < c -> q <> 0 -> boost_ok b -> 0 <= dt ->
  nth_error l k = Some a0 -> - beta_of b * c <= vel_z c a0 ->
  (forall n, N = S n -> lab_z c b (pz a0 + vel_z c a0 * (INR n * dt)) (time + INR n * dt + dt / 2) <= zl) ->
  exists s a, bunch_run c e cross F N time dt (add_bunch q m l (Some zl) b) = Ok (s, time + INR N * dt) /\
    nth_error (b_ptcl s) k = Some a /\ ballistic c a0 a (INR N * dt).
Proof.
  intros c e cross F q m l zl b time dt N k a0 Hc Hq Hb Hdt H0 Hv HN.
  set (s0 := add_bunch q m l (Some zl) b) in *.
  destruct (history c e cross F dt time s0 k a0 Hq H0) as (a & f & A0 & Run & Step).
  assert (Main : forall n, (n <= N)%nat -> ballistic c a0 (a n) (INR n * dt)).
  { induction n as [|n IH]; intros Hn.
    - rewrite A0. unfold ballistic. cbn. repeat split; lra.
    - specialize (IH ltac:(lia)). destruct IH as (E1 & E2 & E3 & E4).
      assert (Bef : lab_z c b (pz (a n)) (time + INR n * dt + dt / 2) <= zl).
      { destruct N as [|N']; [lia|]. specialize (HN N' eq_refl). eapply Rle_trans; [|exact HN]. rewrite E4.
        assert (Hle : INR n <= INR N') by (apply le_INR; lia).
        assert (Hd : 0 <= (INR N' - INR n) * dt) by (apply Rmult_le_pos; lra).
        unfold lab_z, beta_of in *. destruct b as [b|].
        + destruct Hb as (G & _ & _). apply Rmult_le_compat_l; [lra|]. set (v := vel_z c a0) in *. set (be := beta0 b) in *.
          assert (0 <= (v + be * c) * ((INR N' - INR n) * dt)) by (apply Rmult_le_pos; lra). lra.
        + set (v := vel_z c a0) in *. assert (0 <= v) by lra. assert (0 <= v * ((INR N' - INR n) * dt)) by (apply Rmult_le_pos; lra). lra. }
      rewrite Step. change (b_injector s0) with (Some (ballistic_before_plane zl b)). unfold kicked, push_p_after_plane_numba.
      replace (0.5 * dt) with (dt / 2) by lra.
      match goal with |- context [Rlt_dec ?x ?y] => change y with (pz (a n)); destruct (Rlt_dec x (pz (a n))) as [L|L] end.
      + apply plane_iff in L; [lra|exact Hc|exact Hb].
      + rewrite S_INR. unfold ballistic, moved, vel_x, vel_y, vel_z in *. cbn. rewrite E1, E2, E3, E4. repeat split; lra. }
  destruct (Run N) as (s' & R & Hk & _). exists s', (a N). split; [exact R|]. split; [exact Hk|]. apply Main. lia.
Qed.
Print Assumptions C81_ballistic.

(** Without boosted frame: exactly the particles that are before the plane when the fields act on them are not pushed. *)
Theorem C81_no_boost : forall (c e : R) cross F q m l zl time dt N k a s t s' t',
  0 < c -> q <> 0 ->
  bunch_run c e cross F N time dt (add_bunch q m l (Some zl) None) = Ok (s, t) ->
  bunch_run c e cross F (S N) time dt (add_bunch q m l (Some zl) None) = Ok (s', t') ->
  nth_error (b_ptcl s) k = Some a -> exists a', nth_error (b_ptcl s') k = Some a' /\
    (pz a <= zl -> ballistic c a a' dt) /\
    (zl < pz a -> pm a' = push_p_vay (pm a) (F N (b_ptcl s) a) (q * dt / (m * c)) (1 / 2 * q * dt / m)).
Proof.
  intros c e cross F q m l zl time dt N k a s t s' t' Hc Hq R R' Ha.
  destruct (C81_selection c e cross F q m l zl None time dt N k a s t s' t' Hc Hq I R R' Ha) as (_ & a' & H & P1 & P2).
  exists a'. split; [exact H|]. split; [exact P1|]. intros L. apply (P2 L).
Qed.
Print Assumptions C81_no_boost.

(** Boosted frame, the part that holds: a particle whose momentum is changed by an iteration and that moves forward has
    crossed the plane (lab frame) at the latest half a step after the fields act. *)
Theorem C81_half_step : forall (c e : R) cross F q m l zl b time dt N k a s t s' t' a',
  0 < c -> q <> 0 -> boost_ok b -> 0 <= dt -> 0 <= vel_z c a ->
  bunch_run c e cross F N time dt (add_bunch q m l (Some zl) b) = Ok (s, t) ->
  bunch_run c e cross F (S N) time dt (add_bunch q m l (Some zl) b) = Ok (s', t') ->
  nth_error (b_ptcl s) k = Some a -> nth_error (b_ptcl s') k = Some a' -> pm a' <> pm a ->
  zl < lab_z c b (pz a + vel_z c a * (dt / 2)) (t + dt / 2).
Proof.
  intros c e cross F q m l zl b time dt N k a s t s' t' a' Hc Hq Hb Hdt Hv R R' Ha Ha' D.
  destruct (C81_selection c e cross F q m l zl b time dt N k a s t s' t' Hc Hq Hb R R' Ha) as (_ & a1 & H & P1 & P2).
  rewrite Ha' in H. injection H as <-.
  destruct (Rle_or_lt (lab_z c b (pz a) (t + dt / 2)) zl) as [L|L]; [exfalso; apply D, (P1 L)|].
  eapply Rlt_le_trans; [exact L|]. unfold lab_z. destruct b as [b|].
  - apply Rmult_le_compat_l; [destruct Hb; lra|]. nra.
  - nra.
Qed.
Print Assumptions C81_half_step.

(** The full claim is false in a boosted frame: this particle is before the plane, in the lab frame, when the fields act on it,
    and its momentum is changed. gamma = 5/4, beta = 3/5, c = dt = 1. *)
Definition wb : converter := {| gamma0 := 5 / 4; beta0 := 3 / 5 |}.
Definition wa (z : R) : mp :=
  {| px := 0; py := 0; pz := z; pm := {| ux := 0; uy := 0; uz := 0; ig := 1 |};
     pf := {| Ex := 0; Ey := 0; Ez := 0; Bx := 0; By := 0; Bz := 0 |}; plevel := 0%Z |}.
Definition wF : nat -> list mp -> mp -> field6 := fun _ _ _ => {| Ex := 0; Ey := 0; Ez := 1; Bx := 0; By := 0; Bz := 0 |}.
Theorem C81_boost_refuted : exists (c e : R) F q m a zl b time dt s' t' a',
  0 < c /\ q <> 0 /\ boost_ok b /\ 0 < dt /\ consistent (pm a) /\
  lab_z c b (pz a) time < zl /\
  bunch_run c e false F 1 time dt (add_bunch q m [a] (Some zl) b) = Ok (s', t') /\
  nth_error (b_ptcl s') 0 = Some a' /\ pm a' <> pm a.
Proof.
  assert (Hb : boost_ok (Some wb)) by (cbn; repeat split; lra).
  destruct (run_ok 1 1 false wF 1 0 0 (add_bunch 1 1 [wa (- (1 / 10))] (Some 0) (Some wb)) ltac:(cbn; lra)) as (l0 & R0 & _).
  destruct (run_ok 1 1 false wF 1 1 0 (add_bunch 1 1 [wa (- (1 / 10))] (Some 0) (Some wb)) ltac:(cbn; lra)) as (l1 & R1 & _).
  pose proof R0 as R0'. cbn [bunch_run] in R0'. injection R0' as El _.
  assert (Hn : nth_error (b_ptcl {| b_q := b_q (add_bunch 1 1 [wa (- (1 / 10))] (Some 0) (Some wb)); b_m := b_m (add_bunch 1 1 [wa (- (1 / 10))] (Some 0) (Some wb)); b_injector := b_injector (add_bunch 1 1 [wa (- (1 / 10))] (Some 0) (Some wb)); b_ptcl := l0 |}) 0 = Some (wa (- (1 / 10))))
    by (cbn [b_ptcl]; rewrite <- El; reflexivity).
  destruct (C81_selection 1 1 false wF 1 1 _ 0 (Some wb) 0 1 0 0 _ _ _ _ _ Rlt_0_1 R1_neq_R0 Hb R0 R1 Hn) as (_ & a' & Ha' & _ & P).
  destruct P as (P & _); [cbn; lra|].
  exists 1, 1, wF, 1, 1, (wa (- (1 / 10))), 0, (Some wb), 0, 1. do 2 eexists. exists a'.
  split; [lra|]. split; [lra|]. split; [exact Hb|]. split; [lra|]. split; [unfold consistent, u2; cbn; replace (1 + _) with 1 by ring; rewrite sqrt_1; lra|].
  split; [cbn; lra|]. split; [exact R1|]. split; [exact Ha'|]. rewrite P. intros E. apply (f_equal uz) in E. revert E.
  unfold push_p_vay, wF. cbn -[pow sqrt]. intros E.
  match type of E with ?x * _ = _ => assert (X : x = 1) by (match goal with |- 1 / (1 + ?y) = 1 => replace y with 0 by ring; lra end) end.
  rewrite X in E.
  match type of E with 1 * ?y = 0 => replace y with 1 in E; [lra|] end. set (z := sqrt _). field.
Qed.
Print Assumptions C81_boost_refuted.

(** The hypotheses are met: a bunch with a particle at z = -2 moving at c/2 in an unboosted run: four steps of dt = 1 before the plane. *)
Example C81_met : exists s a,
  bunch_run 1 1 true wF 4 0 1 (add_bunch (-1) 1 [ {| px := 0; py := 0; pz := -2; pm := {| ux := 0; uy := 0; uz := 1; ig := 1 / 2 |}; pf := wF 0%nat [] (wa 0) (* any *); plevel := 0%Z |} ] (Some 0) None) = Ok (s, 0 + INR 4 * 1) /\
  nth_error (b_ptcl s) 0 = Some a /\ pz a = 0.
Proof.
  match goal with |- exists s a, bunch_run _ _ _ _ _ _ _ (add_bunch _ _ [?a0] _ _) = _ /\ _ =>
    destruct (C81_ballistic 1 1 true wF (-1) 1 [a0] 0 None 0 1 4 0 a0) as (s & a & R & Hk & B) end.
  - lra.
  - lra.
  - exact I.
  - lra.
  - reflexivity.
  - cbn. unfold vel_z. cbn. lra.
  - intros n [= <-]. cbn. unfold vel_z. cbn. lra.
  - exists s, a. split; [exact R|]. split; [exact Hk|]. destruct B as (_ & _ & _ & ->). unfold vel_z. cbn. lra.
Qed.
