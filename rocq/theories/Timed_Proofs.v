From Coq Require Import ZArith Reals List String Lra Lia.
From Verif Require Import Base Step_Model Cycle_Model Cycle_Spec Cycle_Proofs Timed_Spec.
Import ListNotations.
Open Scope R_scope.

Section T.
Context {P Q A W : Type} (k : kernels P Q A W) (o : opts) (ps : R -> R -> R -> list P) (w : R -> W).
Context (F : free_motion k ps w) (Mx : o_move_x o = true).
Notation dt := (k_dt k).
Notation all t := (ps t t t).
Notation rho t := (spectral_source k false (w t) (active k (all t))).
Notation cur t := (spectral_source k true (w t) (active k (all t))).
(** the current in spectral space at the beginning of iteration n *)
Definition J_at (n : Z) (s : st P Q A W) : Prop :=
  let t := IZR n * dt in if o_cc o then corrected_spectral k ps w t (aJ (src s)) else aJ (src s) = cur (t - dt/2).
Notation inv := (at_time k ps w).
(** ... and at the output *)
Record at_output (first : bool) (n : Z) (s : st P Q A W) : Prop := {
  a_inv : inv n s; a_rho : aprev (src s) = rho (IZR n * dt);
  a_J : if first then aJ (src s) = cur (IZR n * dt) else J_at n s }.

Lemma before_ok (first : bool) n s : inv n s -> (first = false -> aprev (src s) = rho (IZR n * dt) /\ J_at n s) -> at_output first n (before_diags k o first s).
Proof.
  intros [I1 I2 I3 I4 I5] H. cbv zeta in I1. pose proof F as [Fo Fw Fm Fs Fe Fga Fx Fp Fpx Fel].
  unfold before_diags. set (s1 := if ((it s mod k_period k =? 0)%Z || first)%bool then exchange_particles k o s else s).
  assert (X : inv n s1 /\ (aprev (src s1) = rho (IZR n * dt)) /\ aJ (src s1) = aJ (src s)).
  { unfold s1. destruct ((it s mod k_period k =? 0)%Z || first)%bool eqn:E.
    - unfold exchange_particles. rewrite I1, I3, Fe. unfold deposit. cbn -[spectral_source active]. rewrite I2, Fo, andb_false_r. cbn -[spectral_source active].
      split; [constructor; cbn; rewrite ?I2; try assumption; reflexivity|]. split; reflexivity.
    - apply orb_false_iff in E. destruct E as [_ ->]. split; [constructor; assumption|]. split; [apply H; reflexivity|reflexivity]. }
  destruct X as ([J1 J2 J3 J4 J5] & R1 & K1). cbv zeta in J1.
  set (s2 := if first then deposit k J true None s1 else s1).
  assert (Y : inv n s2 /\ aprev (src s2) = rho (IZR n * dt) /\ if first then aJ (src s2) = cur (IZR n * dt) else J_at n s2).
  { unfold s2. destruct first.
    - unfold deposit. cbn -[spectral_source active]. rewrite J1, J2, J3, Fo. cbn -[spectral_source active].
      split; [constructor; cbn; rewrite ?J1, ?J2, ?J3, ?J4, ?J5; reflexivity|]. split; [exact R1|reflexivity].
    - split; [constructor; assumption|]. split; [exact R1|]. unfold J_at. rewrite K1. apply H. reflexivity. }
  clearbody s2 s1. destruct Y as ([L1 L2 L3 L4 L5] & R2 & K2). cbv zeta in L1.
  constructor; cbn -[spectral_source active].
  - constructor; cbn; rewrite ?L1, ?L3, ?Fga, ?Fx; try assumption; reflexivity.
  - exact R2.
  - destruct first; [exact K2|]. unfold J_at in *. cbn -[spectral_source active corrected_spectral]. exact K2.
Qed.

(** particles, antennas, grid, clock *)
Definition at_ (l : list P) (e : W) (n : Z) (t : R) (u : st P Q A W) : Prop := ptc u = l /\ ants u = [] /\ env u = e /\ it u = n /\ time u = t.
Lemma move_ok tx ty tz te n t d fx fy fz g u : at_ (ps tx ty tz) (w te) n t u ->
  at_ (ps (tx + d * fx) (ty + d * fy) (tz + d * fz)) (w (te + g)) n t (move_all k o d fx fy fz g u) /\ src (move_all k o d fx fy fz g u) = src u.
Proof.
  intros (U1 & U2 & U3 & U4 & U5). unfold move_all. rewrite Mx. cbn. rewrite U1, U2, (fm_push_x k ps w F).
  destruct (k_galilean k) eqn:G; unfold at_; cbn; rewrite U3.
  - rewrite (fm_moving k ps w F G). repeat split; assumption.
  - rewrite (fm_still k ps w F G te (te + g)). repeat split; assumption.
Qed.
Lemma dep_ok l e n t f b u : at_ l e n t u -> at_ l e n t (deposit k f b None u) /\ src (deposit k f b None u) = set5 f (spectral_source k (is_J f) e (active k l)) (src u).
Proof.
  intros (U1 & U2 & U3 & U4 & U5). unfold deposit. cbn -[spectral_source active set5]. rewrite U1, U2, U3, (fm_one k ps w F), andb_false_r. unfold at_. cbn -[spectral_source active set5].
  repeat split; assumption.
Qed.
Lemma at_eq l e n t u l' e' : at_ l e n t u -> l = l' -> e = e' -> at_ l' e' n t u. Proof. intros H -> ->. exact H. Qed.
Ltac times := rewrite ?plus_IZR; first [reflexivity | f_equal; lra].
Lemma cross_ok n T u : let t := IZR n * dt in let e := IZR (n + 1) * dt in at_ (all (e - dt/2)) (w (e - dt/2)) n T u ->
  at_ (all (e - dt/2)) (w (e - dt/2)) n T (cross_deposit k o u) /\
  src (cross_deposit k o u) = set5 rho_next_z (spectral_source k false (w e) (active k (ps (e - dt) (e - dt) e)))
    (set5 rho_next_xy (spectral_source k false (w (e - dt)) (active k (ps e e (e - dt)))) (src u)).
Proof.
  cbv zeta. set (e := IZR (n + 1) * dt). intros H. unfold cross_deposit.
  destruct (move_ok _ _ _ _ _ _ (0.5 * dt) 1 1 (-1) (-0.5 * dt) _ H) as [H1 S1]. set (u1 := move_all k o _ _ _ _ _ u) in *. clearbody u1.
  apply (at_eq _ _ _ _ _ (ps e e (e - dt)) (w (e - dt))) in H1; [|f_equal; lra|f_equal; lra].
  destruct (dep_ok _ _ _ _ rho_next_xy false _ H1) as [H2 S2]. set (u2 := deposit k _ _ _ u1) in *. clearbody u2.
  destruct (move_ok _ _ _ _ _ _ dt (-1) (-1) 1 dt _ H2) as [H3 S3]. set (u3 := move_all k o _ _ _ _ _ u2) in *. clearbody u3.
  apply (at_eq _ _ _ _ _ (ps (e - dt) (e - dt) e) (w e)) in H3; [|f_equal; lra|f_equal; lra].
  destruct (dep_ok _ _ _ _ rho_next_z false _ H3) as [H4 S4]. set (u4 := deposit k _ _ _ u3) in *. clearbody u4.
  destruct (move_ok _ _ _ _ _ _ (0.5 * dt) 1 1 (-1) (-0.5 * dt) _ H4) as [H5 S5]. split.
  - apply (at_eq _ _ _ _ _ _ _ H5); f_equal; lra.
  - rewrite S5, S4, S3, S2, S1. reflexivity.
Qed.
Lemma after_ok n s : inv n s -> aprev (src s) = rho (IZR n * dt) -> exists s', after_diags k o s = Ok s' /\ inv (n + 1) s' /\ aprev (src s') = rho (IZR (n + 1) * dt) /\ J_at (n + 1) s'.
Proof.
  intros [I1 I2 I3 I4 I5] R1. cbv zeta in I1. pose proof F as [Fo Fw Fm Fs Fe Fga Fx Fp Fpx Fel].
  set (e := IZR (n + 1) * dt). assert (Ee : IZR n * dt = e - dt) by (unfold e; rewrite plus_IZR; lra). rewrite Ee in *.
  unfold after_diags.
  set (s1 := if o_move_p o then set_ptc _ s else s).
  assert (A1 : at_ (all (e - dt)) (w (e - dt)) n (e - dt) s1 /\ src s1 = src s).
  { unfold s1, at_. destruct (o_move_p o); cbn; rewrite ?I1, ?Fp; repeat split; try assumption; reflexivity. }
  clearbody s1. destruct A1 as [A1 B1].
  set (s2 := set_ants _ s1).
  assert (A2 : at_ (all (e - dt)) (w (e - dt)) n (e - dt) s2 /\ src s2 = src s).
  { destruct A1 as (C1 & C2 & C3 & C4 & C5). unfold s2, at_. cbn. rewrite C2. repeat split; try assumption. }
  clearbody s2. destruct A2 as [A2 B2].
  destruct (move_ok _ _ _ _ _ _ (0.5 * dt) 1 1 1 (0.5 * dt) _ A2) as [A3 B3]. set (s3 := move_all k o _ _ _ _ _ s2) in *. clearbody s3.
  apply (at_eq _ _ _ _ _ (all (e - dt/2)) (w (e - dt/2))) in A3; [|f_equal; lra|f_equal; lra].
  pose proof A3 as (C1 & C2 & C3 & C4 & C5). rewrite C1, C3, Fel.
  set (s4 := set_env _ (set_ptc _ s3)).
  assert (A4 : at_ (all (e - dt/2)) (w (e - dt/2)) n (e - dt) s4 /\ src s4 = src s3).
  { unfold s4, at_. cbn. repeat split; assumption. }
  clearbody s4. destruct A4 as [A4 B4].
  destruct (dep_ok _ _ _ _ J (negb (o_cc o)) _ A4) as [A5 B5]. set (s5 := deposit k J _ _ s4) in *. clearbody s5.
  set (s6 := if (o_cc o && k_cross k)%bool then cross_deposit k o s5 else s5).
  assert (A6 : at_ (all (e - dt/2)) (w (e - dt/2)) n (e - dt) s6 /\ aJ (src s6) = cur (e - dt/2) /\ aprev (src s6) = aprev (src s) /\
    (o_cc o = true -> k_cross k = true -> axy (src s6) = spectral_source k false (w (e - dt)) (active k (ps e e (e - dt))) /\
       az (src s6) = spectral_source k false (w e) (active k (ps (e - dt) (e - dt) e)))).
  { unfold s6. destruct (o_cc o && k_cross k)%bool eqn:E.
    - destruct (cross_ok n (e - dt) s5) as [X1 X2]; [exact A5|]. fold e in X1, X2. split; [exact X1|]. rewrite X2, B5, B4, B3, B2. cbn -[spectral_source active]. repeat split.
    - split; [exact A5|]. rewrite B5, B4, B3, B2. cbn -[spectral_source active]. split; [reflexivity|]. split; [reflexivity|]. intros X Y. rewrite X, Y in E. discriminate E. }
  clearbody s6. destruct A6 as (A6 & B6 & P6 & X6).
  destruct (move_ok _ _ _ _ _ _ (0.5 * dt) 1 1 1 (0.5 * dt) _ A6) as [A7 B7]. set (s7 := move_all k o _ _ _ _ _ s6) in *. clearbody s7.
  apply (at_eq _ _ _ _ _ (all e) (w e)) in A7; [|f_equal; lra|f_equal; lra].
  destruct (dep_ok _ _ _ _ rho_next (o_true_rho o) _ A7) as [A8 B8]. set (s8 := deposit k rho_next _ _ s7) in *. clearbody s8. rewrite B7 in B8.
  assert (L : exists s9, (if o_cc o then correct_currents k s8 else Ok s8) = Ok s9 /\ at_ (all e) (w e) n (e - dt) s9 /\ anext (src s9) = rho e /\ J_at (n + 1) s9).
  { unfold J_at. fold e. destruct (o_cc o) eqn:Oc.
    - unfold correct_currents. rewrite Fo, B8. cbn -[spectral_source active corrected_spectral]. eexists. split; [reflexivity|]. split; [exact A8|].
      cbn -[spectral_source active corrected_spectral]. split; [reflexivity|]. exists (axy (src s6)), (az (src s6)). rewrite B6, P6, R1. split; [reflexivity|]. apply X6. reflexivity.
    - exists s8. split; [reflexivity|]. split; [exact A8|]. rewrite B8. cbn -[spectral_source active]. split; [reflexivity|exact B6]. }
  destruct L as (s9 & -> & A9 & B9 & J9). cbn [bind].
  unfold push_fields. rewrite Fo. cbn [andb bind]. rewrite Fw.
  set (s10 := set_EB (iEB s9) _ _).
  assert (A10 : at_ (all e) (w e) n (e - dt) s10 /\ aprev (src s10) = rho e /\ aJ (src s10) = aJ (src s9)).
  { unfold s10, at_. cbn -[spectral_source active]. destruct A9 as (? & ? & ? & ? & ?). repeat split; assumption. }
  clearbody s10. destruct A10 as (A10 & B10 & J10).
  set (s11 := if o_divE o then _ else s10).
  assert (A11 : at_ (all e) (w e) n (e - dt) s11 /\ src s11 = src s10).
  { unfold s11. destruct (o_divE o); [split; [exact A10|reflexivity]|split; [exact A10|reflexivity]]. }
  clearbody s11. destruct A11 as ((N1 & N2 & N3 & N4 & N5) & B11).
  destruct (k_bound k (env s11) (time s11) (sEB s11)) as [sp ip]. eexists. split; [reflexivity|]. split; [|split].
  - constructor; cbn; fold e; rewrite ?N1, ?N2, ?N3, ?N4, ?N5; try reflexivity. lra.
  - cbn -[spectral_source active]. rewrite B11. exact B10.
  - unfold J_at in *. cbn -[spectral_source active corrected_spectral]. rewrite B11, J10. exact J9.
Qed.

(** ** The records of one diagnostic *)
Definition good (d : diagn) (n : Z) (first : bool) (r : Cycle_Model.out P A) : Prop :=
  match r with
  | OField FJ a => let t := IZR n * dt in if first then a = source k true (w t) (active k (all t))
      else if o_cc o then corrected k ps w t a else a = source k true (w (t - dt/2)) (active k (all (t - dt/2)))
  | OField Frho a => a = source k false (w (IZR n * dt)) (active k (all (IZR n * dt)))
  | OField _ _ => True
  | ODensity nm a => exists sps i p, dg_kind d = KDensity sps /\ In (nm, i) sps /\ nth_error (all (IZR n * dt)) i = Some p /\ a = source k false (w (IZR n * dt)) [p]
  | OPtcl i p => nth_error (all (IZR n * dt)) i = Some p
  end.
Lemma fetch_env f (s : st P Q A W) : env (fetch k f s) = env s /\ src (fetch k f s) = src s /\ ptc (fetch k f s) = ptc s. Proof. repeat split. Qed.
Lemma has_in f fts : In f fts -> has f fts = true.
Proof. intros H. unfold has. apply existsb_exists. exists f. split; [exact H|]. destruct f; reflexivity. Qed.
Lemma density_good d n sps : dg_kind d = KDensity sps -> forall l s acc, (forall x, In x l -> In x sps) -> ptc s = all (IZR n * dt) -> env s = w (IZR n * dt) ->
  (forall r, In r acc -> forall first, good d n first r) -> forall r, In r (snd (fold_left (density_of k) l (s, acc))) -> forall first, good d n first r.
Proof.
  intros Hd. pose proof (fm_one k ps w F) as Fo.
  induction l as [|[nm i] l IH]; intros s acc Hl Hp He Ha; [exact Ha|]. cbn [fold_left]. unfold density_of at 2. cbn [fst snd].
  assert (Hl' : forall x, In x l -> In x sps) by (intros x Hx; apply Hl; right; exact Hx).
  destruct (nth_error (ptc s) i) as [p|] eqn:E; [|apply IH; assumption].
  rewrite Fo. apply IH.
  - exact Hl'.
  - unfold deposit. cbn. exact Hp.
  - unfold deposit. cbn. exact He.
  - intros r Hr. apply in_app_iff in Hr. destruct Hr as [Hr | [<- | []]]; [apply Ha, Hr|]. intros first. cbn -[source]. exists sps, i, p. rewrite <- Hp. split; [exact Hd|]. split; [apply Hl; left; reflexivity|]. split; [exact E|].
    unfold deposit. cbn -[source]. rewrite He, ?andb_false_r. reflexivity.
Qed.
Lemma write_good d (first : bool) n s : at_output first n s -> forall x, In x (snd (write k d s)) -> fst (fst x) = n /\ forall r, In r (snd x) -> good d n first r.
Proof.
  intros [[I1 I2 I3 I4 I5] R1 J1] x. cbv zeta in I1. pose proof (fm_one k ps w F) as Fo. unfold write. destruct (due d (it s)); [|intros []].
  assert (G : forall r, In r (snd (write_hdf5 k d s)) -> good d n first r).
  { unfold write_hdf5.
    assert (GJ : forall u : st P Q A W, src u = src s -> good d n first (OField FJ (iJ (fetch k J u)))).
    { intros u U. cbn -[source corrected]. rewrite Fo, andb_false_r, U. destruct first; [rewrite J1; reflexivity|]. unfold J_at in J1. destruct (o_cc o); [|rewrite J1; reflexivity].
      exists (aJ (src s)). split; [exact J1|reflexivity]. }
    assert (GR : forall u : st P Q A W, src u = src s -> good d n first (OField Frho (irho (fetch k rho_prev u)))).
    { intros u U. cbn -[source]. rewrite Fo, andb_false_r, U, R1. reflexivity. }
    destruct (dg_kind d) as [fts | fts | sps | sps] eqn:K.
    - intros r Hr. cbn [snd] in Hr. apply in_map_iff in Hr. destruct Hr as (f & <- & Hf). unfold grab. pose proof (has_in f fts Hf) as Hh. destruct f; try exact I; rewrite Hh.
      + apply GJ; destruct (has Frho fts); reflexivity.
      + destruct (has FJ fts).
        * change (irho (fetch k J (fetch k rho_prev s))) with (irho (fetch k rho_prev s)). apply GR. reflexivity.
        * apply GR. reflexivity.
    - intros r Hr. cbn [snd] in Hr. apply in_map_iff in Hr. destruct Hr as (f & <- & Hf). unfold grab. pose proof (has_in f fts Hf) as Hh. destruct f; try exact I; rewrite Hh, ?orb_true_r; cbn [orb].
      + change (iJ (fetch k rho_prev (fetch k J s))) with (iJ (fetch k J s)). apply GJ; reflexivity.
      + apply GR. reflexivity.
    - intros r Hr. exact (density_good d n sps K sps s [] (fun x H => H) I1 I3 (fun r H => match H with end) r Hr first).
    - intros r Hr. cbn [snd] in Hr. apply in_flat_map in Hr. destruct Hr as (i & _ & Hr). destruct (nth_error (ptc s) i) as [p|] eqn:E; [|destruct Hr]. destruct Hr as [<- | []]. cbn. rewrite <- I1. exact E. }
  destruct (write_hdf5 k d s) as [s' l] eqn:E. cbn [snd]. intros [<- | []]. cbn [fst snd]. split; [exact I4|]. intros r Hr. apply G. cbn [snd]. exact Hr.
Qed.
(** every record of the log is good; those of the first iteration [n0] with first = true *)
Definition log_ok (d : diagn) (n0 : Z) (log : list (Cycle_Model.record P A W)) : Prop :=
  forall x, In x log -> (n0 <= fst (fst x))%Z /\ forall r, In r (snd x) -> good d (fst (fst x)) (fst (fst x) =? n0)%Z r.
(** no due iteration is missing *)
Definition complete (d : diagn) (lo hi : Z) (log : list (Cycle_Model.record P A W)) : Prop :=
  forall n, (lo <= n < hi)%Z -> due d n = true -> exists x, In x log /\ fst (fst x) = n.
Lemma write_due d s : due d (it s) = true -> exists x, In x (snd (write k d s)) /\ fst (fst x) = it s.
Proof. intros H. unfold write. rewrite H. destruct (write_hdf5 k d s). eexists. split; [left; reflexivity|]. reflexivity. Qed.
Lemma iterate_ok d n0 : forall N n (first : bool) s log, (first = (n =? n0)%Z) -> (n0 <= n)%Z -> inv n s -> (first = false -> aprev (src s) = rho (IZR n * dt) /\ J_at n s) -> log_ok d n0 log -> complete d n0 n log ->
  exists s' log', iterate k o [d] N first s [log] = Ok (s', [log']) /\ log_ok d n0 log' /\ complete d n0 (n + Z.of_nat N) log'.
Proof.
  induction N as [|N IH]; intros n first s log Ef Hn Hi Hs Hl Hc; cbn [iterate].
  - exists s, log. split; [reflexivity|]. split; [exact Hl|]. rewrite Z.add_0_r. exact Hc.
  - pose proof (before_ok first n s Hi Hs) as B. pose proof (run_diags_sim k [d] (before_diags k o first s)) as S. pose proof (run_diags_rec k [d] (before_diags k o first s)) as RR.
    pose proof (write_good d first n _ B) as WG. pose proof (write_due d (before_diags k o first s)) as WD.
    destruct (run_diags k [d] (before_diags k o first s)) as [s1 rs]. cbn [fst snd map] in *. subst rs.
    rewrite (after_sim k o _ _ S). destruct B as [Bi Br _]. destruct (after_ok n _ Bi Br) as (s2 & -> & I2 & R2 & J2). cbn [bind combine map].
    rewrite Nat2Z.inj_succ. replace (n + Z.succ (Z.of_nat N))%Z with (n + 1 + Z.of_nat N)%Z by lia.
    apply (IH (n + 1)%Z); [symmetry; apply Z.eqb_neq; lia|lia|exact I2|intros _; split; assumption| |].
    2:{ intros m Hm Hd. destruct (Z.eq_dec m n) as [->|Ne]; [|destruct (Hc m ltac:(lia) Hd) as (x & Hx & E); exists x; split; [apply in_app_iff; left; exact Hx|exact E]].
      rewrite (at_it _ _ _ _ _ Bi) in WD. destruct (WD Hd) as (x & Hx & E). exists x. split; [apply in_app_iff; right; exact Hx|exact E]. }
    intros x Hx. apply in_app_iff in Hx. destruct Hx as [Hx | Hx]; [apply Hl, Hx|]. destruct (WG x Hx) as [E G]. rewrite E. split; [exact Hn|]. rewrite <- Ef. exact G.
Qed.
Lemma step_ok d N n0 s : inv n0 s -> exists s' log, step k o [d] N s = Ok (s', [log]) /\ log_ok d n0 log /\ complete d n0 (n0 + Z.of_nat N) log.
Proof.
  intros Hi. unfold step. rewrite (fm_one k ps w F). cbn [andb map]. unfold begin_step. rewrite (fm_window k ps w F).
  set (s1 := set_EB _ _ s). assert (I1 : inv n0 s1) by (destruct Hi; constructor; assumption).
  destruct (iterate_ok d n0 N n0 true s1 []) as (s' & log & -> & L); [symmetry; apply Z.eqb_refl|lia|exact I1|discriminate|intros ? []|intros ? ?; lia|].
  cbn [bind]. eexists. exists log. split; [reflexivity|exact L].
Qed.
End T.
