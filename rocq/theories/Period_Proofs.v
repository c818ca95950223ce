From Verif Require Import Base Step_Model Step_Spec Step_Proofs Period_Model Period_Spec.
From Coq Require Import Reals Lra.
From Flocq Require Import Core.Core.
Open Scope Z_scope.

Lemma div_nonneg a b : (0 <= a)%R -> (0 < b)%R -> (0 <= a / b)%R.
Proof. intros. apply Rmult_le_pos; auto. left. now apply Rinv_0_lt_compat. Qed.

Section M.
Variable k : conf.
Variable exch : Z -> R -> species -> species.
Variable here : R -> ant -> bool.
Variable kick : Z -> ptc -> R * R * R.
Variable laser : R -> ptc -> R * R.
Variable elem : Z -> species -> species.
Variables cl vm lo hi goff : R.
Hypothesis ENV : env_ok cl lo hi exch here kick elem.
Hypothesis Hcl : (0 <= cl)%R.
Hypothesis Hdt : (0 <= k_dt k)%R.
Hypothesis Hdz : (0 < k_dz k)%R.
Hypothesis Hvm : (Rabs (grid_speed k) <= vm)%R.
Notation iteration := (iteration k exch here kick laser elem).
Notation loop := (loop k exch here kick laser elem).
Notation step := (step k exch here kick laser elem).
Notation steps := (steps k exch here kick laser elem).
Notation first_half := (first_half k kick laser elem).
Notation second_half := (second_half k).
Notation do_exchange := (do_exchange k exch here).
Notation dt := (k_dt k).
Notation vg := (grid_speed k).

Definition pin (z0 a : R) (p : ptc) : Prop := (z0 + lo - a <= pz p <= z0 + hi + a)%R.
Definition slow (p : ptc) : Prop := (Rabs (vz p) <= cl)%R.

Definition boxs (z0 a : R) (l : list species) : Prop :=
  forall sp p, In sp l -> In p (sp_ptc sp) -> slow p /\ pin z0 a p.
Definition boxa (z0 a : R) (l : list ant) : Prop :=
  forall an p, In an l -> In p (an_ptc an) -> slow p /\ (an_here an = true -> pin z0 a p).

Definition ev_in (z0 a G : R) (e : event) : Prop :=
  match e with
  | EvDeposit _ sn => (forall p, In p (members sn) -> pin z0 a p) /\ (Rabs (sn_gmin sn - goff - z0) <= G)%R
  | EvGather sn => (forall p, In p (flat_map sp_ptc (sn_species sn)) -> pin z0 a p) /\ (Rabs (sn_gmin sn - goff - z0) <= G)%R
  | _ => True
  end.

Definition growP (P : event -> Prop) (s s' : state) : Prop :=
  exists t, st_trace s' = st_trace s ++ t /\ Forall P t.
Lemma growP_refl P s : growP P s s.
Proof. exists []. rewrite app_nil_r. auto. Qed.
Lemma growP_trans P a b c : growP P a b -> growP P b c -> growP P a c.
Proof.
  intros (t & A & B) (t' & A' & B'). exists (t ++ t'). rewrite A', A, app_assoc.
  split; auto. apply Forall_app. auto.
Qed.
Lemma growP_emit (P : event -> Prop) e s : P e -> growP P s (emit e s).
Proof. intros H. exists [e]. auto. Qed.
Lemma growP_same P s s' : st_trace s' = st_trace s -> growP P s s'.
Proof. intros E. exists []. rewrite E, app_nil_r. auto. Qed.
Lemma growP_imp (P Q : event -> Prop) s s' : (forall e, P e -> Q e) -> growP P s s' -> growP Q s s'.
Proof. intros H (t & A & B). exists t. split; auto. eapply Forall_impl; eauto. Qed.

Lemma pin_mono z0 a b p : (a <= b)%R -> pin z0 a p -> pin z0 b p.
Proof. unfold pin. lra. Qed.
Lemma boxs_mono z0 a b l : (a <= b)%R -> boxs z0 a l -> boxs z0 b l.
Proof. intros H B sp p I J. destruct (B sp p I J). split; auto. eapply pin_mono; eauto. Qed.
Lemma boxa_mono z0 a b l : (a <= b)%R -> boxa z0 a l -> boxa z0 b l.
Proof. intros H B sp p I J. destruct (B sp p I J). split; auto. intros. eapply pin_mono; eauto. Qed.

Lemma slow_bound d v : (Rabs v <= cl)%R -> (Rabs (d * v) <= Rabs d * cl)%R.
Proof. intros H. rewrite Rabs_mult. apply Rmult_le_compat_l; auto. apply Rabs_pos. Qed.

Lemma push_pin z0 a d fx fy fz p : slow p -> pin z0 a p ->
  slow (push_ptc d fx fy fz p) /\ pin z0 (a + Rabs (d * fz) * cl) (push_ptc d fx fy fz p).
Proof.
  intros S P. split; auto. unfold pin, push_ptc in *; simpl in *.
  pose proof (slow_bound (d * fz) _ S) as B. apply Rabs_le_inv in B. lra.
Qed.

Lemma boxs_push z0 a d fx fy fz l : boxs z0 a l ->
  boxs z0 (a + Rabs (d * fz) * cl) (map (fun sp => {| sp_tracer := sp_tracer sp;
                                 sp_ptc := map (push_ptc d fx fy fz) (sp_ptc sp) |}) l).
Proof.
  intros B sp p I J. apply in_map_iff in I as (sp0 & <- & I). simpl in J.
  apply in_map_iff in J as (p0 & <- & J). destruct (B sp0 p0 I J). now apply push_pin.
Qed.
Lemma boxa_push z0 a d fx fy fz l : boxa z0 a l ->
  boxa z0 (a + Rabs (d * fz) * cl) (map (fun sp => {| an_here := an_here sp;
                                 an_ptc := map (push_ptc d fx fy fz) (an_ptc sp) |}) l).
Proof.
  intros B sp p I J. apply in_map_iff in I as (sp0 & <- & I). simpl in J |- *.
  apply in_map_iff in J as (p0 & <- & J). destruct (B sp0 p0 I J) as [S H].
  split; auto. intros E. now apply push_pin; auto.
Qed.

Lemma half_abs : Rabs (0.5 * dt * 1) = (0.5 * dt)%R.
Proof. rewrite Rabs_pos_eq; lra. Qed.

(** events of write_all are not grid operations *)
Lemma write_all_core (P : event -> Prop) mk l : (forall i it, P (mk i it)) -> forall i it s,
  let s' := write_all mk i l it s in
  growP P s s' /\ st_it s' = st_it s /\ st_time s' = st_time s /\ st_zmin s' = st_zmin s /\
  st_gmin s' = st_gmin s /\ st_species s' = st_species s /\ st_ants s' = st_ants s /\
  st_win s' = st_win s.
Proof.
  intros M. induction l as [|d l IH]; intros i it s; simpl.
  { repeat split; auto. apply growP_refl. }
  destruct (IH (S i) it (if writes d it then emit (mk i it) s else s)) as (A & B & C & D & E & F & G & H).
  cbv zeta in *. rewrite B, C, D, E, F, G, H.
  assert (X : growP P s (if writes d it then emit (mk i it) s else s))
    by (destruct (writes d it); [apply growP_emit; auto|apply growP_refl]).
  split; [eapply growP_trans; eauto|]. destruct (writes d it); repeat split; auto.
Qed.

Lemma members_pin z0 a sp an b b' it gm :
  boxs z0 a sp -> boxa z0 a an -> 
  forall p, In p (members {| sn_it := it; sn_species := filter b sp; sn_ants := filter b' an; sn_gmin := gm |}) ->
  (forall x, b' x = true -> an_here x = true) -> pin z0 a p.
Proof.
  intros Hs Ha p Hp Hb. unfold members in Hp. simpl in Hp. apply in_app_or in Hp as [Hp|Hp];
  apply in_flat_map in Hp as (x & I & J); apply filter_In in I as [I I'].
  - now apply (Hs x).
  - apply (Ha x p I J). auto.
Qed.

Lemma deposit_core z0 a G f b s : boxs z0 a (st_species s) -> boxa z0 a (st_ants s) ->
  (Rabs (st_gmin s - goff - z0) <= G)%R ->
  growP (ev_in z0 a G) s (deposit k f b s).
Proof.
  intros Hs Ha Hg. unfold deposit. eapply growP_trans; [|apply growP_same; reflexivity].
  apply growP_emit. simpl. split; auto. intros p Hp. eapply members_pin; eauto.
Qed.

Record keeps (s s' : state) : Prop := {
  kp_it : st_it s' = st_it s; kp_time : st_time s' = st_time s; kp_win : st_win s' = st_win s }.

Lemma gal_core d s : let s' := maybe_galilean k d s in
  st_zmin s' = (st_zmin s + vg * d)%R /\ st_gmin s' = (st_gmin s + vg * d)%R /\
  st_species s' = st_species s /\ st_ants s' = st_ants s /\ st_trace s' = st_trace s /\ keeps s s'.
Proof.
  unfold maybe_galilean, shift_galilean, grid_speed.
  destruct (k_gal k); cbn [set_grid st_zmin st_gmin st_species st_ants st_trace];
    (split; [lra|]); (split; [lra|]); repeat split; auto.
Qed.

Lemma kick_box z0 a it l : boxs z0 a l ->
  boxs z0 a (map (fun sp => {| sp_tracer := sp_tracer sp;
      sp_ptc := map (fun p => let '(a, b, d) := kick it p in
                 {| px := px p; py := py p; pz := pz p; vx := a; vy := b; vz := d |}) (sp_ptc sp) |}) l).
Proof.
  intros B sp p I J. apply in_map_iff in I as (sp0 & <- & I). simpl in J.
  apply in_map_iff in J as (p0 & <- & J). destruct (B sp0 p0 I J) as [S P].
  destruct ENV as (_ & _ & K & _). specialize (K it p0).
  destruct (kick it p0) as [[x y] z]. simpl in *. split; auto.
Qed.
Lemma laser_box z0 a t l : boxa z0 a l ->
  boxa z0 a (map (fun a => {| an_here := an_here a;
      an_ptc := map (fun p => let '(a, b) := laser t p in
                 {| px := px p; py := py p; pz := pz p; vx := a; vy := b; vz := vz p |}) (an_ptc a) |}) l).
Proof.
  intros B sp p I J. apply in_map_iff in I as (sp0 & <- & I). simpl in J |- *.
  apply in_map_iff in J as (p0 & <- & J). destruct (B sp0 p0 I J) as [S P].
  destruct (laser t p0) as [x y]. simpl in *. split; auto.
Qed.
Lemma elem_box z0 a it l : boxs z0 a l -> boxs z0 a (map (elem it) l).
Proof.
  intros B sp p I J. apply in_map_iff in I as (sp0 & <- & I).
  destruct ENV as (_ & _ & _ & K). destruct (K it sp0 p J) as (q & Q & E1 & E2).
  destruct (B sp0 q I Q) as [S P]. unfold slow, pin. rewrite E1, E2. auto.
Qed.

Lemma first_core o z0 a G s : boxs z0 a (st_species s) -> boxa z0 a (st_ants s) ->
  (Rabs (st_gmin s - goff - z0) <= G)%R ->
  let s' := first_half o s in
  growP (ev_in z0 a G) s s' /\ keeps s s' /\
  boxs z0 (a + 0.5 * dt * cl) (st_species s') /\ boxa z0 (a + 0.5 * dt * cl) (st_ants s') /\
  st_zmin s' = (st_zmin s + vg * (0.5 * dt))%R /\ st_gmin s' = (st_gmin s + vg * (0.5 * dt))%R.
Proof.
  intros Hs Ha Hg. cbv zeta. unfold Step_Model.first_half. cbv zeta.
  set (s0 := emit (EvGather (snapshot s)) s).
  assert (G0 : growP (ev_in z0 a G) s s0).
  { apply growP_emit. simpl. split; auto. intros p Hp. apply in_flat_map in Hp as (x & I & J).
    now apply (Hs x). }
  destruct (write_all_core (ev_in z0 a G) EvDiag (k_diags k) (fun _ _ => I) 0 (st_it s0) s0)
    as (A1 & A2 & A3 & A4 & A5 & A6 & A7 & A8). cbv zeta in *.
  set (s1 := write_all _ _ _ _ _) in *.
  assert (G1 : growP (ev_in z0 a G) s s1) by (eapply growP_trans; eauto).
  assert (Hs1 : boxs z0 a (st_species s1)) by (rewrite A6; exact Hs).
  assert (Ha1 : boxa z0 a (st_ants s1)) by (rewrite A7; exact Ha).
  change (st_it s0) with (st_it s) in A2. change (st_time s0) with (st_time s) in A3.
  change (st_zmin s0) with (st_zmin s) in A4. change (st_gmin s0) with (st_gmin s) in A5.
  change (st_win s0) with (st_win s) in A8.
  clearbody s1. clear A6 A7 A1 G0 s0.
  set (s2 := if o_movep o then push_p kick s1 else s1).
  assert (B2 : boxs z0 a (st_species s2) /\ st_ants s2 = st_ants s1 /\ st_zmin s2 = st_zmin s1 /\
     st_gmin s2 = st_gmin s1 /\ st_trace s2 = st_trace s1 /\ keeps s1 s2).
  { unfold s2. destruct (o_movep o); [|split; [exact Hs1|repeat split]].
    split; [apply kick_box; exact Hs1|]. repeat split. }
  destruct B2 as (B2 & C2 & D2 & E2 & T2 & K2). clearbody s2.
  set (s3 := if o_movex o then _ else s2).
  assert (B3 : boxs z0 (a + 0.5 * dt * cl) (st_species s3) /\ st_ants s3 = st_ants s2 /\ st_zmin s3 = st_zmin s2 /\
     st_gmin s3 = st_gmin s2 /\ st_trace s3 = st_trace s2 /\ keeps s2 s3).
  { unfold s3. destruct (o_movex o).
    - split; [|repeat split]. pose proof (boxs_push z0 a (0.5 * dt) 1 1 1 _ B2) as X.
      rewrite half_abs in X. exact X.
    - split; [|repeat split; auto]. apply (boxs_mono z0 a); auto.
      assert (0 <= 0.5 * dt * cl)%R by (apply Rmult_le_pos; lra). lra. }
  destruct B3 as (B3 & C3 & D3 & E3 & T3 & K3). clearbody s3.
  set (s4 := push_x_ants _ _ _ _ _).
  assert (B4 : boxa z0 (a + 0.5 * dt * cl) (st_ants s4)).
  { unfold s4, push_x_ants, update_v, set_ants. cbn [st_ants].
    rewrite <- C2, <- C3 in Ha1.
    pose proof (boxa_push z0 a (0.5 * dt) 1 1 1 _ (laser_box z0 a (st_time s3 + 0.5 * dt) _ Ha1)) as X.
    rewrite half_abs in X. exact X. }
  assert (E4 : st_species s4 = st_species s3 /\ st_zmin s4 = st_zmin s3 /\ st_gmin s4 = st_gmin s3 /\
     st_trace s4 = st_trace s3 /\ keeps s3 s4) by repeat split.
  clearbody s4. destruct E4 as (F1 & F2 & F3 & F4 & F5).
  destruct (gal_core (0.5 * dt) s4) as (H1 & H2 & H3 & H4 & H5 & H6). cbv zeta in *.
  set (s5 := maybe_galilean k (0.5 * dt) s4) in *. clearbody s5.
  cbn [set_species st_zmin st_gmin st_species st_ants st_win st_trace].
  split; [|split; [|split; [|split; [|split]]]].
  - eapply growP_trans; [exact G1|]. apply growP_same.
    cbn [set_species st_trace]. congruence.
  - destruct K2, K3, F5, H6. constructor; cbn [set_species st_it st_time st_win]; congruence.
  - apply elem_box. rewrite H3, F1. exact B3.
  - rewrite H4. exact B4.
  - rewrite H1, F2, D3, D2, A4. reflexivity.
  - rewrite H2, F3, E3, E2, A5. reflexivity.
Qed.

Lemma displ_pin z0 a h p q : slow p -> pin z0 a p -> displaced (h * 0 + h) (- h) p q \/ displaced (- h) h p q \/ displaced 0 0 p q \/ displaced h (- h) p q ->
  pin z0 (a + Rabs h * cl) q.
Proof.
  intros S P. pose proof (slow_bound h _ S) as B. apply Rabs_le_inv in B. unfold pin in *.
  assert (0 <= Rabs h * cl)%R by (apply Rmult_le_pos; auto; apply Rabs_pos).
  intros [(_ & _ & E)|[(_ & _ & E)|[(_ & _ & E)|(_ & _ & E)]]]; rewrite E; lra.
Qed.

Lemma moved_pin z0 a h u w (b : bool) l l' an an' sn :
  boxs z0 a l -> boxa z0 a an ->
  ((u = h /\ w = - h) \/ (u = - h /\ w = h))%R ->
  moved_species (if b then u else 0%R) (if b then w else 0%R) (depositors l) l' ->
  moved_ants u w (filter an_here an) an' ->
  sn_species sn = l' -> sn_ants sn = an' ->
  forall p, In p (members sn) -> pin z0 (a + Rabs h * cl) p.
Proof.
  intros Hs Ha Hu Ms Ma <- <- q Hq. unfold members in Hq.
  apply in_app_or in Hq as [Hq|Hq]; apply in_flat_map in Hq as (x & I & J).
  - assert (X : exists x0 p, In x0 (depositors l) /\ In p (sp_ptc x0) /\
        displaced (if b then u else 0%R) (if b then w else 0%R) p q).
    { clear Ma Hs Ha. induction Ms as [|sp sp' L L' (_ & _ & F) Ms IH]; [easy|].
      destruct I as [->|I].
      - assert (exists p, In p (sp_ptc sp) /\ displaced (if b then u else 0%R) (if b then w else 0%R) p q) as (p & Ip & D).
        { clear -F J. induction F as [|y y' ll ll' D F IH]; [easy|].
          destruct J as [<-|J]; [exists y; split; [now left|auto]|].
          destruct (IH J) as (p & Ip & Dp). exists p. split; [now right|auto]. }
        exists sp, p. split; [now left|auto].
      - destruct (IH I) as (x0 & p & A & B & C). exists x0, p. split; [now right|auto]. }
    destruct X as (x0 & p & A & B & D). apply filter_In in A as [A _].
    destruct (Hs x0 p A B) as [S P]. apply (displ_pin z0 a h p q S P).
    destruct b, Hu as [[-> ->]|[-> ->]]; auto.
  - assert (X : exists x0 p, In x0 (filter an_here an) /\ In p (an_ptc x0) /\ displaced u w p q).
    { clear Ms Hs Ha. induction Ma as [|sp sp' L L' F Ms IH]; [easy|].
      destruct I as [->|I].
      - assert (exists p, In p (an_ptc sp) /\ displaced u w p q) as (p & Ip & D).
        { clear -F J. induction F as [|y y' ll ll' D F IH]; [easy|].
          destruct J as [<-|J]; [exists y; split; [now left|auto]|].
          destruct (IH J) as (p & Ip & Dp). exists p. split; [now right|auto]. }
        exists sp, p. split; [now left|auto].
      - destruct (IH I) as (x0 & p & A & B & C). exists x0, p. split; [now right|auto]. }
    destruct X as (x0 & p & A & B & D). apply filter_In in A as [A A'].
    destruct (Ha x0 p A B) as [S P]. apply (displ_pin z0 a h p q S (P A')).
    destruct Hu as [[-> ->]|[-> ->]]; auto.
Qed.

Lemma gdt d : (0 <= d)%R -> (Rabs (vg * d) <= vm * d)%R.
Proof. intros H. rewrite Rabs_mult, (Rabs_pos_eq d) by auto. apply Rmult_le_compat_r; auto. Qed.

Lemma second_core o z0 a G s : boxs z0 a (st_species s) -> boxa z0 a (st_ants s) ->
  (Rabs (st_gmin s - goff - z0) <= G)%R ->
  let s' := second_half o s in
  growP (ev_in z0 (a + 0.5 * dt * cl) (G + vm * (0.5 * dt))) s s' /\ keeps s s' /\
  boxs z0 (a + 0.5 * dt * cl) (st_species s') /\ boxa z0 (a + 0.5 * dt * cl) (st_ants s') /\
  st_zmin s' = (st_zmin s + vg * (0.5 * dt))%R /\ st_gmin s' = (st_gmin s + vg * (0.5 * dt))%R.
Proof.
  intros Hs Ha Hg. cbv zeta. unfold Step_Model.second_half. cbv zeta.
  assert (P0 : (0 <= 0.5 * dt * cl)%R) by (apply Rmult_le_pos; lra).
  assert (V0 : (0 <= vm)%R) by (eapply Rle_trans; [apply Rabs_pos|exact Hvm]).
  assert (P1 : (0 <= vm * (0.5 * dt))%R) by (apply Rmult_le_pos; lra).
  pose proof (gdt (0.5 * dt) ltac:(lra)) as GD.
  set (P := ev_in z0 (a + 0.5 * dt * cl) (G + vm * (0.5 * dt))).
  set (s1 := deposit k J _ s).
  assert (G1 : growP P s s1).
  { apply (growP_imp (ev_in z0 a G)).
    - intros [] H; simpl in *; auto; destruct H as [H1 H2]; split; try lra;
      intros p Hp; (eapply pin_mono; [|apply H1; auto]); lra.
    - now apply deposit_core. }
  set (s2 := if _ && _ then _ else s1).
  assert (B2 : st_species s2 = st_species s /\ st_ants s2 = st_ants s /\ st_zmin s2 = st_zmin s /\
     st_gmin s2 = st_gmin s /\ growP P s1 s2 /\ keeps s s2).
  { unfold s2. destruct (o_cc o && k_cross k);
      [|repeat split; auto; apply growP_refl].
    destruct (C14_final k (o_movex o) s1) as (A1 & A2 & A3 & A4 & x & y & A5 & M1 & M2 & M3 & M4 & M5 & M6).
    cbv zeta in *. destruct (C14_main k (o_movex o) s1) as (_ & _ & _ & _ & Q1 & Q2 & Q3 & _). cbv zeta in *.
    rewrite A1, A2, A3, A4. repeat (split; [reflexivity|]). split.
    - exists [EvDeposit rho_next_xy x; EvDeposit rho_next_z y]. split; [exact A5|].
      constructor; [|constructor; [|constructor]]; simpl; split.
      + intros p Hp. assert (X : pin z0 (a + Rabs (0.5 * dt) * cl) p).
        { eapply moved_pin; try exact Hp; try reflexivity; [exact Hs|exact Ha| |exact M1|exact M2].
          left; split; reflexivity. }
        rewrite Rabs_pos_eq in X by lra. exact X.
      + rewrite M3. fold (grid_speed k).
        change (st_gmin s1) with (st_gmin s).
        apply Rabs_le_inv in Hg, GD. apply Rabs_le. lra.
      + intros p Hp. assert (X : pin z0 (a + Rabs (0.5 * dt) * cl) p).
        { eapply moved_pin; try exact Hp; try reflexivity; [exact Hs|exact Ha| |exact M4|exact M5].
          right; split; reflexivity. }
        rewrite Rabs_pos_eq in X by lra. exact X.
      + rewrite M6. fold (grid_speed k).
        change (st_gmin s1) with (st_gmin s).
        apply Rabs_le_inv in Hg, GD. apply Rabs_le. lra.
    - constructor; [rewrite Q1|rewrite Q2|rewrite Q3]; reflexivity. }
  destruct B2 as (B1 & B2 & B3 & B4 & B5 & B6). clearbody s2.
  set (s3 := if o_movex o then _ else s2).
  assert (C3 : boxs z0 (a + 0.5 * dt * cl) (st_species s3) /\ st_ants s3 = st_ants s2 /\ st_zmin s3 = st_zmin s2 /\
     st_gmin s3 = st_gmin s2 /\ st_trace s3 = st_trace s2 /\ keeps s2 s3).
  { unfold s3. destruct (o_movex o).
    - split; [|repeat split]. rewrite <- B1 in Hs. pose proof (boxs_push z0 a (0.5 * dt) 1 1 1 _ Hs) as X.
      rewrite half_abs in X. exact X.
    - split; [|repeat split; auto]. rewrite B1. apply (boxs_mono z0 a); auto. lra. }
  destruct C3 as (C1 & C2 & C3 & C4 & C5 & C6). clearbody s3.
  set (s4 := push_x_ants _ _ _ _ _).
  assert (D4 : boxa z0 (a + 0.5 * dt * cl) (st_ants s4)).
  { unfold s4, push_x_ants, set_ants. cbn [st_ants].
    rewrite <- B2, <- C2 in Ha.
    pose proof (boxa_push z0 a (0.5 * dt) 1 1 1 _ Ha) as X.
    rewrite half_abs in X. exact X. }
  assert (E4 : st_species s4 = st_species s3 /\ st_zmin s4 = st_zmin s3 /\ st_gmin s4 = st_gmin s3 /\
     st_trace s4 = st_trace s3 /\ keeps s3 s4) by repeat split.
  clearbody s4. destruct E4 as (F1 & F2 & F3 & F4 & F5).
  destruct (gal_core (0.5 * dt) s4) as (H1 & H2 & H3 & H4 & H5 & H6). cbv zeta in *.
  set (s5 := maybe_galilean k (0.5 * dt) s4) in *. clearbody s5.
  assert (S5 : boxs z0 (a + 0.5 * dt * cl) (st_species s5)) by (rewrite H3, F1; exact C1).
  assert (A5 : boxa z0 (a + 0.5 * dt * cl) (st_ants s5)) by (rewrite H4; exact D4).
  assert (M5 : st_gmin s5 = (st_gmin s + vg * (0.5 * dt))%R) by (rewrite H2, F3, C4, B4; reflexivity).
  split; [|split; [|split; [|split; [|split]]]].
  - eapply growP_trans; [exact G1|]. eapply growP_trans; [exact B5|].
    eapply growP_trans with (b := s5); [apply growP_same; congruence|].
    apply deposit_core; auto. rewrite M5. apply Rabs_le_inv in Hg, GD. apply Rabs_le. lra.
  - destruct B6, C6, F5, H6. constructor; [change (st_it s5 = st_it s)|change (st_time s5 = st_time s)|change (st_win s5 = st_win s)]; congruence.
  - exact S5.
  - exact A5.
  - change (st_zmin s5 = (st_zmin s + vg * (0.5 * dt))%R). rewrite H1, F2, C3, B3. reflexivity.
  - exact M5.
Qed.

Lemma field_core o s s' : field_update k o s = Ok s' ->
  st_zmin s' = st_zmin s /\ st_gmin s' = st_gmin s /\ st_species s' = st_species s /\
  st_ants s' = st_ants s /\ keeps s s' /\ forall z0 a G, growP (ev_in z0 a G) s s'.
Proof.
  unfold field_update.
  assert (P : forall s1, bind (push_fields (o_true_rho o) (1 <? k_size k) s1)
            (fun s => if o_divE o then correct_divE k s else Ok s) = Ok s' ->
     st_zmin s' = st_zmin s1 /\ st_gmin s' = st_gmin s1 /\ st_species s' = st_species s1 /\
     st_ants s' = st_ants s1 /\ keeps s1 s' /\ forall z0 a G, growP (ev_in z0 a G) s1 s').
  { intros s1. unfold push_fields.
    destruct (if 1 <? k_size k then _ else _); simpl; [|discriminate].
    unfold correct_divE. intros H.
    assert (E : s' = set_src rho_prev
              {| s_flag := s_flag (st_src s1 rho_prev);
                 s_exch := s_exch (st_src s1 rho_next) |}
              (set_src rho_next {| s_flag := s_flag (st_src s1 rho_next); s_exch := 0 |}
                 (emit (EvPush (st_it s1) (o_true_rho o) (s_exch (st_src s1 J)) (s_exch (st_src s1 rho_prev))
                          (s_exch (st_src s1 rho_next))) s1))).
    { destruct (o_divE o); [destruct (k_cross k); [discriminate|]|]; inversion H; reflexivity. }
    rewrite E. repeat (split; [reflexivity|]). split; [repeat split|]. intros z0 a1 G.
    eapply growP_trans; [|apply growP_same; reflexivity]. apply growP_emit. exact I. }
  destruct (o_cc o); simpl.
  - unfold correct_currents. destruct (if 1 <? k_size k then _ else _); simpl; [|discriminate].
    intros H. apply P in H. destruct H as (A & B & C & D & E & F).
    rewrite A, B, C, D. repeat (split; [reflexivity|]). split.
    + destruct E. constructor; auto.
    + intros. eapply growP_trans; [|apply F]. eapply growP_trans; [|apply growP_same; reflexivity].
      apply growP_emit. exact I.
  - apply P.
Qed.

(** window bookkeeping *)
Definition side (v r : R) : Prop :=
  if Rle_dec vg v then (0 <= r < k_dz k)%R else (- k_dz k < r <= 0)%R.
Lemma side_diff v r r0 : side v r -> side v r0 -> (Rabs (r - r0) <= k_dz k)%R.
Proof. unfold side. destruct (Rle_dec vg v); intros; apply Rabs_le; lra. Qed.

Lemma trunc_side v r : side v r -> let r1 := (r + (v - vg) * dt)%R in
  side v (r1 - IZR (Ztrunc (r1 / k_dz k)) * k_dz k).
Proof.
  cbv zeta. unfold side. destruct (Rle_dec vg v) as [L|L]; intros H.
  - set (r1 := (r + (v - vg) * dt)%R).
    assert (0 <= (v - vg) * dt)%R by (apply Rmult_le_pos; lra).
    assert (R1 : (0 <= r1)%R) by (unfold r1; lra).
    assert (Q : (0 <= r1 / k_dz k)%R) by (apply div_nonneg; lra).
    rewrite Ztrunc_floor by auto.
    pose proof (Zfloor_lb (r1 / k_dz k)) as L1. pose proof (Zfloor_ub (r1 / k_dz k)) as L2.
    assert (E : (r1 = r1 / k_dz k * k_dz k)%R) by (field; lra).
    set (q := (r1 / k_dz k)%R) in *. set (n := IZR (Zfloor q)) in *.
    assert (0 <= (q - n) * k_dz k)%R by (apply Rmult_le_pos; lra).
    assert ((q - n) * k_dz k < 1 * k_dz k)%R by (apply Rmult_lt_compat_r; lra). lra.
  - set (r1 := (r + (v - vg) * dt)%R).
    assert ((v - vg) * dt <= 0)%R.
    { assert (0 <= (vg - v) * dt)%R by (apply Rmult_le_pos; lra). lra. }
    assert (R1 : (r1 <= 0)%R) by (unfold r1; lra).
    assert (Q : (r1 / k_dz k <= 0)%R).
    { assert (0 <= (- r1) / k_dz k)%R by (apply div_nonneg; lra).
      replace (- r1 / k_dz k)%R with (- (r1 / k_dz k))%R in * by (field; lra). lra. }
    rewrite Ztrunc_ceil by auto.
    pose proof (Zceil_ub (r1 / k_dz k)) as L1. pose proof (Zceil_lb (r1 / k_dz k)) as L2.
    assert (E : (r1 = r1 / k_dz k * k_dz k)%R) by (field; lra).
    set (q := (r1 / k_dz k)%R) in *. set (n := IZR (Zceil q)) in *.
    assert (0 <= (n - q) * k_dz k)%R by (apply Rmult_le_pos; lra).
    assert ((n - q) * k_dz k < 1 * k_dz k)%R by (apply Rmult_lt_compat_r; lra). lra.
Qed.

Definition wd (s : state) : R := match st_win s with None => 0 | Some _ => k_dz k end.

Definition inv (n : nat) (z0 : R) (s : state) : Prop :=
  boxs z0 (INR n * (cl * dt)) (st_species s) /\ boxa z0 (INR n * (cl * dt)) (st_ants s) /\
  st_gmin s = (st_zmin s + goff)%R /\ window_ok k vm s /\
  match st_win s with
  | None => st_zmin s = (z0 + INR n * (vg * dt))%R
  | Some w => exists r0, side (w_v w) r0 /\ w_zmin w = (z0 + r0 + INR n * (w_v w * dt))%R
  end.

Lemma inv_grid n z0 s : inv n z0 s -> (Rabs (st_gmin s - goff - z0) <= INR n * (vm * dt) + wd s)%R.
Proof.
  intros (_ & _ & E & W & H). rewrite E. unfold wd, window_ok in *.
  pose proof (pos_INR n) as Pn.
  destruct (st_win s) as [w|].
  - destruct H as (r0 & S0 & Ew). destruct W as (_ & Vw & S).
    fold (side (w_v w) (w_zmin w - st_zmin s)) in S.
    pose proof (side_diff _ _ _ S S0) as D. rewrite Ew in D. apply Rabs_le_inv in D.
    assert (B : (Rabs (INR n * (w_v w * dt)) <= INR n * (vm * dt))%R).
    { rewrite Rabs_mult, (Rabs_pos_eq (INR n)) by auto. apply Rmult_le_compat_l; auto.
      rewrite Rabs_mult, (Rabs_pos_eq dt) by auto. apply Rmult_le_compat_r; auto. }
    apply Rabs_le_inv in B. apply Rabs_le. lra.
  - rewrite H. replace (z0 + INR n * (vg * dt) + goff - goff - z0)%R with (INR n * (vg * dt))%R by lra.
    rewrite Rplus_0_r, Rabs_mult, (Rabs_pos_eq (INR n)) by auto. apply Rmult_le_compat_l; auto.
    now apply gdt.
Qed.

Lemma move_core s : window_ok k vm {| st_it := st_it s; st_time := st_time s; st_zmin := st_zmin s - vg * dt;
    st_gmin := st_gmin s; st_species := st_species s; st_ants := st_ants s;
    st_src := st_src s; st_win := st_win s; st_trace := st_trace s |} ->
  let s' := move_grids k (st_time s) s in
  st_species s' = st_species s /\ st_ants s' = st_ants s /\ st_it s' = st_it s /\ st_time s' = st_time s /\
  (st_gmin s' - st_zmin s' = st_gmin s - st_zmin s)%R /\
  (forall z0 a G, growP (ev_in z0 a G) s s') /\
  match st_win s with
  | None => st_win s' = None /\ st_zmin s' = st_zmin s
  | Some w => exists w', st_win s' = Some w' /\ w_v w' = w_v w /\ w_zmin w' = (w_zmin w + w_v w * dt)%R /\
        w_last w' = st_time s /\ side (w_v w) (w_zmin w' - st_zmin s')
  end.
Proof.
  intros W. cbv zeta. unfold move_grids, window_ok in *. cbn [st_win st_time st_zmin] in W.
  destruct (st_win s) as [w|] eqn:Ew.
  - destruct W as (L & V & S). fold (side (w_v w) (w_zmin w - (st_zmin s - vg * dt))) in S.
    cbv zeta. set (zw := (w_zmin w + w_v w * (st_time s - w_last w))%R).
    assert (Ezw : zw = (w_zmin w + w_v w * dt)%R) by (unfold zw; rewrite L; lra).
    set (nm := Ztrunc ((zw - st_zmin s) / k_dz k)).
    pose proof (trunc_side _ _ S) as T. cbv zeta in T.
    replace (w_zmin w - (st_zmin s - vg * dt) + (w_v w - vg) * dt)%R with (zw - st_zmin s)%R in T by (rewrite Ezw; lra).
    fold nm in T.
    set (s1 := if nm =? 0 then s else _).
    assert (Z1 : st_zmin s1 = (st_zmin s + IZR nm * k_dz k)%R /\ (st_gmin s1 - st_zmin s1 = st_gmin s - st_zmin s)%R /\
       st_species s1 = st_species s /\ st_ants s1 = st_ants s /\ st_it s1 = st_it s /\ st_time s1 = st_time s /\ st_trace s1 = st_trace s).
    { unfold s1. destruct (Z.eqb_spec nm 0) as [->|_].
      - repeat split; auto; lra.
      - cbn [set_grid st_zmin st_gmin]. repeat split; auto; lra. }
    destruct Z1 as (Z1 & Z2 & Z3 & Z4 & Z5 & Z6 & Z7). clearbody s1.
    cbn [emit set_win st_species st_ants st_it st_time st_zmin st_gmin st_win].
    repeat (split; [assumption|]). split.
    + intros z0 a G. eapply growP_trans; [|apply growP_emit; exact I]. now apply growP_same.
    + eexists. split; [reflexivity|]. cbn [w_v w_zmin w_last]. repeat split; auto.
      replace (zw - st_zmin s1)%R with (zw - st_zmin s - IZR nm * k_dz k)%R by (rewrite Z1; lra). exact T.
  - repeat split; auto. intros. apply growP_refl.
Qed.

Lemma iteration_core o z0 n s s' : inv n z0 s ->
  bind (field_update k o (second_half o (first_half o s))) (fun s => Ok (end_of_step k s)) = Ok s' ->
  growP (ev_in z0 (INR (S n) * (cl * dt)) (INR (S n) * (vm * dt) + wd s)) s s' /\
  inv (S n) z0 s' /\ wd s' = wd s /\ st_it s' = st_it s + 1.
Proof.
  intros HI. pose proof (inv_grid _ _ _ HI) as HG. destruct HI as (Hs & Ha & Hg & HW & HM).
  assert (P0 : (0 <= 0.5 * dt * cl)%R) by (apply Rmult_le_pos; lra).
  assert (V0 : (0 <= vm)%R) by (eapply Rle_trans; [apply Rabs_pos|exact Hvm]).
  assert (P1 : (0 <= vm * (0.5 * dt))%R) by (apply Rmult_le_pos; lra).
  pose proof (gdt (0.5 * dt) ltac:(lra)) as GD.
  set (a := (INR n * (cl * dt))%R) in *. set (G := (INR n * (vm * dt) + wd s)%R) in *.
  assert (Ea : (INR (S n) * (cl * dt) = a + 0.5 * dt * cl + 0.5 * dt * cl)%R)
    by (rewrite S_INR; unfold a; lra).
  assert (EG : (INR (S n) * (vm * dt) + wd s = G + vm * (0.5 * dt) + vm * (0.5 * dt))%R)
    by (rewrite S_INR; unfold G; lra).
  rewrite Ea, EG.
  destruct (first_core o z0 a G s Hs Ha HG) as (G1 & K1 & S1 & A1 & Z1 & M1). cbv zeta in *.
  set (s1 := first_half o s) in *. clearbody s1.
  assert (HG1 : (Rabs (st_gmin s1 - goff - z0) <= G + vm * (0.5 * dt))%R).
  { rewrite M1. apply Rabs_le_inv in HG, GD. apply Rabs_le. lra. }
  destruct (second_core o z0 _ _ s1 S1 A1 HG1) as (G2 & K2 & S2 & A2 & Z2 & M2). cbv zeta in *.
  set (s2 := second_half o s1) in *. clearbody s2.
  destruct (field_update k o s2) as [s3|] eqn:F; cbn [bind]; [|discriminate].
  intros H. assert (E : s' = end_of_step k s3) by (inversion H; reflexivity). clear H. subst s'.
  destruct (field_core _ _ _ F) as (Z3 & M3 & S3 & A3 & K3 & G3). clear F.
  set (P := ev_in z0 (a + 0.5 * dt * cl + 0.5 * dt * cl) (G + vm * (0.5 * dt) + vm * (0.5 * dt))).
  assert (G13 : growP P s s3).
  { eapply growP_trans; [|eapply growP_trans; [exact G2|apply G3]].
    eapply growP_imp; [|exact G1].
    intros [] H; simpl in *; auto; destruct H as [H1 H2]; split; try lra;
      intros p Hp; (eapply pin_mono; [|apply H1; auto]); lra. }
  assert (IT : st_it s3 = st_it s) by (destruct K1, K2, K3; congruence).
  assert (TI : st_time s3 = st_time s) by (destruct K1, K2, K3; congruence).
  assert (WI : st_win s3 = st_win s) by (destruct K1, K2, K3; congruence).
  assert (ZI : st_zmin s3 = (st_zmin s + vg * dt)%R) by (rewrite Z3, Z2, Z1; lra).
  assert (MI : st_gmin s3 = (st_gmin s + vg * dt)%R) by (rewrite M3, M2, M1; lra).
  unfold end_of_step. cbv zeta.
  assert (W3 : window_ok k vm {| st_it := st_it s3; st_time := st_time s3; st_zmin := st_zmin s3 - vg * dt;
    st_gmin := st_gmin s3; st_species := st_species s3; st_ants := st_ants s3;
    st_src := st_src s3; st_win := st_win s3; st_trace := st_trace s3 |}).
  { unfold window_ok in *. cbn [st_win st_time st_zmin]. rewrite WI, TI, ZI.
    replace (st_zmin s + vg * dt - vg * dt)%R with (st_zmin s) by lra. exact HW. }
  destruct (move_core s3 W3) as (S4 & A4 & I4 & T4 & D4 & G4 & X4). cbv zeta in *.
  set (s4 := move_grids k (st_time s3) s3) in *. clearbody s4.
  set (s5 := {| st_it := st_it s4 + 1 |}).
  destruct (write_all_core P EvCheckpoint (k_checks k) (fun _ _ => I) 0 (st_it s5) s5)
    as (B1 & B2 & B3 & B4 & B5 & B6 & B7 & B8). cbv zeta in *.
  set (s6 := write_all _ _ _ _ _) in *. clearbody s6.
  change (st_it s5) with (st_it s4 + 1) in B2. change (st_time s5) with (st_time s4 + dt)%R in B3.
  change (st_zmin s5) with (st_zmin s4) in B4. change (st_gmin s5) with (st_gmin s4) in B5.
  change (st_species s5) with (st_species s4) in B6. change (st_ants s5) with (st_ants s4) in B7.
  change (st_win s5) with (st_win s4) in B8.
  split; [|split; [|split]].
  - eapply growP_trans; [exact G13|]. eapply growP_trans; [apply G4|].
    eapply growP_trans; [|exact B1]. apply growP_same. reflexivity.
  - unfold inv. rewrite B6, S4, S3, B7, A4, A3, Ea, B5, B4, B8.
    split; [exact S2|]. split; [exact A2|]. split; [lra|].
    rewrite WI in X4. unfold window_ok. rewrite B8, B3, B4. unfold window_ok in HW. destruct (st_win s) as [w|].
    + destruct X4 as (w' & X1 & X2 & X3 & X5 & X6). rewrite X1, X2. split.
      * split; [rewrite X5, T4; lra|]. destruct HW as (_ & V & _). split; [exact V|]. exact X6.
      * destruct HM as (r0 & R0 & R1). exists r0. split; [exact R0|].
        rewrite X3, R1, S_INR. lra.
    + destruct X4 as [X1 X2]. rewrite X1. split; [exact I|]. rewrite X2, ZI, HM, S_INR. lra.
  - unfold wd. rewrite B8. rewrite WI in X4. destruct (st_win s) as [w|].
    + destruct X4 as (w' & -> & _). reflexivity.
    + destruct X4 as [-> _]. reflexivity.
  - rewrite B2, I4, IT. reflexivity.
Qed.

(** what holds between iterations: [n] iterations done since the last exchange *)
Definition between (s : state) : Prop :=
  exists n z0, inv n z0 s /\ (1 <= n)%nat /\ (Z.of_nat n <= k_period k) /\
    (st_it s mod k_period k <> 0 -> Z.of_nat n <= st_it s mod k_period k).

Definition T (w : R) : R := (IZR (k_period k) * ((cl + vm) * dt) + w)%R.

Lemma exch_inv o s : st_gmin s = (st_zmin s + goff)%R -> window_ok k vm s ->
  (forall an p, In an (st_ants s) -> In p (an_ptc an) -> slow p) ->
  let s' := do_exchange o s in
  inv 0 (st_zmin s) s' /\ growP (ev_in (st_zmin s) 0 0) s s' /\ wd s' = wd s /\ st_it s' = st_it s.
Proof.
  intros Hg HW HA. cbv zeta. unfold Step_Model.do_exchange. cbv zeta.
  set (s1 := set_species _ s). set (s2 := set_ants _ s1).
  destruct ENV as (E1 & E2 & _ & _).
  assert (Bs : boxs (st_zmin s) 0 (st_species s2)).
  { intros sp p I J. unfold s2, s1 in I. cbn [set_ants set_species st_species] in I.
    apply in_map_iff in I as (sp0 & <- & I). destruct (E1 _ _ _ _ J) as [X Y]. split; auto.
    unfold pin. lra. }
  assert (Ba : boxa (st_zmin s) 0 (st_ants s2)).
  { intros an p I J. unfold s2, s1 in I. cbn [set_ants set_species st_ants st_zmin] in I.
    apply in_map_iff in I as (a0 & <- & I). cbn [an_ptc an_here] in *. split; [eauto|].
    intros H. assert (here (st_zmin s) {| an_here := an_here a0; an_ptc := an_ptc a0 |} = true) as H'.
    { destruct a0; exact H. }
    pose proof (E2 _ _ _ H' J). unfold pin. lra. }
  assert (Gr : growP (ev_in (st_zmin s) 0 0) s (emit (EvExchange (st_it s2)) s2)).
  { eapply growP_trans with (b := s2); [apply growP_same; reflexivity|]. apply growP_emit. exact I. }
  split; [|split; [|split]].
  - unfold inv. change (INR 0) with 0%R. rewrite !Rmult_0_l.
    split; [exact Bs|]. split; [exact Ba|]. split; [exact Hg|]. split; [exact HW|].
    change (st_win (deposit k rho_prev (o_true_rho o) (emit (EvExchange (st_it s2)) s2))) with (st_win s).
    unfold window_ok in HW. destruct (st_win s) as [w|].
    + destruct HW as (_ & _ & S). exists (w_zmin w - st_zmin s)%R. split; [exact S|]. lra.
    + change (st_zmin s = (st_zmin s + 0)%R). lra.
  - eapply growP_trans; [exact Gr|]. apply deposit_core.
    + exact Bs. + exact Ba.
    + change (Rabs (st_gmin s - goff - st_zmin s) <= 0)%R. rewrite Hg.
      replace (st_zmin s + goff - goff - st_zmin s)%R with 0%R by lra. rewrite Rabs_R0. lra.
  - reflexivity.
  - reflexivity.
Qed.

Definition ready (s : state) : Prop :=
  st_gmin s = (st_zmin s + goff)%R /\ window_ok k vm s /\
  (forall an p, In an (st_ants s) -> In p (an_ptc an) -> slow p).

Lemma inv_ready n z0 s : inv n z0 s -> ready s.
Proof.
  intros (_ & A & B & C & _). split; [auto|]. split; [auto|]. intros an p I J. apply (A an p I J).
Qed.

Lemma ev_strays z0 a G w e : (a + G <= T w)%R -> ev_in z0 a G e ->
  strays_at_most (T w) (lo - goff) (hi - goff) e.
Proof.
  intros H. destruct e; simpl; auto; intros [H1 H2] p Hp; specialize (H1 p Hp); unfold pin in H1;
  apply Rabs_le_inv in H2; lra.
Qed.

Lemma iteration_between o b s s' : 1 <= k_period k ->
  iteration o b s = Ok s' -> (if b then ready s else between s) ->
  growP (strays_at_most (T (wd s)) (lo - goff) (hi - goff)) s s' /\ between s' /\ wd s' = wd s.
Proof.
  intros HP. unfold Step_Model.iteration. cbv zeta.
  set (ex := (st_it s mod k_period k =? 0) || b).
  set (s1 := if ex then _ else s). set (s2 := if b then _ else s1).
  intros H HB.
  assert (V0 : (0 <= vm)%R) by (eapply Rle_trans; [apply Rabs_pos|exact Hvm]).
  assert (Pm : forall n, (Z.of_nat n <= k_period k) ->
     (INR n * (cl * dt) + (INR n * (vm * dt) + wd s) <= T (wd s))%R).
  { intros n Hn. unfold T. assert (INR n <= IZR (k_period k))%R by (rewrite INR_IZR_INZ; apply IZR_le; auto).
    assert (0 <= (cl + vm) * dt)%R by (apply Rmult_le_pos; lra).
    assert (INR n * ((cl + vm) * dt) <= IZR (k_period k) * ((cl + vm) * dt))%R by (apply Rmult_le_compat_r; auto). lra. }
  assert (W0 : (0 <= wd s)%R) by (unfold wd; destruct (st_win s); lra).
  assert (T0 : (0 + 0 <= T (wd s))%R).
  { specialize (Pm 0%nat ltac:(lia)). change (INR 0) with 0%R in Pm. lra. }
  assert (Q : exists n z0, inv n z0 s2 /\ growP (strays_at_most (T (wd s)) (lo - goff) (hi - goff)) s s2 /\ wd s2 = wd s /\ st_it s2 = st_it s /\
     (Z.of_nat n < k_period k) /\ Z.of_nat n <= st_it s mod k_period k).
  { pose proof (Z.mod_pos_bound (st_it s) (k_period k) ltac:(lia)) as MB.
    destruct ex eqn:EX.
    - assert (R : ready s).
      { destruct b; auto. destruct HB as (n & z0 & HI & _). eapply inv_ready; eauto. }
      destruct R as (R1 & R2 & R3). destruct (exch_inv o s R1 R2 R3) as (I1 & G1 & W1 & T1). cbv zeta in *.
      change (do_exchange o s) with s1 in I1, G1, W1, T1.
      exists 0%nat, (st_zmin s).
      assert (G1' : growP (strays_at_most (T (wd s)) (lo - goff) (hi - goff)) s s1).
      { eapply growP_imp; [|exact G1]. intros e. now apply ev_strays. }
      split; [|split; [|split; [|split; [|split]]]]; try (simpl; lia).
      + unfold s2. destruct b; [|exact I1]. exact I1.
      + unfold s2. destruct b; [|exact G1']. eapply growP_trans; [exact G1'|].
        pose proof (inv_grid _ _ _ I1) as IG. destruct I1 as (B1 & B2 & B3 & B4 & B5).
        change (INR 0) with 0%R in *. rewrite !Rmult_0_l in *.
        eapply growP_imp; [|apply deposit_core; [exact B1|exact B2|exact IG]].
        intros e. apply ev_strays. rewrite W1. specialize (Pm 0%nat ltac:(lia)). change (INR 0) with 0%R in Pm. lra.
      + unfold s2. destruct b; exact W1.
      + unfold s2. destruct b; exact T1.
    - apply orb_false_iff in EX as [E1 E2]. subst b. unfold s2, s1.
      destruct HB as (n & z0 & HI & H1 & H2 & H3). exists n, z0.
      assert (st_it s mod k_period k <> 0) by (apply Z.eqb_neq; auto).
      specialize (H3 H0). split; [auto|]. split; [apply growP_refl|]. repeat split; auto; lia. }
  destruct Q as (n & z0 & I2 & G2 & W2 & T2 & N1 & N2).
  destruct (iteration_core o z0 n s2 s' I2 H) as (G3 & I3 & W3 & T3).
  split; [|split].
  - eapply growP_trans; [exact G2|]. eapply growP_imp; [|exact G3].
    intros e. apply ev_strays. rewrite W2. apply Pm. lia.
  - exists (S n), z0. split; [auto|]. split; [lia|]. split; [lia|]. rewrite T3, T2. intros NZ.
    assert (E : (st_it s + 1) mod k_period k = st_it s mod k_period k + 1).
    { assert (2 <= k_period k). { destruct (Z.eq_dec (k_period k) 1) as [E|]; [|lia]. rewrite E, Z.mod_1_r in NZ. lia. }
      rewrite Z.add_mod by lia. rewrite (Z.mod_small 1) by lia.
      pose proof (Z.mod_pos_bound (st_it s) (k_period k) ltac:(lia)).
      destruct (Z.eq_dec (st_it s mod k_period k + 1) (k_period k)) as [E|NE].
      - exfalso. apply NZ. rewrite Z.add_mod by lia. rewrite (Z.mod_small 1) by lia. rewrite E. apply Z.mod_same. lia.
      - apply Z.mod_small. lia. }
    rewrite E. lia.
  - congruence.
Qed.

Lemma loop_between o n : 1 <= k_period k -> forall b s s', loop o b n s = Ok s' ->
  (if b then ready s else between s) ->
  growP (strays_at_most (T (wd s)) (lo - goff) (hi - goff)) s s' /\ ready s' /\ wd s' = wd s.
Proof.
  intros HP. induction n as [|n IH]; intros b s s' H HB; cbn [Step_Model.loop] in H.
  - assert (s' = s) by (inversion H; auto). subst. split; [apply growP_refl|]. split; auto.
    destruct b; auto. destruct HB as (m & z0 & HI & _). eapply inv_ready; eauto.
  - destruct (iteration o b s) as [s1|] eqn:E; cbn [bind] in H; [|discriminate].
    destruct (iteration_between _ _ _ _ HP E HB) as (A & B & C).
    destruct (IH false s1 s' H B) as (A' & B' & C'). rewrite C in *.
    split; [eapply growP_trans; eauto|]. split; [auto|congruence].
Qed.

Lemma steps_strays calls : 1 <= k_period k -> forall s s', steps calls s = Ok s' -> ready s ->
  growP (strays_at_most (T (wd s)) (lo - goff) (hi - goff)) s s' /\ ready s' /\ wd s' = wd s.
Proof.
  intros HP. induction calls as [|[o N] calls IH]; intros s s' H HR; cbn [Step_Model.steps] in H.
  - assert (s' = s) by (inversion H; auto). subst. split; [apply growP_refl|]. auto.
  - destruct (step o N s) as [s1|] eqn:E; cbn [bind] in H; [|discriminate].
    unfold Step_Model.step in E.
    destruct ((1 <? k_size k) && o_divE o); [discriminate|].
    destruct ((1 <? k_size k) && o_true_rho o && o_cc o); [discriminate|].
    destruct (loop_between _ _ HP _ _ _ E HR) as (A & B & C).
    destruct (IH s1 s' H B) as (A' & B' & C'). rewrite C in *.
    split; [eapply growP_trans; eauto|]. split; [auto|congruence].
Qed.
End M.
