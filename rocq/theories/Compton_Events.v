(** Proofs for C29-C31: the events of a step. *)
From Verif Require Import Base Sort_Model Ionize_Model Ionize_Proofs Compton_Model Compton_Spec Compton_Proofs Compton_Count Compton_Loops.
From Coq Require Import Reals Lra.
From Flocq Require Import Core.Core.
Open Scope R_scope.

Section E.
Context (c PI_RE_2 mc : R) (beam : fourmom) (ratio : R).
Context (draw_n : Z -> R) (draws : Z -> Z -> list (R * R)) (draw_phi : Z -> Z -> R) (draw_recoil : Z -> R).
Context (Ntot batch_size : Z) (dt : R) (photon_n : Z -> R) (elec : Z -> cp) (photons : cstore).
Hypothesis OK : step_ok c PI_RE_2 mc beam ratio draw_n draws draw_recoil Ntot batch_size dt photon_n elec photons.
Notation cnt := (nscatter c PI_RE_2 mc beam ratio draw_n dt photon_n elec).
Notation prob i := (get_scattering_probability c PI_RE_2 mc beam dt (elec i) (photon_n i)).
Notation handle g := (handle_scattering c PI_RE_2 mc beam ratio draw_n draws draw_phi draw_recoil Ntot batch_size dt photon_n g elec photons).

Lemma prob_range i : (0 <= i < Ntot)%Z -> 0 <= prob i < 1.
Proof. destruct OK as (H1 & H2 & H3 & H4 & H5 & H6 & H7 & H8 & H9 & H10 & H11 & _). intros Hi. apply probability_range; auto. Qed.
Lemma cnt_floor i : (0 <= i < Ntot)%Z -> (0 <= cnt i)%Z /\ (cnt i = Zfloor (prob i * ratio) \/ cnt i = Zfloor (prob i * ratio) + 1)%Z.
Proof.
  intros Hi. pose proof (prob_range i Hi) as P. destruct OK as (_ & _ & _ & _ & H5 & _ & _ & _ & _ & _ & _ & Hd & _).
  assert (A : 0 <= prob i * ratio) by nra. unfold nscatter. rewrite (count_floor _ _ A (Hd i)).
  assert (0 <= Zfloor (prob i * ratio))%Z by (apply (Zfloor_le 0) in A; rewrite (Zfloor_IZR 0) in A; exact A).
  destruct (Rlt_dec _ _); lia.
Qed.
Lemma photon4_of a q : 0 < p0 q -> photon4 (photon_of ratio a q) = q.
Proof. intros H. unfold photon4, photon_of. cbn [cig cux cuy cuz]. apply fourmom_eq; cbn [p0 p1 p2 p3]; try reflexivity. field. lra. Qed.
Lemma last_in {A} (l : list A) d : l <> [] -> In (last l d) l.
Proof.
  induction l as [|a l IH]; [congruence|]. intros _. destruct l as [|b l]; [left; reflexivity|]. right.
  change (last (a :: b :: l) d) with (last (b :: l) d). apply IH. discriminate.
Qed.

Lemma events g elec' photons' : handle g = Some (elec', photons') ->
  exists evs : Z -> list cp,
    slots photons' = slots photons ++ map Some (flat_map evs (range Ntot)) /\
    forall i, (0 <= i < Ntot)%Z ->
      zlen (evs i) = cnt i /\
      Forall (fun ph => lightlike (photon4 ph) /\ same_place ph (elec i) /\ cw ph = cw (elec i) / ratio) (evs i) /\
      (elec' i = elec i /\ (evs i = [] \/ 1 / ratio <= draw_recoil i) \/
       same_place (elec' i) (elec i) /\ cw (elec' i) = cw (elec i) /\ cig (elec' i) = cig (elec i) /\ draw_recoil i < 1 / ratio /\
       exists ph, In ph (evs i) /\ add4 (elec4 mc (elec' i)) (photon4 ph) = add4 (elec4 mc (elec i)) beam).
Proof.
  intros E. pose proof OK as (H1 & H2 & H3 & H4 & H5 & H6 & H7 & H8 & H9 & H10 & H11 & H12 & H13 & H14).
  destruct (handled_scattering c PI_RE_2 mc beam ratio draw_n draws draw_phi draw_recoil Ntot batch_size dt photon_n elec H7 H8 g photons elec' photons'
    (fun i Hi => proj1 (cnt_floor i Hi)) H9 E) as (evs & A & B & C & D).
  exists (fun i => map (photon_of ratio (elec i)) (evs i)). split; [exact C|]. intros i Hi.
  destruct (A i Hi) as [A1 A2].
  pose proof (emitted_spec mc beam draw_n draws draw_phi draw_recoil photon_n elec _ _ _ _ (proj1 (cnt_floor i Hi)) A1) as [_ A3].
  assert (A4 : Forall (fun q => lightlike q /\ add4 (elec4 mc (recoil mc beam (elec i) q)) q = add4 (elec4 mc (elec i)) beam) (evs i)).
  { eapply Forall_impl; [|exact A3]. intros q (s & _ & Eq). apply (scatter_one_event mc beam H3 H4) in Eq; [exact Eq|apply H11, Hi|].
    eapply Forall_impl; [|apply H14]. intros d Hd. apply Hd. }
  split; [unfold zlen; rewrite map_length; exact A2|]. split.
  { apply Forall_map. eapply Forall_impl; [|exact A4]. intros q (Lq & _). rewrite photon4_of by apply Lq.
    split; [exact Lq|]. split; [repeat split|]. cbn [photon_of cw]. field. lra. }
  rewrite (D i Hi). destruct (Z.gtb_spec (cnt i) 0) as [L|L].
  - destruct (Rlt_dec (draw_recoil i) (1 / ratio)) as [R|R]; [right|left; split; [reflexivity|right; lra]].
    split; [repeat split|]. split; [reflexivity|]. split; [reflexivity|]. split; [exact R|].
    assert (NE : evs i <> []) by (intros NE; rewrite NE in A2; unfold zlen in A2; cbn in A2; lia).
    pose proof (last_in (evs i) beam NE) as LI. exists (photon_of ratio (elec i) (last (evs i) beam)). split; [apply in_map, LI|].
    rewrite Forall_forall in A4. specialize (A4 _ LI). rewrite photon4_of by apply A4. apply A4.
  - left. split; [reflexivity|]. left. assert (Z : evs i = []); [|rewrite Z; reflexivity].
    destruct (evs i) as [|? ?]; [reflexivity|]. rewrite zlen_cons in A2. unfold zlen in A2. lia.
Qed.

Lemma total_count g elec' photons' : handle g = Some (elec', photons') ->
  fst photons' = (fst photons + fold_left (fun acc i => acc + cnt i) (range Ntot) 0)%Z.
Proof.
  intros E. pose proof OK as (H1 & H2 & H3 & H4 & H5 & H6 & H7 & H8 & H9 & H10 & H11 & H12 & H13 & H14).
  destruct (handled_scattering c PI_RE_2 mc beam ratio draw_n draws draw_phi draw_recoil Ntot batch_size dt photon_n elec H7 H8 g photons elec' photons'
    (fun i Hi => proj1 (cnt_floor i Hi)) H9 E) as (evs & A & B & C & D).
  exact B.
Qed.

Lemma one_event g elec' photons' : ratio = 1 -> handle g = Some (elec', photons') ->
  exists evs : Z -> list cp,
    slots photons' = slots photons ++ map Some (flat_map evs (range Ntot)) /\
    forall i, (0 <= i < Ntot)%Z ->
      evs i = [] /\ elec' i = elec i \/
      exists ph, evs i = [ph] /\ lightlike (photon4 ph) /\ same_place ph (elec i) /\ same_place (elec' i) (elec i) /\
        cw ph = cw (elec i) /\ cw (elec' i) = cw (elec i) /\
        add4 (elec4 mc (elec' i)) (photon4 ph) = add4 (elec4 mc (elec i)) beam.
Proof.
  intros Hr E. destruct (events g elec' photons' E) as (evs & A & B). exists evs. split; [exact A|]. intros i Hi.
  pose proof OK as (H1 & H2 & H3 & H4 & H5 & H6 & H7 & H8 & H9 & H10 & H11 & H12 & H13 & H14).
  destruct (B i Hi) as (B1 & B2 & B3).
  assert (C2 : (cnt i <= 1)%Z).
  { pose proof (prob_range i Hi) as P. destruct (H12 i) as [R0 R1]. unfold nscatter. rewrite Hr, Rmult_1_r.
    rewrite Ztrunc_floor by lra. apply Z.lt_succ_r. apply lt_IZR. pose proof (Zfloor_lb (prob i + draw_n i)).
    change (IZR (Z.succ 1)) with 2. lra. }
  pose proof (proj1 (cnt_floor i Hi)) as C0. destruct (H13 i) as [_ R1].
  destruct B3 as [[B3 [B4|B4]]|(P1 & P2 & _ & P3 & ph & I & P4)].
  - left. split; assumption.
  - exfalso. rewrite Hr in B4. lra.
  - right. destruct (evs i) as [|ph' [|? ?]]; [destruct I| |rewrite !zlen_cons in B1; unfold zlen in B1; lia].
    destruct I as [->|[]]. inversion B2 as [|? ? (Q1 & Q2 & Q3) _]; subst. exists ph. split; [reflexivity|].
    split; [exact Q1|]. split; [exact Q2|]. split; [exact P1|]. split; [rewrite Q3; field|]. split; [exact P2|exact P4].
Qed.

(** Stale inv_gamma: still below c if the electron has not gained energy. *)
Lemma slow_electron a a' : elec_consistent a -> cig a' = cig a -> u_sq a' <= u_sq a -> speed2 a' < 1.
Proof.
  intros H1 H2 H3. unfold speed2. rewrite H2.
  replace ((cig a * cux a') ^ 2 + (cig a * cuy a') ^ 2 + (cig a * cuz a') ^ 2) with (cig a ^ 2 * u_sq a') by (unfold u_sq; ring).
  rewrite H1. pose proof (gamma_pos a) as G. pose proof (gamma_sq a) as G2. set (g := sqrt (1 + u_sq a)) in *.
  replace ((1 / g) ^ 2) with (/ (g ^ 2)) by (field; lra). rewrite G2. pose proof (u_sq_pos a).
  apply (Rmult_lt_reg_l (1 + u_sq a)); [lra|]. rewrite <- Rmult_assoc, Rinv_r by lra. lra.
Qed.
Lemma no_gain g elec' photons' i : handle g = Some (elec', photons') -> (0 <= i < Ntot)%Z ->
  p0 (elec4 mc (elec' i)) <= p0 (elec4 mc (elec i)) -> speed2 (elec' i) < 1.
Proof.
  intros E Hi HE. destruct (events g elec' photons' E) as (evs & _ & B). destruct (B i Hi) as (_ & _ & B3).
  pose proof OK as (H1 & H2 & H3 & H4 & H5 & H6 & H7 & H8 & H9 & H10 & H11 & H12 & H13 & H14).
  apply (slow_electron (elec i)); [apply H11, Hi| |].
  - destruct B3 as [[-> _]|(_ & _ & C & _)]; [reflexivity|exact C].
  - cbn [p0 elec4] in HE. apply Rmult_le_reg_l in HE; [|exact H3]. apply sqrt_le_0 in HE; [lra| |].
    + pose proof (u_sq_pos (elec' i)); lra. + pose proof (u_sq_pos (elec i)); lra.
Qed.
End E.

(** ** Witness for the stale inv_gamma *)
Section W.
Context (c PI_RE_2 mc : R) (Hc : 0 < c) (Hre : 0 < PI_RE_2) (Hmc : 0 < mc).
Definition w_beam : fourmom := {| p0 := 4 * mc; p1 := 0; p2 := 0; p3 := - (4 * mc) |}.
Definition w_elec : cp := {| cx := 0; cy := 0; cz := 0; cux := 0; cuy := 0; cuz := 0; cig := 1; cw := 1 |}.
Definition w_p : R := get_scattering_probability c PI_RE_2 mc w_beam 1 w_elec 1.
Lemma w_lightlike : lightlike w_beam.
Proof. unfold lightlike, w_beam. cbn [p0 p1 p2 p3]. split; [lra|ring]. Qed.
Lemma w_consistent : elec_consistent w_elec.
Proof.
  unfold elec_consistent, u_sq, w_elec. cbn [cig cux cuy cuz]. replace (1 + (0 ^ 2 + 0 ^ 2 + 0 ^ 2)) with 1 by ring.
  rewrite sqrt_1. field.
Qed.
Lemma kn4 : 0 < klein_nishina 4.
Proof.
  unfold klein_nishina. cbv zeta. assert (0 < ln (1 + 2 * 4)) by (rewrite <- ln_1; apply ln_increasing; lra). lra.
Qed.
Lemma w_p_range : 0 < w_p < 1.
Proof.
  unfold w_p, get_scattering_probability, w_beam, w_elec. cbn [p0 p1 p2 p3 cux cuy cuz cig].
  match goal with |- context [klein_nishina ?k] => replace k with 4 by (field; lra) end. pose proof kn4 as K.
  match goal with |- context [exp ?x] => set (X := x) end.
  assert (X < 0).
  { unfold X. replace (1 * (1 / 1 - 0 * (0 / (4 * mc)) - 0 * (0 / (4 * mc)) - 0 * (- (4 * mc) / (4 * mc)))) with 1 by (field; lra).
    assert (0 < PI_RE_2 * klein_nishina 4) by (apply Rmult_lt_0_compat; assumption).
    assert (0 < PI_RE_2 * klein_nishina 4 * c) by (apply Rmult_lt_0_compat; assumption). lra. }
  pose proof (exp_pos X). apply exp_increasing in H. rewrite exp_0 in H. lra.
Qed.
Definition w_q : fourmom := {| p0 := 4 * mc / 9; p1 := 0; p2 := 0; p3 := 4 * mc / 9 |}.
Lemma w_elec_u : elec_u w_elec = 0.
Proof. unfold elec_u, w_elec. cbn [cux cuy cuz]. replace (0 ^ 2 + 0 ^ 2 + 0 ^ 2) with 0 by ring. apply sqrt_0. Qed.
Lemma w_n : elec_n w_elec = (0, 0, 1).
Proof. unfold elec_n. rewrite w_elec_u. destruct (Req_EM_T 0 0); [reflexivity|congruence]. Qed.
Lemma w_rest : to_rest w_beam w_elec = w_beam.
Proof.
  unfold to_rest. rewrite w_n. unfold elec_gamma, elec_beta. rewrite w_elec_u. unfold lorentz_transform, w_elec, w_beam. cbn [cig p0 p1 p2 p3].
  apply fourmom_eq; cbn [p0 p1 p2 p3]; field.
Qed.
Lemma w_scatter : scatter_one mc w_beam w_elec [(0, 0)] 0 = Some w_q.
Proof.
  unfold scatter_one. cbv zeta. rewrite w_rest. cbn [sample_x]. cbv zeta.
  replace (p0 w_beam * (1 / mc)) with 4 by (unfold w_beam; cbn [p0]; field; lra).
  replace (2 * (2 * 4 ^ 2 + 2 * 4 + 1) / (2 * 4 + 1) ^ 3) with (82 / 729) by field.
  rewrite Rpower_O by lra.
  replace ((2 + 82 / 729) / (2 - 82 / 729) - ((2 + 82 / 729) / (2 - 82 / 729) + 1) * 1) with (-1) by field.
  destruct (Rlt_dec _ _) as [_|N]; [|exfalso; apply N; lra].
  f_equal. unfold rest_scattered, angles, w_beam. cbn [p0 p1 p2 p3].
  replace (- (4 * mc) / (4 * mc)) with (-1) by (field; lra).
  destruct (Rlt_dec ((-1) ^ 2) 1) as [L|_]; [exfalso; lra|].
  replace (1 - (-1) ^ 2) with 0 by ring. rewrite sqrt_0.
  unfold from_rest. rewrite w_n. unfold elec_gamma, elec_beta. rewrite w_elec_u. unfold lorentz_transform, w_elec, w_q. cbn [cig p0 p1 p2 p3].
  apply fourmom_eq; cbn [p0 p1 p2 p3]; field; lra.
Qed.
Lemma w_count : nscatter c PI_RE_2 mc w_beam 1 (fun _ => 1 - w_p / 2) 1 (fun _ => 1) (fun _ => w_elec) 0 = 1%Z.
Proof.
  unfold nscatter. fold w_p. pose proof w_p_range. rewrite Ztrunc_floor by lra. apply Zfloor_imp. cbn. lra.
Qed.
Lemma w_handle : exists photons',
  handle_scattering c PI_RE_2 mc w_beam 1 (fun _ => 1 - w_p / 2) (fun _ _ => [(0, 0)]) (fun _ _ => 0) (fun _ => 0) 1 10 1 (fun _ => 1)
    (fun _ => 0%Z, fun _ => 0%Z) (fun _ => w_elec) (0%Z, fun _ => None) =
  Some (upd (fun _ => w_elec) (0%Z, recoil mc w_beam w_elec w_q), photons').
Proof.
  eexists. unfold handle_scattering. change (Z.quot 1 10 + 1)%Z with 1%Z. unfold determine_scatterings. change (range 1) with [0%Z]. cbn [fold_left].
  unfold determine_batch. change (batch_ips 1 10 0) with [0%Z]. cbn [fold_left fst snd]. rewrite w_count.
  unfold perform_cumsum at 1. change (range 1) with [0%Z]. cbn [fold_left]. rewrite !upd_eq.
  change (0 + (0 + 1))%Z with 1%Z. cbn [Z.eqb]. unfold scatter_photons_electrons. change (range 1) with [0%Z]. cbn [fold_left].
  unfold scatter_batch. change (batch_ips 1 10 0) with [0%Z]. cbn [fold_left]. unfold scatter_elec. rewrite upd_eq.
  unfold emitted. change (range 1) with [0%Z]. cbn [fold_left]. rewrite w_scatter. cbn [app write_photons last].
  change (1 >? 0)%Z with true. cbn iota. destruct (Rlt_dec 0 (1 / 1)) as [_|N]; [|exfalso; apply N; lra]. reflexivity.
Qed.
Lemma w_ok : step_ok c PI_RE_2 mc w_beam 1 (fun _ => 1 - w_p / 2) (fun _ _ => [(0, 0)]) (fun _ => 0) 1 10 1 (fun _ => 1) (fun _ => w_elec) (0%Z, fun _ => None).
Proof.
  pose proof w_p_range. unfold step_ok, unit_draw. split; [lra|]. split; [lra|]. split; [lra|]. split; [exact w_lightlike|].
  split; [lra|]. split; [lra|]. split; [lia|]. split; [lia|]. split; [cbn; lia|]. split; [intros _; lra|].
  split; [intros _ _; exact w_consistent|]. split; [intros _; lra|]. split; [intros _; lra|].
  intros _ _. apply Forall_cons; [|apply Forall_nil]. cbn. lra.
Qed.
End W.
