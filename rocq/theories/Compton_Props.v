(** C29: Compton events conserve energy and momentum. C30: speeds after a recoil. C31: number of
    events and filling of the photon arrays. *)
From Verif Require Import Base Sort_Model Ionize_Model Ionize_Proofs Compton_Model Compton_Spec Compton_Proofs Compton_Count Compton_Loops Compton_Events.
From Coq Require Import Reals Lra.
From Flocq Require Import Core.Core.
From Coquelicot Require Import Hierarchy RInt.
Open Scope R_scope.

(** Whatever the draws accepted by the sampler, the cosine of the scattering angle lies in [-1, 1)
    (so that the square root of numba_methods.py:208 is that of a non-negative number). *)
Theorem C29_angle k ds x : 0 < k -> List.Forall (fun d => unit_draw (fst d)) ds -> sample_x k ds = Some x -> -1 <= x < 1.
Proof. exact (sample_range k ds x). Qed.
Print Assumptions C29_angle.

(** Any ratio of the weights: every photon created is on the light cone with a positive energy, at
    the place of its electron, with its weight divided by the ratio; an electron is unchanged, or
    its energy and momentum balance those of one of its photons. The energies of the electrons are
    those given by their momenta (mass shell). *)
Theorem C29_photons c PI_RE_2 mc beam ratio draw_n draws draw_phi draw_recoil Ntot batch_size dt photon_n elec photons garbage elec' photons' :
  step_ok c PI_RE_2 mc beam ratio draw_n draws draw_recoil Ntot batch_size dt photon_n elec photons ->
  handle_scattering c PI_RE_2 mc beam ratio draw_n draws draw_phi draw_recoil Ntot batch_size dt photon_n garbage elec photons = Some (elec', photons') ->
  exists evs : Z -> list cp,
    slots photons' = slots photons ++ map Some (flat_map evs (range Ntot)) /\
    forall i, (0 <= i < Ntot)%Z ->
      List.Forall (fun ph => lightlike (photon4 ph) /\ same_place ph (elec i) /\ cw ph = cw (elec i) / ratio) (evs i) /\
      (elec' i = elec i \/
       same_place (elec' i) (elec i) /\ cw (elec' i) = cw (elec i) /\
       exists ph, In ph (evs i) /\ add4 (elec4 mc (elec' i)) (photon4 ph) = add4 (elec4 mc (elec i)) beam).
Proof.
  intros OK E. destruct (events _ _ _ _ _ _ _ draw_phi _ _ _ _ _ _ _ OK _ _ _ E) as (evs & A & B). exists evs. split; [exact A|].
  intros i Hi. destruct (B i Hi) as (_ & B2 & B3). split; [exact B2|]. destruct B3 as [[B3 _]|(P1 & P2 & _ & _ & P3)]; [left; exact B3|right].
  split; [exact P1|]. split; [exact P2|exact P3].
Qed.
Print Assumptions C29_photons.
(** Ratio 1: each electron either has no event and is unchanged, or emits exactly one photon, of its
    weight, and energy and momentum of electron + photon are conserved. *)
Theorem C29_conservation c PI_RE_2 mc beam draw_n draws draw_phi draw_recoil Ntot batch_size dt photon_n elec photons garbage elec' photons' :
  step_ok c PI_RE_2 mc beam 1 draw_n draws draw_recoil Ntot batch_size dt photon_n elec photons ->
  handle_scattering c PI_RE_2 mc beam 1 draw_n draws draw_phi draw_recoil Ntot batch_size dt photon_n garbage elec photons = Some (elec', photons') ->
  exists evs : Z -> list cp,
    slots photons' = slots photons ++ map Some (flat_map evs (range Ntot)) /\
    forall i, (0 <= i < Ntot)%Z ->
      evs i = nil /\ elec' i = elec i \/
      exists ph, evs i = ph :: nil /\ lightlike (photon4 ph) /\ same_place ph (elec i) /\ same_place (elec' i) (elec i) /\
        cw ph = cw (elec i) /\ cw (elec' i) = cw (elec i) /\
        add4 (elec4 mc (elec' i)) (photon4 ph) = add4 (elec4 mc (elec i)) beam.
Proof. intros OK E. exact (one_event _ _ _ _ 1 _ _ draw_phi _ _ _ _ _ _ _ OK _ _ _ eq_refl E). Qed.
Print Assumptions C29_conservation.

(** C30 is false: the recoil leaves inv_gamma as it was. An electron at rest hit by a photon of
    energy 4 mc^2 ends with a speed greater than c for the next position push. *)
Theorem C30_recoil_refuted c PI_RE_2 mc : 0 < c -> 0 < PI_RE_2 -> 0 < mc ->
  exists beam draw_n draws draw_phi draw_recoil Ntot batch_size dt photon_n elec photons garbage elec' photons',
    step_ok c PI_RE_2 mc beam 1 draw_n draws draw_recoil Ntot batch_size dt photon_n elec photons /\
    handle_scattering c PI_RE_2 mc beam 1 draw_n draws draw_phi draw_recoil Ntot batch_size dt photon_n garbage elec photons = Some (elec', photons') /\
    (0 < Ntot)%Z /\ ~ elec_consistent (elec' 0%Z) /\ 1 < speed2 (elec' 0%Z).
Proof.
  intros Hc Hre Hmc. destruct (w_handle c PI_RE_2 mc Hc Hre Hmc) as (ph' & E).
  do 12 eexists. exists (upd (fun _ => w_elec) (0%Z, recoil mc (w_beam mc) w_elec (w_q mc))), ph'.
  split; [exact (w_ok c PI_RE_2 mc Hc Hre Hmc)|]. split; [exact E|]. split; [lia|].
  rewrite upd_eq. assert (U : cuz (recoil mc (w_beam mc) w_elec (w_q mc)) = - (40 / 9)).
  { unfold recoil, w_beam, w_q, w_elec. cbn [cuz p3]. field. lra. }
  assert (U1 : cux (recoil mc (w_beam mc) w_elec (w_q mc)) = 0) by (unfold recoil, w_beam, w_q, w_elec; cbn [cux p1]; ring).
  assert (U2 : cuy (recoil mc (w_beam mc) w_elec (w_q mc)) = 0) by (unfold recoil, w_beam, w_q, w_elec; cbn [cuy p2]; ring).
  assert (G : cig (recoil mc (w_beam mc) w_elec (w_q mc)) = 1) by reflexivity.
  assert (S : 1 < speed2 (recoil mc (w_beam mc) w_elec (w_q mc))) by (unfold speed2; rewrite U, U1, U2, G; lra).
  split; [|exact S]. intros H. pose proof (slow_electron _ _ H eq_refl (Rle_refl _)). lra.
Qed.
Print Assumptions C30_recoil_refuted.
(** What remains true: as long as the electron does not gain energy, the stale value keeps it below c. *)
Theorem C30_no_gain_partial c PI_RE_2 mc beam ratio draw_n draws draw_phi draw_recoil Ntot batch_size dt photon_n elec photons garbage elec' photons' i :
  step_ok c PI_RE_2 mc beam ratio draw_n draws draw_recoil Ntot batch_size dt photon_n elec photons ->
  handle_scattering c PI_RE_2 mc beam ratio draw_n draws draw_phi draw_recoil Ntot batch_size dt photon_n garbage elec photons = Some (elec', photons') ->
  (0 <= i < Ntot)%Z -> p0 (elec4 mc (elec' i)) <= p0 (elec4 mc (elec i)) -> speed2 (elec' i) < 1.
Proof. intros OK E. exact (no_gain _ _ _ _ _ _ _ draw_phi _ _ _ _ _ _ _ OK _ _ _ i E). Qed.
Print Assumptions C30_no_gain_partial.

(** C31. Number of photons of an electron of probability p (itself in [0, 1)), ratio R; mean over the
    uniform draw. *)
Theorem C31_count c PI_RE_2 mc beam ratio draw_n draws draw_recoil Ntot batch_size dt photon_n elec photons i :
  step_ok c PI_RE_2 mc beam ratio draw_n draws draw_recoil Ntot batch_size dt photon_n elec photons -> (0 <= i < Ntot)%Z ->
  let p := get_scattering_probability c PI_RE_2 mc beam dt (elec i) (photon_n i) in
  let n := nscatter c PI_RE_2 mc beam ratio draw_n dt photon_n elec i in
  0 <= p < 1 /\ (n = Zfloor (p * ratio) \/ n = Zfloor (p * ratio) + 1)%Z /\
  is_RInt (V := R_NormedModule) (fun r => IZR (nscatter c PI_RE_2 mc beam ratio (fun _ => r) dt photon_n elec i)) 0 1 (p * ratio).
Proof.
  intros OK Hi p n. pose proof (prob_range _ _ _ _ _ _ _ _ _ _ _ _ _ _ OK i Hi) as P. split; [exact P|].
  split; [apply (cnt_floor _ _ _ _ _ _ _ (fun _ _ => 0) _ _ _ _ _ _ _ OK i Hi)|]. apply count_mean.
  destruct OK as (_ & _ & _ & _ & H5 & _). fold p in P. nra.
Qed.
Print Assumptions C31_count.
(** A step creates as many slots as photons emitted (nscatter for each electron); the old slots are
    kept and every new one is filled, in the order of the electrons. *)
Theorem C31_slots c PI_RE_2 mc beam ratio draw_n draws draw_phi draw_recoil Ntot batch_size dt photon_n elec photons garbage elec' photons' :
  step_ok c PI_RE_2 mc beam ratio draw_n draws draw_recoil Ntot batch_size dt photon_n elec photons ->
  handle_scattering c PI_RE_2 mc beam ratio draw_n draws draw_phi draw_recoil Ntot batch_size dt photon_n garbage elec photons = Some (elec', photons') ->
  let n := nscatter c PI_RE_2 mc beam ratio draw_n dt photon_n elec in
  fst photons' = (fst photons + fold_left (fun acc i => acc + n i) (range Ntot) 0)%Z /\
  exists evs : Z -> list cp,
    (forall i, (0 <= i < Ntot)%Z -> Z.of_nat (length (evs i)) = n i) /\
    slots photons' = slots photons ++ map Some (flat_map evs (range Ntot)).
Proof.
  intros OK E n. split; [exact (total_count _ _ _ _ _ _ _ draw_phi _ _ _ _ _ _ _ OK _ _ _ E)|].
  destruct (events _ _ _ _ _ _ _ draw_phi _ _ _ _ _ _ _ OK _ _ _ E) as (evs & A & B). exists evs. split; [|exact A].
  intros i Hi. apply (B i Hi).
Qed.
Print Assumptions C31_slots.
(** No slot is written twice: the indices written by all the batches are the new ones, each once. *)
Theorem C31_once c PI_RE_2 mc beam ratio draw_n draws draw_phi draw_recoil Ntot batch_size dt photon_n elec photons garbage ws elec' :
  step_ok c PI_RE_2 mc beam ratio draw_n draws draw_recoil Ntot batch_size dt photon_n elec photons ->
  let N_batch := (Z.quot Ntot batch_size + 1)%Z in
  let s := determine_scatterings c PI_RE_2 mc beam ratio draw_n Ntot batch_size dt photon_n elec N_batch garbage in
  scatter_photons_electrons mc beam ratio draws draw_phi draw_recoil Ntot batch_size (fst s) (fst photons) (perform_cumsum (snd s)) N_batch elec
    = Some (ws, elec') ->
  map fst ws = range2 (fst photons) (fst photons + perform_cumsum (snd s) N_batch).
Proof.
  intros OK N_batch s E. pose proof OK as (H1 & H2 & H3 & H4 & H5 & H6 & H7 & H8 & H9 & H10 & H11 & H12 & H13 & H14).
  assert (0 <= N_batch)%Z by (unfold N_batch; pose proof (Z.quot_pos Ntot batch_size H8 H7); lia).
  pose proof (det_all c PI_RE_2 mc beam ratio draw_n draws draw_phi draw_recoil Ntot batch_size dt photon_n elec garbage N_batch H) as D.
  unfold determine_scatterings in s. fold s in D. destruct s as [pe pb]. cbn [fst snd] in *. destruct D as [D1 D2].
  unfold N_batch in D1. rewrite batches_all in D1 by assumption.
  apply (scb_all c PI_RE_2 mc beam ratio draw_n draws draw_phi draw_recoil Ntot batch_size dt photon_n elec H7 H8 pe (fst photons) pb N_batch ws elec' H D2) in E.
  - destruct E as (-> & _ & _ & _ & ->). unfold range2.
    match goal with |- _ = map _ (range (?a + ?b - ?a)) => replace (a + b - a)%Z with b by lia end.
    match goal with |- context [number _ ?l] => generalize l end. clear. intros l. generalize (fst photons). induction l as [|q l IH] using rev_ind; intros k; [reflexivity|].
    rewrite number_app, map_app, IH, zlen_app. cbn [number map fst]. rewrite range_succ by (unfold zlen; lia). rewrite map_app. reflexivity.
  - intros i Hi. split; [apply D1, in_range, Hi|]. exact (proj1 (cnt_floor _ _ _ _ _ _ _ draw_phi _ _ _ _ _ _ _ OK i Hi)).
Qed.
Print Assumptions C31_once.

(** The incident photon of the code is light-like in any boosted frame; the hypotheses are met and an
    event takes place (the witness of C30). *)
Example C29_C31_met c PI_RE_2 mc : 0 < c -> 0 < PI_RE_2 -> 0 < mc ->
  (forall h lambda g b, 0 < h -> 0 < lambda -> 0 < g -> 0 <= b -> lightlike (incident_photon h lambda g b)) /\
  step_ok c PI_RE_2 mc (w_beam mc) 1 (fun _ => 1 - w_p c PI_RE_2 mc / 2) (fun _ _ => (0, 0) :: nil) (fun _ => 0) 1 10 1 (fun _ => 1) (fun _ => w_elec) (0%Z, fun _ => None) /\
  nscatter c PI_RE_2 mc (w_beam mc) 1 (fun _ => 1 - w_p c PI_RE_2 mc / 2) 1 (fun _ => 1) (fun _ => w_elec) 0 = 1%Z /\
  sample_x 4 ((0, 0) :: nil) <> None.
Proof.
  intros Hc Hre Hmc. split; [|split; [exact (w_ok c PI_RE_2 mc Hc Hre Hmc)|split; [exact (w_count c PI_RE_2 mc Hc Hre Hmc)|]]].
  - intros h l g b Hh Hl Hg Hb. unfold incident_photon. cbv zeta. unfold lightlike. cbn [p0 p1 p2 p3].
    assert (0 < h / l) by (apply Rdiv_lt_0_compat; assumption). set (s := sqrt (0 ^ 2 + 0 ^ 2 + (- h / l) ^ 2)).
    assert (0 <= s) by apply sqrt_pos. assert (- h / l < 0) by (unfold Rdiv in *; lra).
    assert (g * (- h / l - b * s) < 0) by (assert (0 <= b * s) by (apply Rmult_le_pos; assumption); nra).
    set (z := g * (- h / l - b * s)) in *. split.
    + apply sqrt_lt_R0. nra.
    + apply pow2_sqrt. nra.
  - pose proof (w_scatter mc Hmc) as E. unfold scatter_one in E. cbv zeta in E. rewrite w_rest in E.
    replace (p0 (w_beam mc) * (1 / mc)) with 4 in E by (unfold w_beam; cbn [p0]; field; lra).
    destruct (sample_x 4 _); [discriminate|discriminate E].
Qed.
