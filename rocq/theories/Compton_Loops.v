(** Proofs for C29-C31: loops over the electrons. *)
From Verif Require Import Base Inject_Proofs Sort_Model Sort_Proofs Ionize_Model Ionize_Proofs Compton_Model Compton_Spec Compton_Proofs.
From Coq Require Import Reals Lra.
From Flocq Require Import Core.Core.

(** ** Loops *)
Open Scope Z_scope.
Definition zsum (f : Z -> Z) (l : list Z) : Z := fold_left (fun acc i => acc + f i) l 0.
Lemma zsum_acc f l : forall s, fold_left (fun acc i => acc + f i) l s = s + zsum f l.
Proof.
  unfold zsum. induction l as [|a l IH]; intros s; cbn [fold_left]; [lia|]. rewrite (IH (s + f a)), (IH (0 + f a)). lia.
Qed.
Lemma zsum_cons f a l : zsum f (a :: l) = f a + zsum f l.
Proof. unfold zsum at 1. cbn [fold_left]. rewrite zsum_acc. lia. Qed.
Lemma zsum_app f l m : zsum f (l ++ m) = zsum f l + zsum f m.
Proof. unfold zsum at 1. rewrite fold_left_app. rewrite zsum_acc. reflexivity. Qed.
Lemma cumsum1_step a b : 0 <= b -> perform_cumsum a (b + 1) = perform_cumsum a b + a b.
Proof. intros H. unfold perform_cumsum. rewrite range_succ by lia. rewrite fold_left_app. reflexivity. Qed.

Section L.
Context (c PI_RE_2 mc : R) (beam : fourmom) (ratio : R).
Context (draw_n : Z -> R) (draws : Z -> Z -> list (R * R)) (draw_phi : Z -> Z -> R) (draw_recoil : Z -> R).
Context (Ntot batch_size : Z) (dt : R) (photon_n : Z -> R) (elec : Z -> cp).
Hypothesis Hb : 0 < batch_size.
Hypothesis HN : 0 <= Ntot.
Notation cnt := (nscatter c PI_RE_2 mc beam ratio draw_n dt photon_n elec).
Notation det := (determine_batch c PI_RE_2 mc beam ratio draw_n Ntot batch_size dt photon_n elec).
Notation emit := (emitted mc beam draws draw_phi).

Lemma det_fold i_batch L : forall pe pb, let '(pe', pb') :=
    fold_left (fun '(per_elec, per_batch) ip =>
      let n := cnt ip in
      (upd (upd per_elec (ip, 0)) (ip, n), upd per_batch (i_batch, per_batch i_batch + n))) L (pe, pb) in
  (forall j, In j L -> pe' j = cnt j) /\ (forall j, ~ In j L -> pe' j = pe j) /\
  pb' i_batch = pb i_batch + zsum cnt L /\ (forall b, b <> i_batch -> pb' b = pb b).
Proof.
  induction L as [|i L IH]; intros pe pb.
  - cbn. repeat split; try tauto. unfold zsum. cbn. lia.
  - cbn [fold_left]. specialize (IH (upd (upd pe (i, 0)) (i, cnt i)) (upd pb (i_batch, pb i_batch + cnt i))).
    destruct (fold_left _ L _) as [pe' pb']. destruct IH as (A & B & C & D).
    split; [|split; [|split]].
    + intros j [<-|Hj]; [|apply A, Hj]. destruct (in_dec Z.eq_dec i L) as [I|I]; [apply A, I|].
      rewrite (B i I). apply upd_eq.
    + intros j Hj. cbn [In] in Hj. rewrite B by tauto. rewrite !upd_neq by (intros ->; tauto). reflexivity.
    + rewrite C, upd_eq, zsum_cons. lia.
    + intros b Hne. rewrite (D b Hne). apply upd_neq, Hne.
Qed.
Lemma det_all s k : 0 <= k -> let '(pe, pb) := fold_left det (range k) s in
  (forall j, In j (flat_map (batch_ips Ntot batch_size) (range k)) -> pe j = cnt j) /\
  (forall b, 0 <= b < k -> pb b = zsum cnt (batch_ips Ntot batch_size b)).
Proof.
  intros Hk. pattern k. apply natlike_ind; [| |exact Hk].
  - cbn. destruct s as [pe pb]. split; [intros j []|intros b Hx; lia].
  - intros i Hi IH. unfold Z.succ. rewrite range_succ by lia. rewrite fold_left_app, flat_map_app. cbn [fold_left flat_map].
    destruct (fold_left det (range i) s) as [pe pb]. destruct IH as [A B].
    pose proof (det_fold i (batch_ips Ntot batch_size i) pe (upd pb (i, 0))) as F. unfold determine_batch. cbn [fst snd].
    destruct (fold_left _ (batch_ips Ntot batch_size i) _) as [pe' pb']. destruct F as (F1 & F2 & F3 & F4). split.
    + intros j Hj. rewrite app_nil_r in Hj. apply in_app_or in Hj. destruct (in_dec Z.eq_dec j (batch_ips Ntot batch_size i)) as [I|I]; [apply F1, I|].
      rewrite (F2 j I). apply A. tauto.
    + intros b Hbr. destruct (Z.eq_dec b i) as [->|Hne]; [rewrite F3, upd_eq; lia|].
      rewrite (F4 b Hne), (upd_neq pb i b 0 Hne). apply B. lia.
Qed.

(** photons of one electron *)
Lemma emitted_spec a i n l : 0 <= n -> emit a i n = Some l -> zlen l = n /\
  Forall (fun q => exists s, 0 <= s < n /\ scatter_one mc beam a (draws i s) (draw_phi i s) = Some q) l.
Proof.
  intros Hn. revert l. pattern n. apply natlike_ind; [| |exact Hn].
  - intros l E. cbn in E. injection E as <-. split; [reflexivity|constructor].
  - intros k Hk IH l. unfold Z.succ. unfold emitted. rewrite range_succ by lia. rewrite fold_left_app. cbn [fold_left].
    fold (emit a i k). destruct (emit a i k) as [l'|]; [|discriminate].
    destruct (scatter_one mc beam a (draws i k) (draw_phi i k)) as [q|] eqn:Eq; [|discriminate].
    intros E. injection E as <-. destruct (IH l' eq_refl) as [A B]. split.
    + rewrite zlen_app, A. unfold zlen. cbn. lia.
    + apply Forall_app. split.
      * eapply Forall_impl; [|exact B]. intros q' (s & Hs & E). exists s. split; [lia|exact E].
      * constructor; [|constructor]. exists k. split; [lia|exact Eq].
Qed.
Lemma write_photons_spec a l : forall i, write_photons ratio a i l = (i + zlen l, number i (map (photon_of ratio a) l)).
Proof.
  induction l as [|q l IH]; intros i; cbn [write_photons map number].
  - unfold zlen. cbn. f_equal. lia.
  - rewrite IH. rewrite zlen_cons. f_equal. lia.
Qed.

Definition em (pe : Z -> Z) (i : Z) : list fourmom := match emit (elec i) i (pe i) with Some l => l | None => [] end.
Definition phs (pe : Z -> Z) (i : Z) : list cp := map (photon_of ratio (elec i)) (em pe i).
Definition after (pe : Z -> Z) (i : Z) : cp :=
  if pe i >? 0 then if Rlt_dec (draw_recoil i) (1 / ratio) then recoil mc beam (elec i) (last (em pe i) beam) else elec i else elec i.
Notation sce := (scatter_elec mc beam ratio draws draw_phi draw_recoil).
Notation scb := (scatter_batch mc beam ratio draws draw_phi draw_recoil Ntot batch_size).

Lemma sce_none pe L : fold_left (sce pe) L None = None.
Proof. induction L as [|i L IH]; [reflexivity|]. exact IH. Qed.
Lemma sce_fold pe L : forall ip ws el r, NoDup L -> (forall i, In i L -> el i = elec i) ->
  fold_left (sce pe) L (Some (ip, ws, el)) = Some r ->
  let '(ip', ws', el') := r in
  ws' = ws ++ number ip (flat_map (phs pe) L) /\ (forall i, In i L -> emit (elec i) i (pe i) = Some (em pe i)) /\
  (forall i, In i L -> el' i = after pe i) /\ (forall i, ~ In i L -> el' i = el i).
Proof.
  induction L as [|i L IH]; intros ip ws el r Hnd Hel E.
  - cbn in E. injection E as <-. cbn. rewrite app_nil_r. repeat split; tauto.
  - inversion Hnd as [|? ? Hi Hnd']; subst. cbn [fold_left] in E. unfold scatter_elec at 2 in E.
    rewrite (Hel i) in E by (left; reflexivity). destruct (emit (elec i) i (pe i)) as [l|] eqn:El; [|rewrite sce_none in E; discriminate].
    assert (Eem : em pe i = l) by (unfold em; rewrite El; reflexivity).
    rewrite write_photons_spec in E. cbv zeta in E.
    set (el1 := if pe i >? 0 then if Rlt_dec (draw_recoil i) (1 / ratio) then upd el (i, recoil mc beam (elec i) (last l beam)) else el else el) in E.
    assert (H1 : el1 i = after pe i).
    { unfold el1, after. rewrite Eem. destruct (pe i >? 0); [destruct (Rlt_dec _ _); [apply upd_eq|]|]; apply Hel; left; reflexivity. }
    assert (H2 : forall j, j <> i -> el1 j = el j).
    { intros j Hj. unfold el1. destruct (pe i >? 0); [destruct (Rlt_dec _ _); [apply upd_neq, Hj|]|]; reflexivity. }
    specialize (IH (ip + zlen l) (ws ++ number ip (map (photon_of ratio (elec i)) l)) el1 r Hnd').
    assert (HelL : forall j, In j L -> el1 j = elec j).
    { intros j Hj. rewrite H2 by (intros ->; tauto). apply Hel. right. exact Hj. }
    specialize (IH HelL E). destruct r as [[ip' ws'] el']. destruct IH as (A & B & C & D).
    split; [|split; [|split]].
    + rewrite A. cbn [flat_map]. rewrite number_app, <- app_assoc. unfold phs at 2 3. rewrite Eem.
      do 3 f_equal. unfold zlen. rewrite map_length. reflexivity.
    + intros j [<-|Hj]; [rewrite Eem; exact El|apply B, Hj].
    + intros j [<-|Hj]; [|apply C, Hj]. rewrite (D i Hi). exact H1.
    + intros j Hj. cbn [In] in Hj. rewrite D by tauto. apply H2. intros ->. tauto.
Qed.
Lemma scb_none pe old cum L : fold_left (scb pe old cum) L None = None.
Proof. induction L as [|i L IH]; [reflexivity|]. exact IH. Qed.
Lemma NoDup_flat_batches k : 0 <= k -> NoDup (flat_map (batch_ips Ntot batch_size) (range k)).
Proof. intros Hk. rewrite batches_flat by assumption. apply NoDup_range. Qed.
Lemma scb_all pe old pb k ws el : 0 <= k ->
  (forall b, 0 <= b < k -> pb b = zsum cnt (batch_ips Ntot batch_size b)) ->
  (forall i, 0 <= i < Ntot -> pe i = cnt i /\ 0 <= cnt i) ->
  fold_left (scb pe old (perform_cumsum pb)) (range k) (Some ([], elec)) = Some (ws, el) ->
  let L := flat_map (batch_ips Ntot batch_size) (range k) in
  ws = number old (flat_map (phs pe) L) /\ (forall i, In i L -> emit (elec i) i (pe i) = Some (em pe i)) /\
  (forall i, In i L -> el i = after pe i) /\ (forall i, ~ In i L -> el i = elec i) /\
  perform_cumsum pb k = zlen (flat_map (phs pe) L).
Proof.
  intros Hk. revert ws el. pattern k. apply natlike_ind; [| |exact Hk].
  - intros ws el _ _ E. cbn in E. injection E as <- <-. cbn. repeat split; tauto.
  - intros j Hj IH ws el Hpb Hpe. unfold Z.succ in *. rewrite range_succ by lia. rewrite fold_left_app, flat_map_app.
    destruct (fold_left (scb pe old (perform_cumsum pb)) (range j) _) as [[ws1 el1]|] eqn:E1; [|intros E; discriminate].
    destruct (IH ws1 el1 ltac:(intros; apply Hpb; lia) Hpe eq_refl) as (A & B & C & D & F).
    cbn [fold_left flat_map]. rewrite app_nil_r. unfold scatter_batch at 1.
    destruct (fold_left (sce pe) _ _) as [[[ip2 ws2] el2]|] eqn:E2; [|discriminate]. intros E. injection E as <- <-.
    pose proof (NoDup_flat_batches (j + 1) ltac:(lia)) as ND. rewrite range_succ in ND by lia. rewrite flat_map_app in ND.
    cbn [flat_map] in ND. rewrite app_nil_r in ND.
    set (L1 := flat_map (batch_ips Ntot batch_size) (range j)) in *. set (L2 := batch_ips Ntot batch_size j) in *.
    assert (Dis : forall i, In i L2 -> ~ In i L1).
    { intros i I2 I1. clear - ND I1 I2. induction L1 as [|a L1 IHL]; [destruct I1|]. cbn [app] in ND. inversion ND; subst.
      destruct I1 as [->|I1]; [|apply IHL; assumption]. apply H1. apply in_or_app. right. exact I2. }
    apply sce_fold in E2; [|apply NoDup_range2|intros i I2; apply D, Dis, I2].
    destruct E2 as (A2 & B2 & C2 & D2). cbv zeta. rewrite flat_map_app.
    assert (In2 : forall i, In i L2 -> 0 <= i < Ntot).
    { intros i I2. unfold L2, batch_ips in I2. apply in_range2 in I2. nia. }
    assert (Len : forall M, (forall i, In i M -> emit (elec i) i (pe i) = Some (em pe i)) -> (forall i, In i M -> 0 <= i < Ntot) ->
      zsum cnt M = zlen (flat_map (phs pe) M)).
    { induction M as [|i M IHL]; [reflexivity|]. intros BM IM. rewrite zsum_cons. cbn [flat_map]. rewrite zlen_app.
      rewrite IHL; [|intros k' Hk'; apply BM; right; exact Hk'|intros k' Hk'; apply IM; right; exact Hk'].
      destruct (Hpe i (IM i (or_introl eq_refl))) as [P1 P2].
      pose proof (BM i (or_introl eq_refl)) as Ei. rewrite P1 in Ei. apply emitted_spec in Ei; [|exact P2]. destruct Ei as [Ei _].
      unfold phs at 2. unfold zlen at 2. rewrite map_length. fold (zlen (em pe i)). lia. }
    pose proof (Len L2 B2 In2) as Len2.
    split; [|split; [|split; [|split]]].
    + rewrite A2, A, F, number_app. reflexivity.
    + intros i Hi. apply in_app_or in Hi. destruct Hi as [Hi|Hi]; [apply B, Hi|apply B2, Hi].
    + intros i Hi. apply in_app_or in Hi. destruct (in_dec Z.eq_dec i L2) as [I2|I2]; [apply C2, I2|]. rewrite (D2 i I2). apply C. tauto.
    + intros i Hi. rewrite D2, D; [reflexivity| |]; intros HH; apply Hi, in_or_app; tauto.
    + rewrite cumsum1_step by lia. rewrite F, zlen_app, <- Len2. f_equal. apply Hpb. lia.
Qed.

Lemma handled_scattering garbage photons elec' photons' :
  (forall i, 0 <= i < Ntot -> 0 <= cnt i) -> 0 <= fst photons ->
  handle_scattering c PI_RE_2 mc beam ratio draw_n draws draw_phi draw_recoil Ntot batch_size dt photon_n garbage elec photons = Some (elec', photons') ->
  exists evs : Z -> list fourmom,
    (forall i, 0 <= i < Ntot -> emit (elec i) i (cnt i) = Some (evs i) /\ zlen (evs i) = cnt i) /\
    fst photons' = fst photons + zsum cnt (range Ntot) /\
    slots photons' = slots photons ++ map Some (flat_map (fun i => map (photon_of ratio (elec i)) (evs i)) (range Ntot)) /\
    (forall i, 0 <= i < Ntot -> elec' i =
       if cnt i >? 0 then if Rlt_dec (draw_recoil i) (1 / ratio) then recoil mc beam (elec i) (last (evs i) beam) else elec i else elec i).
Proof.
  intros Hcnt Hst. unfold handle_scattering. cbv zeta. assert (Hq : 0 <= Z.quot Ntot batch_size) by (apply Z.quot_pos; lia).
  set (NB := Z.quot Ntot batch_size + 1).
  pose proof (det_all garbage NB ltac:(unfold NB; lia)) as HD. unfold determine_scatterings.
  destruct (fold_left det (range NB) garbage) as [pe pb]. destruct HD as [HD1 HD2].
  assert (All : flat_map (batch_ips Ntot batch_size) (range NB) = range Ntot) by (apply batches_all; lia).
  rewrite All in HD1.
  assert (Hpe : forall i, 0 <= i < Ntot -> pe i = cnt i /\ 0 <= cnt i) by (intros i Hi; split; [apply HD1, in_range, Hi|apply Hcnt, Hi]).
  assert (Tot : forall k, 0 <= k <= NB -> perform_cumsum pb k = zsum cnt (flat_map (batch_ips Ntot batch_size) (range k))).
  { intros k Hk. assert (Hk0 : 0 <= k) by lia. revert Hk. pattern k. apply natlike_ind; [reflexivity| |exact Hk0].
    intros j Hj IH Hk. unfold Z.succ in *. rewrite cumsum1_step by lia. rewrite range_succ by lia. rewrite flat_map_app, zsum_app.
    cbn [flat_map]. rewrite app_nil_r. rewrite IH by lia. f_equal. apply HD2. lia. }
  specialize (Tot NB ltac:(unfold NB; lia)). rewrite All in Tot. destruct (Z.eqb_spec (perform_cumsum pb NB) 0) as [Z0|NZ].
  - intros E. injection E as <- <-. assert (Zi : forall i, 0 <= i < Ntot -> cnt i = 0).
    { rewrite Tot in Z0. clear - Z0 Hcnt. assert (HH : forall i, In i (range Ntot) -> 0 <= cnt i) by (intros i Hi; apply Hcnt; apply in_range; exact Hi).
      intros i Hi. apply in_range in Hi. revert Z0 HH Hi. generalize (range Ntot). induction l as [|a l IHl]; [intros _ _ []|].
      rewrite zsum_cons. intros Z0 HH Hi. assert (0 <= zsum cnt l).
      { clear - HH. assert (HH' : forall i, In i l -> 0 <= cnt i) by (intros; apply HH; right; assumption). clear HH.
        induction l as [|b l IHl]; [unfold zsum; cbn; lia|]. rewrite zsum_cons.
        pose proof (HH' b (or_introl eq_refl)). specialize (IHl ltac:(intros; apply HH'; right; assumption)). lia. }
      pose proof (HH a (or_introl eq_refl)). destruct Hi as [<-|Hi]; [lia|]. apply IHl; [lia|intros; apply HH; right; assumption|exact Hi]. }
    exists (fun _ => []). split; [|split; [|split]].
    + intros i Hi. rewrite (Zi i Hi). split; reflexivity.
    + rewrite <- Tot, Z0. lia.
    + cbn [map]. assert (X : flat_map (fun _ : Z => []) (range Ntot) = @nil cp) by (clear; induction (range Ntot) as [|? l IHl]; [reflexivity|exact IHl]).
      rewrite X. cbn. rewrite app_nil_r. reflexivity.
    + intros i Hi. rewrite (Zi i Hi). reflexivity.
  - unfold scatter_photons_electrons.
    destruct (fold_left (scb pe (fst photons) (perform_cumsum pb)) (range NB) _) as [[ws el]|] eqn:E; [|discriminate].
    intros Eq. injection Eq as <- <-. apply scb_all in E; [|unfold NB; lia|exact HD2|exact Hpe]. rewrite All in E. cbv zeta in E.
    destruct E as (A & B & C & D & F). exists (em pe).
    assert (EM : forall i, 0 <= i < Ntot -> emit (elec i) i (cnt i) = Some (em pe i)).
    { intros i Hi. rewrite <- (proj1 (Hpe i Hi)). apply B, in_range, Hi. }
    split; [|split; [|split]].
    + intros i Hi. split; [apply EM, Hi|]. specialize (EM i Hi). apply emitted_spec in EM; [tauto|apply Hcnt, Hi].
    + cbn [fst]. rewrite Tot. reflexivity.
    + unfold slots. cbn [fst snd]. rewrite F, A. unfold realloc. apply write_numbered. exact Hst.
    + intros i Hi. rewrite C by (apply in_range, Hi). unfold after. rewrite (proj1 (Hpe i Hi)). reflexivity.
Qed.
End L.
