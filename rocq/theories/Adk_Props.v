(** C77: the ionization probability follows the ADK rate. *)
From Verif Require Import Base Ionize_Model Adk_Model Adk_Spec Adk_Proofs.
From Coq Require Import Reals Lra Lia String QArith Qreals.
Open Scope R_scope.

(** For every supported element and every level, the probability of ionization in one timestep [dt] of an ion of Lorentz factor [g] in a
    field of amplitude E is that of a Poisson process with the ADK rate during the proper time dt/g; the rate is positive. *)
Theorem C77_rate alpha r_e c m_e e G element dt level_max lmax tab (energies : list Q) i u u0 E g :
  is_gamma G -> 0 < alpha -> 0 < r_e -> 0 < c -> 0 < m_e -> 0 < e ->
  lookup element = Some energies -> nth_error energies i = Some u -> nth_error energies 0 = Some u0 -> 0 < E -> 0 < g ->
  initialize_ADK_parameters alpha r_e c m_e e G element dt level_max = Ok (lmax, tab) ->
  let UH := Q2R (13598434005136#1000000000000) in
  let W := adk_rate G (alpha ^ 3 * c / r_e) (m_e * c ^ 2 / e * alpha ^ 4 / r_e) UH (Q2R u) (IZR (Z.of_nat i + 1)) (1 * sqrt (UH / Q2R u0) - 1) E in
  get_ionization_probability E g (adk_prefactor tab (Z.of_nat i)) (adk_power tab (Z.of_nat i)) (adk_exp_prefactor tab (Z.of_nat i)) =
  1 - exp (- (W * (dt / g))) /\ 0 < W.
Proof. intros. split; [eapply init_ok; eassumption|]. eapply (rate_pos alpha r_e c m_e e G); eassumption. Qed.
Print Assumptions C77_rate.

(** It lies strictly between 0 and 1, and is 0 without field. *)
Theorem C77_bounds alpha r_e c m_e e G element dt level_max lmax tab (energies : list Q) i u E g :
  is_gamma G -> 0 < alpha -> 0 < r_e -> 0 < c -> 0 < m_e -> 0 < e -> 0 < dt ->
  lookup element = Some energies -> nth_error energies i = Some u -> 0 <= E -> 0 < g ->
  initialize_ADK_parameters alpha r_e c m_e e G element dt level_max = Ok (lmax, tab) ->
  let p := get_ionization_probability E g (adk_prefactor tab (Z.of_nat i)) (adk_power tab (Z.of_nat i)) (adk_exp_prefactor tab (Z.of_nat i)) in
  (E = 0 -> p = 0) /\ (0 < E -> 0 < p < 1).
Proof.
  intros HG H1 H2 H3 H4 H5 Hdt HL Hi HE Hg HI p. destruct (lookup_ok _ _ _ _ HL Hi) as (u0 & Hu0 & _). split.
  - intros ->. unfold p, get_ionization_probability. destruct (Req_EM_T 0 0); [reflexivity|lra].
  - intros PE. unfold p. rewrite (init_ok alpha r_e c m_e e G H1 H2 H3 H4 H5 _ _ _ _ _ _ HL HI _ _ _ Hi Hu0 E g PE Hg).
    apply prob_bounds; [eapply rate_pos; eassumption|]. apply Rdiv_lt_0_compat; assumption.
Qed.
Print Assumptions C77_bounds.

(** Hydrogen: the rate of Landau and Lifshitz. *)
Theorem C77_hydrogen alpha r_e c m_e e G dt level_max lmax tab E g :
  is_gamma G -> 0 < alpha -> 0 < r_e -> 0 < c -> 0 < m_e -> 0 < e -> 0 < E -> 0 < g ->
  initialize_ADK_parameters alpha r_e c m_e e G "H" dt level_max = Ok (lmax, tab) ->
  let omega_a := alpha ^ 3 * c / r_e in let E_a := m_e * c ^ 2 / e * alpha ^ 4 / r_e in
  get_ionization_probability E g (adk_prefactor tab 0) (adk_power tab 0) (adk_exp_prefactor tab 0) =
  1 - exp (- (4 * omega_a * (E_a / E) * exp (- (2 / 3) * (E_a / E)) * (dt / g))).
Proof.
  intros HG H1 H2 H3 H4 H5 HE Hg HI. cbv zeta. change 0%Z with (Z.of_nat 0).
  rewrite (init_ok alpha r_e c m_e e G H1 H2 H3 H4 H5 "H" dt level_max lmax tab [qH] eq_refl HI 0 qH qH eq_refl eq_refl E g HE Hg).
  rewrite (hydrogen alpha r_e c m_e e G HG H1 H2 H3 H4 H5 E HE). reflexivity.
Qed.
Print Assumptions C77_hydrogen.

(** The constants are the atomic units of frequency and field, when r_e is the classical electron radius. *)
Theorem C77_units alpha r_e c m_e e hbar : 0 < alpha -> 0 < c -> 0 < m_e -> 0 < e -> 0 < hbar -> r_e = alpha * hbar / (m_e * c) ->
  wa alpha r_e c = alpha ^ 2 * m_e * c ^ 2 / hbar /\ e * Ea alpha r_e c m_e e = alpha ^ 3 * m_e ^ 2 * c ^ 3 / hbar.
Proof. intros Ha Hc Hm He Hh ->. unfold wa, Ea. split; field; lra. Qed.
Print Assumptions C77_units.

(** The probability over an interval does not depend on how it is cut into timesteps. *)
Theorem C77_timestep alpha r_e c m_e e G element dt1 dt2 lm t1 t2 t12 n1 n2 n12 (energies : list Q) i u E g :
  is_gamma G -> 0 < alpha -> 0 < r_e -> 0 < c -> 0 < m_e -> 0 < e ->
  lookup element = Some energies -> nth_error energies i = Some u -> 0 < E -> 0 < g ->
  initialize_ADK_parameters alpha r_e c m_e e G element dt1 lm = Ok (n1, t1) ->
  initialize_ADK_parameters alpha r_e c m_e e G element dt2 lm = Ok (n2, t2) ->
  initialize_ADK_parameters alpha r_e c m_e e G element (dt1 + dt2) lm = Ok (n12, t12) ->
  let p t := get_ionization_probability E g (adk_prefactor t (Z.of_nat i)) (adk_power t (Z.of_nat i)) (adk_exp_prefactor t (Z.of_nat i)) in
  p t12 = p t1 + (1 - p t1) * p t2.
Proof.
  intros HG H1 H2 H3 H4 H5 HL Hi PE Hg I1 I2 I3 p. destruct (lookup_ok _ _ _ _ HL Hi) as (u0 & Hu0 & _). unfold p.
  rewrite (init_ok alpha r_e c m_e e G H1 H2 H3 H4 H5 _ _ _ _ _ _ HL I1 _ _ _ Hi Hu0 E g PE Hg).
  rewrite (init_ok alpha r_e c m_e e G H1 H2 H3 H4 H5 _ _ _ _ _ _ HL I2 _ _ _ Hi Hu0 E g PE Hg).
  rewrite (init_ok alpha r_e c m_e e G H1 H2 H3 H4 H5 _ _ _ _ _ _ HL I3 _ _ _ Hi Hu0 E g PE Hg). apply prob_add.
Qed.
Print Assumptions C77_timestep.

(** Unknown elements and levels are rejected; all the others are accepted. *)
Theorem C77_accepts alpha r_e c m_e e G element dt level_max :
  match lookup element, level_max with
  | None, _ => initialize_ADK_parameters alpha r_e c m_e e G element dt level_max = Err ValueError
  | Some l, Some m => if (m >? Z.of_nat (List.length l))%Z then initialize_ADK_parameters alpha r_e c m_e e G element dt level_max = Err ValueError
                      else exists tab, initialize_ADK_parameters alpha r_e c m_e e G element dt level_max = Ok (m, tab)
  | Some l, None => exists tab, initialize_ADK_parameters alpha r_e c m_e e G element dt level_max = Ok (Z.of_nat (List.length l), tab)
  end.
Proof.
  unfold initialize_ADK_parameters, get_ionization_energies. destruct (lookup element) as [l|]; [|destruct level_max; reflexivity].
  cbv zeta. rewrite map_length. change (lookup "H") with (Some [qH]).
  destruct level_max as [m|]; [destruct (m >? _)%Z|]; cbn [bind map]; try reflexivity; eexists; reflexivity.
Qed.
Print Assumptions C77_accepts.

(** A stronger field ionizes more, up to a field that depends on the level. Missing: beyond it the probability decreases (refuted below). *)
Theorem C78_partial alpha r_e c m_e e G element dt level_max lmax tab (energies : list Q) i u E1 E2 g :
  is_gamma G -> 0 < alpha -> 0 < r_e -> 0 < c -> 0 < m_e -> 0 < e -> 0 < dt ->
  lookup element = Some energies -> nth_error energies i = Some u -> 0 < g ->
  initialize_ADK_parameters alpha r_e c m_e e G element dt level_max = Ok (lmax, tab) ->
  let UH := Q2R (13598434005136#1000000000000) in
  let n := IZR (Z.of_nat i + 1) * sqrt (UH / Q2R u) in
  let E_peak := 2 / 3 * (Rpower (Q2R u / UH) (3 / 2) * (m_e * c ^ 2 / e * alpha ^ 4 / r_e)) / (2 * n - 1) in
  let p E := get_ionization_probability E g (adk_prefactor tab (Z.of_nat i)) (adk_power tab (Z.of_nat i)) (adk_exp_prefactor tab (Z.of_nat i)) in
  0 < E_peak /\ (0 < E1 < E2 -> E2 <= E_peak -> p E1 < p E2) /\ (E_peak <= E1 < E2 -> p E2 < p E1).
Proof.
  intros HG H1 H2 H3 H4 H5 Hdt HL Hi Hg HI UH n E_peak p. destruct (lookup_ok _ _ _ _ HL Hi) as (u0 & Hu0 & Pu & Pn & _).
  assert (P : forall E, 0 < E -> p E = 1 - exp (- (rate alpha r_e c m_e e G energies i u u0 E * (dt / g)))).
  { intros E PE. exact (init_ok alpha r_e c m_e e G H1 H2 H3 H4 H5 _ _ _ _ _ _ HL HI _ _ _ Hi Hu0 E g PE Hg). }
  assert (Pg : 0 < dt / g) by (apply Rdiv_lt_0_compat; assumption).
  assert (PP : 0 < E_peak).
  { unfold E_peak. apply Rdiv_lt_0_compat; [|unfold neff in Pn; fold qH in UH; unfold n, UH; fold qH; lra].
    apply Rmult_lt_0_compat; [lra|]. apply Rmult_lt_0_compat; [apply Rpower_pos|]. exact (Ea_pos alpha r_e c m_e e H1 H2 H3 H4 H5). }
  split; [exact PP|]. split.
  - intros [A B] D. rewrite !P by lra. apply prob_incr; [exact Pg|]. eapply rate_increasing; try eassumption; try exact D.
  - intros [A B]. rewrite !P by lra. apply prob_incr; [exact Pg|]. eapply rate_decreasing; try eassumption; try exact A.
Qed.
Print Assumptions C78_partial.

(** A function with the properties used of Gamma. *)
Fixpoint falling (n : nat) (x : R) : R := match n with O => 1 | S n => (x - 1) * falling n (x - 1) end.
Definition G0 (x : R) : R := falling (Z.to_nat (- Int_part (- x) - 1)) x.
Lemma Int_part_is r z : IZR z <= r < IZR z + 1 -> z = Int_part r.
Proof.
  intros [A B]. destruct (base_Int_part r) as [D F]. rewrite <- (plus_IZR z 1) in B.
  assert (X : IZR z < IZR (Int_part r + 1)) by (rewrite (plus_IZR _ 1); lra). assert (Y : IZR (Int_part r) < IZR (z + 1)) by lra.
  apply lt_IZR in X, Y. lia.
Qed.
Lemma G0_ok : is_gamma G0.
Proof.
  assert (I : forall x, 0 < x -> (0 <= - Int_part (- x) - 1)%Z /\ IZR (- Int_part (- x) - 1) < x).
  { intros x Hx. destruct (base_Int_part (- x)) as [A B]. split.
    - assert (Int_part (- x) < 0)%Z by (apply lt_IZR; lra). lia.
    - rewrite minus_IZR, opp_IZR. lra. }
  assert (F : forall n x, INR n < x -> 0 < falling n x).
  { induction n as [|n IH]; intros x Hx; cbn [falling]; [lra|]. rewrite S_INR in Hx. pose proof (pos_INR n).
    apply Rmult_lt_0_compat; [lra|]. apply IH. lra. }
  assert (U : forall x, Int_part (- (x + 1)) = (Int_part (- x) - 1)%Z).
  { intros x. replace (- (x + 1)) with (- x + IZR (-1)) by (cbn; ring). rewrite <- (Z.add_opp_r (Int_part (- x)) 1).
    destruct (base_Int_part (- x)) as [A B]. symmetry. apply Int_part_is. rewrite plus_IZR. cbn. lra. }
  split; [|split].
  - unfold G0. replace (Int_part (- (1))) with (-1)%Z; [reflexivity|]. apply Int_part_is. lra.
  - intros x Hx. destruct (I x Hx) as [A _]. unfold G0. rewrite U.
    replace (Z.to_nat (- (Int_part (- x) - 1) - 1)) with (S (Z.to_nat (- Int_part (- x) - 1))) by lia.
    cbn [falling]. replace (x + 1 - 1) with x by ring. reflexivity.
  - intros x Hx. destruct (I x Hx) as [A B]. apply F. rewrite INR_IZR_INZ, Z2Nat.id by exact A. exact B.
Qed.

(** A stronger field may ionize less. *)
Theorem C78_refuted : exists alpha r_e c m_e e G dt tab E1 E2, is_gamma G /\ 0 < alpha /\ 0 < r_e /\ 0 < c /\ 0 < m_e /\ 0 < e /\ 0 < dt /\
  initialize_ADK_parameters alpha r_e c m_e e G "H" dt None = Ok (1%Z, tab) /\ 0 < E1 < E2 /\
  get_ionization_probability E2 1 (adk_prefactor tab 0) (adk_power tab 0) (adk_exp_prefactor tab 0) <
  get_ionization_probability E1 1 (adk_prefactor tab 0) (adk_power tab 0) (adk_exp_prefactor tab 0).
Proof.
  pose proof (C77_accepts 1 1 1 1 1 G0 "H" 1 None) as H. change (lookup "H") with (Some [qH]) in H. destruct H as (tab & H).
  exists 1, 1, 1, 1, 1, G0, 1, tab, 1, 2. do 7 (split; [first [apply G0_ok|lra]|]). split; [exact H|]. split; [lra|].
  destruct (C78_partial 1 1 1 1 1 G0 "H" 1 None 1%Z tab [qH] 0 qH 1 2 1 G0_ok) as (_ & _ & D); try lra; try reflexivity; try exact H.
  apply D. split; [|lra].
  assert (E : 2 / 3 * (Rpower (Q2R qH / Q2R qH) (3 / 2) * (1 * 1 ^ 2 / 1 * 1 ^ 4 / 1)) / (2 * (IZR (Z.of_nat 0 + 1) * sqrt (Q2R qH / Q2R qH)) - 1) = 2 / 3).
  { pose proof qH_pos. replace (Q2R qH / Q2R qH) with 1 by (field; lra). rewrite sqrt_1. unfold Rpower. rewrite ln_1, Rmult_0_r, exp_0. cbn [Z.of_nat Z.add]. field. }
  fold qH. rewrite E. lra.
Qed.
Print Assumptions C78_refuted.

Example C77_met : is_gamma G0 /\ lookup "N" <> None /\ List.length atomic_data = 22%nat /\
  exists l, lookup "Ar" = Some l /\ List.length l = 18%nat /\ nth_error l 9 <> None.
Proof. split; [apply G0_ok|]. split; [discriminate|]. split; [reflexivity|]. eexists. split; [reflexivity|]. split; [reflexivity|discriminate]. Qed.
