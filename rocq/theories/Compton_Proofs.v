(** Proofs for C29, C30 and C31. *)
From Verif Require Import Base Inject_Proofs Sort_Model Sort_Proofs Ionize_Model Ionize_Proofs Compton_Model Compton_Spec.
From Coq Require Import Reals Lra.
From Flocq Require Import Core.Core.
Open Scope R_scope.

(** ** Lorentz transforms *)
Definition boost_ok (g b nx ny nz : R) : Prop :=
  0 < g /\ g ^ 2 * (1 - b ^ 2) = 1 /\ 0 <= b /\ b < 1 /\ nx ^ 2 + ny ^ 2 + nz ^ 2 = 1.
Lemma boost_opp g b nx ny nz : boost_ok g b nx ny nz -> boost_ok g b (- nx) (- ny) (- nz).
Proof. unfold boost_ok. intros (A & B & C & D & E). repeat split; try assumption. rewrite <- E. ring. Qed.
Lemma mdot_lorentz P Q g b nx ny nz : boost_ok g b nx ny nz ->
  mdot (lorentz_transform P g b nx ny nz) (lorentz_transform Q g b nx ny nz) = mdot P Q.
Proof.
  intros (_ & Hg & _ & _ & Hn). unfold mdot, lorentz_transform. cbv zeta. cbn [p0 p1 p2 p3].
  set (s := nx * p1 P + ny * p2 P + nz * p3 P). set (t := nx * p1 Q + ny * p2 Q + nz * p3 Q).
  assert (E : g * (p0 P - b * s) * (g * (p0 Q - b * t)) - g * (s - b * p0 P) * (g * (t - b * p0 Q)) = p0 P * p0 Q - s * t).
  { transitivity (g ^ 2 * (1 - b ^ 2) * (p0 P * p0 Q - s * t)); [ring|]. rewrite Hg. ring. }
  set (s' := g * (s - b * p0 P)) in *. set (t' := g * (t - b * p0 Q)) in *.
  assert (F : (p1 P + nx * (s' - s)) * (p1 Q + nx * (t' - t)) + (p2 P + ny * (s' - s)) * (p2 Q + ny * (t' - t))
            + (p3 P + nz * (s' - s)) * (p3 Q + nz * (t' - t)) = p1 P * p1 Q + p2 P * p2 Q + p3 P * p3 Q + s' * t' - s * t).
  { transitivity (p1 P * p1 Q + p2 P * p2 Q + p3 P * p3 Q + s * (t' - t) + t * (s' - s) + (nx ^ 2 + ny ^ 2 + nz ^ 2) * (s' - s) * (t' - t)).
    - unfold s, t. ring. - rewrite Hn. ring. }
  lra.
Qed.
Lemma fourmom_eq P Q : p0 P = p0 Q -> p1 P = p1 Q -> p2 P = p2 Q -> p3 P = p3 Q -> P = Q.
Proof. destruct P, Q; cbn; intros -> -> -> ->; reflexivity. Qed.
Lemma lorentz_back P g b nx ny nz : boost_ok g b nx ny nz ->
  lorentz_transform (lorentz_transform P g b nx ny nz) g b (- nx) (- ny) (- nz) = P.
Proof.
  intros (_ & Hg & _ & _ & Hn).
  set (s := nx * p1 P + ny * p2 P + nz * p3 P). set (s' := g * (s - b * p0 P)).
  assert (E : - nx * (p1 P + nx * (s' - s)) + - ny * (p2 P + ny * (s' - s)) + - nz * (p3 P + nz * (s' - s)) = - s').
  { transitivity (- s - (nx ^ 2 + ny ^ 2 + nz ^ 2) * (s' - s)); [unfold s; ring|]. rewrite Hn. ring. }
  assert (F : g * (- s' - b * (g * (p0 P - b * s))) = - s).
  { unfold s'. transitivity (- (g ^ 2 * (1 - b ^ 2) * s)); [ring|]. rewrite Hg. ring. }
  unfold lorentz_transform at 1. cbv zeta.
  unfold lorentz_transform. cbv zeta. cbn [p0 p1 p2 p3]. fold s. fold s'. rewrite E, F. apply fourmom_eq; cbn [p0 p1 p2 p3].
  - unfold s'. transitivity (g ^ 2 * (1 - b ^ 2) * p0 P); [ring|]. rewrite Hg. ring.
  - ring. - ring. - ring.
Qed.
Lemma cauchy a1 a2 a3 b1 b2 b3 : (a1 * b1 + a2 * b2 + a3 * b3) ^ 2 <= (a1 ^ 2 + a2 ^ 2 + a3 ^ 2) * (b1 ^ 2 + b2 ^ 2 + b3 ^ 2).
Proof.
  assert (0 <= (a1 * b2 - a2 * b1) ^ 2 + (a1 * b3 - a3 * b1) ^ 2 + (a2 * b3 - a3 * b2) ^ 2)
    by (repeat apply Rplus_le_le_0_compat; apply pow2_ge_0).
  lra.
Qed.
Lemma sq_zero a : a ^ 2 = 0 -> a = 0.
Proof. intros H. destruct (Req_dec a 0) as [E|E]; [exact E|]. apply (pow_nonzero a 2) in E. contradiction. Qed.
Lemma abs_le_sq a b : 0 <= b -> a ^ 2 <= b ^ 2 -> - b <= a <= b.
Proof. intros Hb H. split; nra. Qed.
Lemma lightlike_lorentz P g b nx ny nz : boost_ok g b nx ny nz -> lightlike P -> lightlike (lorentz_transform P g b nx ny nz).
Proof.
  intros HB (H0 & HP). pose proof (mdot_lorentz P P _ _ _ _ _ HB) as M. unfold mdot in M.
  destruct HB as (Hg & Hgb & Hb0 & Hb1 & Hn). split; [|nra].
  unfold lorentz_transform. cbn [p0]. apply Rmult_lt_0_compat; [exact Hg|].
  pose proof (cauchy nx ny nz (p1 P) (p2 P) (p3 P)) as HC. rewrite Hn, <- HP, Rmult_1_l in HC.
  apply abs_le_sq in HC; [|lra]. nra.
Qed.

(** ** The electron *)
Lemma u_sq_pos a : 0 <= u_sq a.
Proof. unfold u_sq. repeat apply Rplus_le_le_0_compat; apply pow2_ge_0. Qed.
Lemma gamma_sq a : sqrt (1 + u_sq a) ^ 2 = 1 + u_sq a.
Proof. apply pow2_sqrt. pose proof (u_sq_pos a). lra. Qed.
Lemma gamma_pos a : 0 < sqrt (1 + u_sq a).
Proof. apply sqrt_lt_R0. pose proof (u_sq_pos a). lra. Qed.
Lemma elec_gamma_eq a : elec_consistent a -> elec_gamma a = sqrt (1 + u_sq a).
Proof. intros H. unfold elec_gamma. rewrite H. pose proof (gamma_pos a). field. lra. Qed.
Lemma elec_u_sq a : elec_u a ^ 2 = u_sq a.
Proof. unfold elec_u. apply pow2_sqrt. apply u_sq_pos. Qed.
Lemma elec_boost a : elec_consistent a ->
  let '(nx, ny, nz) := elec_n a in boost_ok (elec_gamma a) (elec_beta a) nx ny nz /\
  cux a = elec_u a * nx /\ cuy a = elec_u a * ny /\ cuz a = elec_u a * nz.
Proof.
  intros H. pose proof (elec_u_sq a) as Hu. pose proof (gamma_sq a) as Hg. pose proof (gamma_pos a) as Hp.
  pose proof (sqrt_pos (cux a ^ 2 + cuy a ^ 2 + cuz a ^ 2)) as Hup. fold (elec_u a) in Hup.
  rewrite (elec_gamma_eq a H). unfold elec_beta. rewrite H.
  set (g := sqrt (1 + u_sq a)) in *. set (u := elec_u a) in *.
  assert (B : g ^ 2 * (1 - (u * (1 / g)) ^ 2) = 1).
  { replace (g ^ 2 * (1 - (u * (1 / g)) ^ 2)) with (g ^ 2 - u ^ 2) by (field; lra). lra. }
  assert (B0 : 0 <= u * (1 / g)).
  { apply Rmult_le_pos; [exact Hup|]. unfold Rdiv. rewrite Rmult_1_l. left. apply Rinv_0_lt_compat. exact Hp. }
  assert (B1 : u * (1 / g) < 1).
  { apply (Rmult_lt_reg_r g); [exact Hp|]. replace (u * (1 / g) * g) with u by (field; lra). nra. }
  unfold elec_n. fold u. destruct (Req_EM_T u 0) as [Z|NZ].
  - assert (U : u_sq a = 0) by nra. unfold u_sq in U.
    pose proof (pow2_ge_0 (cux a)). pose proof (pow2_ge_0 (cuy a)). pose proof (pow2_ge_0 (cuz a)).
    split; [unfold boost_ok; repeat split; try assumption; ring|]. rewrite Z.
    split; [|split]; nra.
  - split; [unfold boost_ok; repeat split; try assumption|].
    + replace ((1 / u * cux a) ^ 2 + (1 / u * cuy a) ^ 2 + (1 / u * cuz a) ^ 2) with (u_sq a / u ^ 2) by (unfold u_sq; field; exact NZ).
      rewrite <- Hu. field. exact NZ.
    + split; [|split]; field; exact NZ.
Qed.

(** ** Scattering *)
Section S.
Context (c PI_RE_2 mc : R) (beam : fourmom) (ratio : R).
Hypothesis Hmc : 0 < mc.
Hypothesis Hbeam : lightlike beam.

Lemma rest_lightlike a : elec_consistent a -> lightlike (to_rest beam a).
Proof.
  intros H. pose proof (elec_boost a H) as B. unfold to_rest. destruct (elec_n a) as [[nx ny] nz].
  apply lightlike_lorentz; [apply B|exact Hbeam].
Qed.
Lemma from_lightlike a Q : elec_consistent a -> lightlike Q -> lightlike (from_rest a Q).
Proof.
  intros H HQ. pose proof (elec_boost a H) as B. unfold from_rest. destruct (elec_n a) as [[nx ny] nz].
  apply lightlike_lorentz; [apply boost_opp, B|exact HQ].
Qed.
Lemma mdot_from a Q : elec_consistent a -> mdot beam (from_rest a Q) = mdot (to_rest beam a) Q.
Proof.
  intros H. pose proof (elec_boost a H) as B. unfold from_rest, to_rest. destruct (elec_n a) as [[nx ny] nz].
  destruct B as [B _]. rewrite <- (lorentz_back beam _ _ _ _ _ B) at 1. apply mdot_lorentz. apply boost_opp, B.
Qed.
Definition four_u (a : cp) : fourmom := {| p0 := sqrt (1 + u_sq a); p1 := cux a; p2 := cuy a; p3 := cuz a |}.
Lemma mdot_u_rest a : elec_consistent a -> mdot (four_u a) beam = p0 (to_rest beam a).
Proof.
  intros H. pose proof (elec_boost a H) as B. unfold to_rest. pose proof (elec_gamma_eq a H) as G.
  destruct (elec_n a) as [[nx ny] nz]. destruct B as (B & U1 & U2 & U3).
  unfold mdot, four_u, lorentz_transform. cbn [p0 p1 p2 p3]. rewrite U1, U2, U3, <- G. unfold elec_beta.
  assert (X : elec_gamma a * (elec_u a * cig a) = elec_u a).
  { unfold elec_gamma. pose proof (gamma_pos a). rewrite H. field. lra. }
  transitivity (elec_gamma a * p0 beam - (elec_gamma a * (elec_u a * cig a)) * (nx * p1 beam + ny * p2 beam + nz * p3 beam)); [|ring].
  rewrite X. ring.
Qed.
Lemma mdot_u_from a Q : elec_consistent a -> mdot (four_u a) (from_rest a Q) = p0 Q.
Proof.
  intros H. pose proof (elec_boost a H) as B. unfold from_rest. pose proof (elec_gamma_eq a H) as G.
  destruct (elec_n a) as [[nx ny] nz]. destruct B as (B & U1 & U2 & U3).
  assert (X : elec_u a = elec_gamma a * elec_beta a).
  { unfold elec_gamma, elec_beta. pose proof (gamma_pos a). rewrite H. field. lra. }
  unfold mdot, four_u, lorentz_transform. cbn [p0 p1 p2 p3]. rewrite U1, U2, U3, <- G, X.
  destruct B as (Hg & Hgb & _ & _ & Hn). set (g := elec_gamma a) in *. set (b := elec_beta a) in *.
  set (s := - nx * p1 Q + - ny * p2 Q + - nz * p3 Q). set (s' := g * (s - b * p0 Q)).
  assert (E : g * b * nx * (p1 Q + - nx * (s' - s)) + g * b * ny * (p2 Q + - ny * (s' - s)) + g * b * nz * (p3 Q + - nz * (s' - s)) = - (g * b * s')).
  { transitivity (- (g * b * s) - g * b * (s' - s) * (nx ^ 2 + ny ^ 2 + nz ^ 2)); [unfold s; ring|]. rewrite Hn. ring. }
  transitivity (g * (g * (p0 Q - b * s)) + g * b * s'); [lra|]. unfold s'.
  transitivity (g ^ 2 * (1 - b ^ 2) * p0 Q); [ring|]. rewrite Hgb. ring.
Qed.

(** angles: unit direction of the incoming photon *)
Lemma angles_ok P : lightlike P -> let '(ct, st, cf, sf) := angles P in
  ct ^ 2 + st ^ 2 = 1 /\ cf ^ 2 + sf ^ 2 = 1 /\
  p1 P = p0 P * (st * cf) /\ p2 P = p0 P * (st * sf) /\ p3 P = p0 P * ct.
Proof.
  intros (H0 & HP). unfold angles. set (ct := p3 P / p0 P). assert (E3 : p3 P = p0 P * ct) by (unfold ct; field; lra).
  assert (Hxy : p1 P ^ 2 + p2 P ^ 2 = p0 P ^ 2 * (1 - ct ^ 2)).
  { replace (p0 P ^ 2 * (1 - ct ^ 2)) with (p0 P ^ 2 - (p0 P * ct) ^ 2) by ring. rewrite <- E3. lra. }
  destruct (Rlt_dec (ct ^ 2) 1) as [L|L].
  - assert (S : sqrt (1 - ct ^ 2) ^ 2 = 1 - ct ^ 2) by (apply pow2_sqrt; lra).
    assert (Sp : 0 < sqrt (1 - ct ^ 2)) by (apply sqrt_lt_R0; lra). set (st := sqrt (1 - ct ^ 2)) in *.
    split; [lra|]. split; [|split; [field; lra|split; [field; lra|exact E3]]].
    replace ((p1 P * (1 / (st * p0 P))) ^ 2 + (p2 P * (1 / (st * p0 P))) ^ 2) with ((p1 P ^ 2 + p2 P ^ 2) / (st ^ 2 * p0 P ^ 2)) by (field; lra).
    rewrite Hxy, S. field. split; [lra|]. lra.
  - assert (0 <= p0 P ^ 2 * (1 - ct ^ 2)) by (rewrite <- Hxy; apply Rplus_le_le_0_compat; apply pow2_ge_0).
    assert (0 < p0 P ^ 2) by (apply pow_lt; exact H0).
    assert (C1 : ct ^ 2 = 1) by (destruct (Rtotal_order (ct ^ 2) 1) as [|[|]]; [contradiction|assumption|nra]). rewrite C1 in Hxy.
    pose proof (pow2_ge_0 (p1 P)). pose proof (pow2_ge_0 (p2 P)).
    split; [lra|]. split; [ring|]. split; [|split; [|exact E3]].
    + rewrite (sq_zero (p1 P)) by lra. ring.
    + rewrite (sq_zero (p2 P)) by lra. ring.
Qed.
Lemma rest_scattered_ok P x phi : lightlike P -> -1 <= x <= 1 ->
  let Q := rest_scattered mc P x phi in
  lightlike Q /\ p0 Q = p0 P / (1 + p0 P * (1 / mc) * (1 - x)) /\ mdot P Q = p0 P * p0 Q * (1 - x).
Proof.
  intros HP Hx. pose proof (angles_ok P HP) as HA. destruct HP as (H0 & HP). unfold rest_scattered.
  destruct (angles P) as [[[ct st] cf] sf]. destruct HA as (A1 & A2 & A3 & A4 & A5). cbv zeta. cbn [p0 p1 p2 p3].
  assert (D : 0 < 1 + p0 P * (1 / mc) * (1 - x)).
  { assert (0 <= p0 P * (1 / mc) * (1 - x)); [|lra]. assert (0 < 1 / mc) by (apply Rdiv_lt_0_compat; lra).
    apply Rmult_le_pos; [apply Rmult_le_pos|]; lra. }
  set (np := p0 P / (1 + p0 P * (1 / mc) * (1 - x))).
  assert (Hnp : 0 < np) by (unfold np; apply Rdiv_lt_0_compat; lra).
  assert (S : sqrt (1 - x ^ 2) ^ 2 = 1 - x ^ 2) by (apply pow2_sqrt; nra).
  pose proof (sin2_cos2 (2 * PI * phi)) as T. unfold Rsqr in T. set (ss := sqrt (1 - x ^ 2)) in *.
  set (cp_ := cos (2 * PI * phi)) in *. set (sp := sin (2 * PI * phi)) in *.
  set (pX := np * ss * cp_). set (pY := np * ss * sp). set (pZ := np * x).
  assert (N : pX ^ 2 + pY ^ 2 + pZ ^ 2 = np ^ 2).
  { unfold pX, pY, pZ. transitivity (np ^ 2 * (ss ^ 2 * (sp * sp + cp_ * cp_) + x ^ 2)); [ring|]. rewrite T, S. ring. }
  split; [|split; [reflexivity|]].
  - split; [exact Hnp|]. cbn [p0 p1 p2 p3].
    transitivity ((ct ^ 2 + st ^ 2) * pZ ^ 2 + (ct ^ 2 + st ^ 2) * pX ^ 2 + pY ^ 2); [rewrite A1; lra|].
    transitivity (((cf ^ 2 + sf ^ 2) * (st * pZ + ct * pX) ^ 2 + (cf ^ 2 + sf ^ 2) * pY ^ 2 + (ct * pZ - st * pX) ^ 2)); [rewrite A2; ring|ring].
  - unfold mdot. cbn [p0 p1 p2 p3]. rewrite A3, A4, A5.
    assert (E : p0 P * (st * cf) * (st * cf * pZ + ct * cf * pX - sf * pY) + p0 P * (st * sf) * (st * sf * pZ + ct * sf * pX + cf * pY)
      + p0 P * ct * (ct * pZ - st * pX) = p0 P * pZ).
    { transitivity (p0 P * ((cf ^ 2 + sf ^ 2) * (st ^ 2 * pZ + st * ct * pX) + ct * (ct * pZ - st * pX))); [ring|]. rewrite A2.
      transitivity (p0 P * ((ct ^ 2 + st ^ 2) * pZ)); [ring|]. rewrite A1. ring. }
    unfold pZ in E at 4. lra.
Qed.

(** The sampled cosine. *)
Lemma c0_range k : 0 < k -> let c0 := 2 * (2 * k ^ 2 + 2 * k + 1) / (2 * k + 1) ^ 3 in 0 < c0 /\ c0 < 2.
Proof.
  intros Hk c0. assert (0 < (2 * k + 1) ^ 3) by (apply pow_lt; lra). split.
  - apply Rdiv_lt_0_compat; [nra|assumption].
  - unfold c0. apply (Rmult_lt_reg_r ((2 * k + 1) ^ 3)); [assumption|].
    unfold Rdiv. rewrite Rmult_assoc, Rinv_l by lra. rewrite Rmult_1_r.
    assert (0 < k ^ 2) by (apply pow_lt; lra). assert (0 < k ^ 3) by (apply pow_lt; lra).
    replace ((2 * k + 1) ^ 3) with (8 * k ^ 3 + 12 * k ^ 2 + 6 * k + 1) by ring. lra.
Qed.
Lemma sample_range k ds x : 0 < k -> Forall (fun d => unit_draw (fst d)) ds -> sample_x k ds = Some x -> -1 <= x < 1.
Proof.
  intros Hk Hd. induction Hd as [|[r1 r2] ds Hr Hd IH]; [discriminate|]. cbn [fst] in Hr. cbn [sample_x]. cbv zeta.
  pose proof (c0_range k Hk) as [C0 C1]. set (c0 := 2 * (2 * k ^ 2 + 2 * k + 1) / (2 * k + 1) ^ 3) in *.
  destruct (Rlt_dec _ _) as [_|_]; [|exact IH]. intros E. injection E as <-.
  assert (Hb : (2 + c0) / (2 - c0) + 1 = 4 / (2 - c0)) by (field; lra).
  destruct Hr as [R0 R1].
  assert (P1 : Rpower (/ 2 * c0) r1 <= 1).
  { rewrite <- (Rpower_O (/ 2 * c0)) by lra. unfold Rpower. destruct R0 as [R0| <-]; [|right; reflexivity].
    left. apply exp_increasing. assert (ln (/ 2 * c0) < 0) by (rewrite <- ln_1; apply ln_increasing; lra). nra. }
  assert (P2 : / 2 * c0 < Rpower (/ 2 * c0) r1).
  { rewrite <- (Rpower_1 (/ 2 * c0)) at 1 by lra. unfold Rpower. apply exp_increasing.
    assert (ln (/ 2 * c0) < 0) by (rewrite <- ln_1; apply ln_increasing; lra). nra. }
  rewrite Hb. set (r := Rpower (/ 2 * c0) r1) in *.
  assert (I : 0 < / (2 - c0)) by (apply Rinv_0_lt_compat; lra).
  replace ((2 + c0) / (2 - c0) - 4 / (2 - c0) * r) with ((2 + c0 - 4 * r) * / (2 - c0)) by (field; lra).
  assert (I2 : (2 - c0) * / (2 - c0) = 1) by (field; lra). set (i := / (2 - c0)) in *. split; nra.
Qed.

(** One scattering. *)
Lemma k_pos a : elec_consistent a -> 0 < p0 (to_rest beam a) * (1 / mc).
Proof. intros H. destruct (rest_lightlike a H) as [P _]. apply Rmult_lt_0_compat; [exact P|]. apply Rdiv_lt_0_compat; lra. Qed.
Lemma scatter_one_ok a ds phi q : elec_consistent a -> Forall (fun d => unit_draw (fst d)) ds ->
  scatter_one mc beam a ds phi = Some q ->
  lightlike q /\ 0 < p0 (from_rest a (to_rest beam a)) /\
  exists x, -1 <= x < 1 /\ mdot (four_u a) beam - mdot (four_u a) q = mdot beam q / mc /\
    mdot beam q = mdot (four_u a) beam * mdot (four_u a) q * (1 - x).
Proof.
  intros H Hd. unfold scatter_one. cbv zeta. destruct (sample_x _ ds) as [x|] eqn:E; [|discriminate]. intros Eq. injection Eq as <-.
  apply sample_range in E; [|apply k_pos, H|exact Hd].
  pose proof (rest_lightlike a H) as HP. pose proof (rest_scattered_ok _ x phi HP ltac:(lra)) as (Q1 & Q2 & Q3).
  set (Q := rest_scattered mc (to_rest beam a) x phi) in *.
  split; [apply from_lightlike; [exact H|exact Q1]|]. split; [apply (from_lightlike a _ H HP)|].
  exists x. split; [exact E|]. rewrite mdot_u_rest, mdot_u_from, mdot_from by exact H. split; [|exact Q3].
  rewrite Q3. destruct HP as [HP _]. set (P0 := p0 (to_rest beam a)) in *.
  assert (D : 0 < 1 + P0 * (1 / mc) * (1 - x)).
  { assert (0 <= P0 * (1 / mc) * (1 - x)); [|lra]. apply Rmult_le_pos; [|lra]. left. apply (k_pos a H). }
  assert (D2 : mc + P0 * (1 - x) <> 0).
  { replace (mc + P0 * (1 - x)) with (mc * (1 + P0 * (1 / mc) * (1 - x))) by (field; lra).
    apply Rgt_not_eq. apply Rmult_lt_0_compat; assumption. }
  rewrite Q2. field. split; [lra|exact D2].
Qed.

(** Recoil: the electron stays on its mass shell and balances energy and momentum. *)
Lemma timelike_pos w0 w1 w2 w3 a : w0 ^ 2 = 1 + (w1 ^ 2 + w2 ^ 2 + w3 ^ 2) ->
  0 < sqrt (1 + u_sq a) * w0 - cux a * w1 - cuy a * w2 - cuz a * w3 -> 0 < w0.
Proof.
  intros Hw H. destruct (Rlt_le_dec 0 w0) as [L|L]; [exact L|exfalso].
  pose proof (cauchy (cux a) (cuy a) (cuz a) w1 w2 w3) as HC. fold (u_sq a) in HC.
  pose proof (gamma_sq a) as Hg. pose proof (gamma_pos a) as Hp. set (g := sqrt (1 + u_sq a)) in *.
  set (d := cux a * w1 + cuy a * w2 + cuz a * w3) in *. set (W := w1 ^ 2 + w2 ^ 2 + w3 ^ 2) in *.
  assert (HW : 0 <= W) by (unfold W; repeat apply Rplus_le_le_0_compat; apply pow2_ge_0).
  pose proof (u_sq_pos a) as HU.
  assert (D : d ^ 2 <= (g * - w0) ^ 2).
  { replace ((g * - w0) ^ 2) with (g ^ 2 * w0 ^ 2) by ring. rewrite Hg, Hw.
    apply (Rle_trans _ _ _ HC). assert (0 <= u_sq a * W) by (apply Rmult_le_pos; assumption). nra. }
  apply abs_le_sq in D; [|nra]. assert (- (g * - w0) <= d) by apply D. unfold d in *. lra.
Qed.
Lemma recoil_ok a q : elec_consistent a -> lightlike q ->
  mdot (four_u a) beam - mdot (four_u a) q = mdot beam q / mc -> 0 <= mdot beam q ->
  add4 (elec4 mc (recoil mc beam a q)) q = add4 (elec4 mc a) beam.
Proof.
  intros H (Q0 & HQ) HM Hpos. destruct Hbeam as (B0 & HB).
  set (w0 := sqrt (1 + u_sq a) + (p0 beam - p0 q) / mc).
  assert (E : sqrt (1 + u_sq (recoil mc beam a q)) = w0).
  { pose proof (gamma_sq a) as Hg.
    assert (W : w0 ^ 2 = 1 + u_sq (recoil mc beam a q)).
    { unfold w0, u_sq, recoil. cbn [cux cuy cuz]. unfold mdot, four_u in HM. cbn [p0 p1 p2 p3] in HM. unfold u_sq in Hg, HM.
      set (g := sqrt (1 + (cux a ^ 2 + cuy a ^ 2 + cuz a ^ 2))) in *.
      assert (HM2 : 2 * (g * (p0 beam - p0 q) - cux a * (p1 beam - p1 q) - cuy a * (p2 beam - p2 q) - cuz a * (p3 beam - p3 q)) / mc
        + ((p0 beam - p0 q) ^ 2 - (p1 beam - p1 q) ^ 2 - (p2 beam - p2 q) ^ 2 - (p3 beam - p3 q) ^ 2) / mc ^ 2 = 0).
      { replace (g * (p0 beam - p0 q) - cux a * (p1 beam - p1 q) - cuy a * (p2 beam - p2 q) - cuz a * (p3 beam - p3 q))
          with ((p0 beam * p0 q - p1 beam * p1 q - p2 beam * p2 q - p3 beam * p3 q) / mc) by lra.
        replace ((p0 beam - p0 q) ^ 2 - (p1 beam - p1 q) ^ 2 - (p2 beam - p2 q) ^ 2 - (p3 beam - p3 q) ^ 2)
          with (- 2 * (p0 beam * p0 q - p1 beam * p1 q - p2 beam * p2 q - p3 beam * p3 q)) by lra.
        field. lra. }
      replace ((g + (p0 beam - p0 q) / mc) ^ 2) with (g ^ 2 + 2 * (g * (p0 beam - p0 q)) / mc + (p0 beam - p0 q) ^ 2 / mc ^ 2) by (field; lra).
      rewrite Hg.
      replace ((cux a + 1 / mc * (p1 beam - p1 q)) ^ 2 + (cuy a + 1 / mc * (p2 beam - p2 q)) ^ 2 + (cuz a + 1 / mc * (p3 beam - p3 q)) ^ 2)
        with (cux a ^ 2 + cuy a ^ 2 + cuz a ^ 2 + 2 * (cux a * (p1 beam - p1 q) + cuy a * (p2 beam - p2 q) + cuz a * (p3 beam - p3 q)) / mc
              + ((p1 beam - p1 q) ^ 2 + (p2 beam - p2 q) ^ 2 + (p3 beam - p3 q) ^ 2) / mc ^ 2) by (field; lra).
      unfold Rdiv in *. rewrite ?Rmult_minus_distr_r in HM2 |- *. lra. }
    assert (P : 0 < w0).
    { apply (timelike_pos w0 (cux (recoil mc beam a q)) (cuy (recoil mc beam a q)) (cuz (recoil mc beam a q)) a); [exact W|].
      unfold w0, recoil. cbn [cux cuy cuz]. pose proof (gamma_sq a) as Hg'. unfold mdot, four_u in HM, Hpos. cbn [p0 p1 p2 p3] in HM, Hpos.
      set (g := sqrt (1 + u_sq a)) in *.
      assert (HM3 : 0 <= (p0 beam * p0 q - p1 beam * p1 q - p2 beam * p2 q - p3 beam * p3 q) / mc / mc).
      { assert (0 < / mc) by (apply Rinv_0_lt_compat; lra). unfold Rdiv. repeat apply Rmult_le_pos; lra. }
      replace (g * (g + (p0 beam - p0 q) / mc) - cux a * (cux a + 1 / mc * (p1 beam - p1 q)) - cuy a * (cuy a + 1 / mc * (p2 beam - p2 q)) - cuz a * (cuz a + 1 / mc * (p3 beam - p3 q)))
        with (g ^ 2 - u_sq a + (g * p0 beam - cux a * p1 beam - cuy a * p2 beam - cuz a * p3 beam - (g * p0 q - cux a * p1 q - cuy a * p2 q - cuz a * p3 q)) / mc)
        by (unfold u_sq; field; lra).
      rewrite HM, Hg'. lra. }
    rewrite <- W. apply sqrt_pow2. lra. }
  unfold add4, elec4. cbn [p0 p1 p2 p3]. rewrite E. unfold w0, recoil. cbn [cux cuy cuz].
  apply fourmom_eq; cbn [p0 p1 p2 p3]; field; lra.
Qed.
Lemma scatter_one_event a ds phi q : elec_consistent a -> Forall (fun d => unit_draw (fst d)) ds ->
  scatter_one mc beam a ds phi = Some q ->
  lightlike q /\ add4 (elec4 mc (recoil mc beam a q)) q = add4 (elec4 mc a) beam.
Proof.
  intros H Hd E. destruct (scatter_one_ok a ds phi q H Hd E) as (A & _ & x & Hx & M1 & M2). split; [exact A|].
  apply recoil_ok; [exact H|exact A|exact M1|]. rewrite M2.
  unfold scatter_one in E. cbv zeta in E. destruct (sample_x _ ds) as [x'|] eqn:Es; [|discriminate]. injection E as <-.
  apply sample_range in Es; [|apply k_pos, H|exact Hd].
  rewrite mdot_u_rest, mdot_u_from by exact H. pose proof (rest_lightlike a H) as HP.
  pose proof (rest_scattered_ok _ x' phi HP ltac:(lra)) as ((Q1 & _) & _). destruct HP as [HP _].
  apply Rmult_le_pos; [|lra]. left. apply Rmult_lt_0_compat; assumption.
Qed.
End S.
