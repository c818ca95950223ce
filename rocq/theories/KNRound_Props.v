(** C68: accuracy, in double precision, of the cross-section of Compton scattering. *)
From Verif Require Import Base KN_Spec KNRound_Model KNRound_Spec KNRound_Proofs KNRound_Bound.
From Coq Require Import Reals Lra.
From Coquelicot Require Import Coquelicot.
Open Scope R_scope.

(** For every photon energy k (in the rest frame of the electron, in units of m c^2) between 2^-40 and 1
    the error is at most (7 + 1500 k) 2^-52 / k^3, to be compared with an exact value between 0 and 8/3:
    the formula is accurate if k is well above 2^-17, i.e. for photons of about 1 eV, if the electrons
    are relativistic. *)
Theorem C68_error_partial log k : good_log log -> / 2 ^ 40 <= k -> k <= 1 ->
  0 < sigma_exact k <= 8 / 3 /\ Rabs (klein_nishina_b64 log k - sigma_exact k) <= (7 + 1500 * k) * / 2 ^ 52 / k ^ 3.
Proof.
  intros Hl H0 H1. split; [apply sigma_range; exact (Kp k H0)|]. exact (error_bound log k Hl H0 H1).
Qed.
Print Assumptions C68_error_partial.

(** But at about 2^-19 (1.9e-6: a photon of wavelength 1.27 micron on an electron at rest), however good
    the logarithm, the computed cross-section is more than 7 times the exact one, or negative, for
    energies that differ by less than a part in 10^10 (the part of the argument 1 + 2 k of the logarithm
    that is rounded off is multiplied by 2 / k^3). With a negative one the scattering probability is negative. *)
Theorem C68_slow_electrons_refuted log : good_log log ->
  exists k k', is_double k /\ is_double k' /\ Rabs (k - / 2 ^ 19) <= / 2 ^ 35 * / 2 ^ 19 /\ Rabs (k' - / 2 ^ 19) <= / 2 ^ 35 * / 2 ^ 19 /\
    20 <= klein_nishina_b64 log k /\ 7 * sigma_exact k < klein_nishina_b64 log k /\
    klein_nishina_b64 log k' <= -20 /\
    (forall PI_RE_2 n c dt, 0 < PI_RE_2 -> 0 < n -> 0 < c -> 0 < dt -> 1 - exp (- (PI_RE_2 * klein_nishina_b64 log k') * n * c * dt) < 0).
Proof.
  intros Hl. exists (k_w 1), (k_w (-1)).
  assert (D : forall s, (s = 1 \/ s = -1)%Z -> Rabs (k_w s - / 2 ^ 19) <= / 2 ^ 35 * / 2 ^ 19).
  { intros s Hs. unfold k_w. replace (/ 2 ^ 19 + IZR s * 3 / 2 ^ 56 - / 2 ^ 19) with (IZR s * (3 / 2 ^ 56)) by (unfold Rdiv; ring).
    rewrite Rabs_mult. replace (Rabs (IZR s)) with 1 by (destruct Hs as [-> | ->]; rewrite <- abs_IZR; reflexivity).
    rewrite Rmult_1_l, Rabs_pos_eq by (left; apply Rdiv_lt_0_compat; [lra|apply pow_lt; lra]).
    assert (E : / 2 ^ 35 * / 2 ^ 19 = 4 * / 2 ^ 56).
    { rewrite <- Rinv_mult. replace (2 ^ 56) with (4 * (2 ^ 35 * 2 ^ 19)) by (cbn [pow]; ring). field; repeat split; try (apply pow_nonzero; lra). }
    rewrite E. assert (0 < / 2 ^ 56) by (apply Rinv_0_lt_compat, pow_lt; lra). lra. }
  pose proof (proj1 (witness log 1 Hl (or_introl eq_refl)) eq_refl) as W1.
  pose proof (proj2 (witness log (-1) Hl (or_intror eq_refl)) eq_refl) as W2.
  assert (P : forall s, (s = 1 \/ s = -1)%Z -> 0 < k_w s).
  { intros s Hs. pose proof (k_w_range s Hs). assert (0 < / 2 ^ 19) by (apply Rinv_0_lt_compat, pow_lt; lra). lra. }
  split; [apply k_w_double; left; reflexivity|]. split; [apply k_w_double; right; reflexivity|].
  split; [apply D; left; reflexivity|]. split; [apply D; right; reflexivity|]. split; [exact W1|].
  split; [pose proof (sigma_range (k_w 1) (P 1%Z (or_introl eq_refl))); lra|]. split; [exact W2|].
  intros re n c dt H1 H2 H3 H4. assert (1 < exp (- (re * klein_nishina_b64 log (k_w (-1))) * n * c * dt)); [|lra].
  rewrite <- exp_0. apply exp_increasing. repeat apply Rmult_lt_0_compat; try assumption. nra.
Qed.
Print Assumptions C68_slow_electrons_refuted.

(** The exact logarithm meets the hypothesis. *)
Example C68_met : good_log ln /\ / 2 ^ 40 <= / 2 ^ 10 <= 1.
Proof.
  split.
  - intros x _. replace (ln x - ln x) with 0 by ring. rewrite Rabs_R0. apply Rmult_le_pos; [left; apply Rinv_0_lt_compat, pow_lt; lra|apply Rabs_pos].
  - split; [apply Rinv_le_contravar; [apply pow_lt; lra|apply Rle_pow; [lra|lia]]|]. rewrite <- Rinv_1. apply Rinv_le_contravar; lra.
Qed.
