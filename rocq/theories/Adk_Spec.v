(** The Ammosov-Delone-Krainov (ADK) tunnel ionization rate, for C77. *)
From Coq Require Import Reals.
Open Scope R_scope.

(** What is used of Euler's Gamma function. *)
Definition is_gamma (G : R -> R) : Prop := G 1 = 1 /\ (forall x, 0 < x -> G (x + 1) = x * G x) /\ (forall x, 0 < x -> 0 < G x).

(** Rate (per unit of proper time) in a field of amplitude [E], for an ionization energy [U], a charge [Z] of the residual ion,
    an effective angular momentum [l]; [UH]: ionization energy of hydrogen; [omega_a], [E_a]: atomic units of frequency and field
    (Chen et al., J. Comput. Phys. 236 (2013), eq. 2, with m = 0). *)
Definition adk_rate (G : R -> R) (omega_a E_a UH U Z l E : R) : R :=
  let n := Z * sqrt (UH / U) in
  let E0 := Rpower (U / UH) (3 / 2) * E_a in
  omega_a * (Rpower 2 (2 * n) / (n * G (n + l + 1) * G (n - l))) * (U / (2 * UH)) * Rpower (2 * E0 / E) (2 * n - 1) * exp (- (2 / 3) * (E0 / E)).
