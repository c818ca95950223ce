(** The cross-section of Compton scattering in double precision
    (particles/elementary_process/compton/inline_functions.py:74-78). *)
From Verif Require Import Base.
From Coq Require Import Reals.
From Flocq Require Import Core.Core.
Open Scope R_scope.

(** Round to nearest even in binary64 (overflow is not modelled: no value below comes near it for
    the photon energies of the theorems). *)
Definition rnd (x : R) : R := round radix2 (FLT_exp (-1074) 53) ZnearestE x.
Definition is_double (x : R) : Prop := generic_format radix2 (FLT_exp (-1074) 53) x.

(** inline_functions.py:75-78: f1 - f2, one rounding per operation, in the order of evaluation of
    Python; the integer powers are products (k**3 is k*(k*k), as numba compiles it). [log] is math.log.
    The product with PI_RE_2 is left out. *)
Definition klein_nishina_b64 (log : R -> R) (k : R) : R :=
  let one_k := rnd (1 + k) in
  let eight_k := rnd (8 + k) in
  let two_k := rnd (2 * k) in
  let one_2k := rnd (1 + two_k) in
  let k2 := rnd (k * k) in
  let k3 := rnd (k * k2) in
  let num1 := rnd (2 * rnd (2 + rnd (rnd (k * one_k) * eight_k))) in
  let den1 := rnd (k2 * rnd (one_2k * one_2k)) in
  let f1 := rnd (num1 / den1) in
  let num2 := rnd (2 + rnd (k * rnd (2 - k))) in
  let f2 := rnd (rnd (num2 * log one_2k) / k3) in
  rnd (f1 - f2).
