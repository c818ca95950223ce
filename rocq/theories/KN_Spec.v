(** Vocabulary of C66: the Klein-Nishina formula, and means over independent uniform draws. *)
From Verif Require Import Base Compton_Model Compton_Spec.
From Coq Require Import Reals.
From Coquelicot Require Import Coquelicot.
Open Scope R_scope.

(** Klein-Nishina differential cross-section per unit of the cosine x of the scattering angle, for a
    photon of energy k m c^2 on an electron at rest, in units of pi r_e^2: P^2 (P + 1/P - sin^2), with
    P the ratio of the energies after and before. *)
Definition kn (k x : R) : R :=
  let P := / (1 + k * (1 - x)) in P ^ 2 * (P + / P - (1 - x ^ 2)).

(** [is_mean n phi m]: m is the mean of phi over n pairs of independent numbers, uniform in [0, 1]. *)
Inductive is_mean : nat -> (list (R * R) -> R) -> R -> Prop :=
| mean_0 phi : is_mean 0 phi (phi [])
| mean_S n phi (g : R -> R -> R) (h : R -> R) (m : R) :
    (forall r1 r2, 0 <= r1 <= 1 -> 0 <= r2 <= 1 -> is_mean n (fun ds => phi ((r1, r2) :: ds)) (g r1 r2)) ->
    (forall r1, 0 <= r1 <= 1 -> is_RInt (V := R_NormedModule) (g r1) 0 1 (h r1)) ->
    is_RInt (V := R_NormedModule) h 0 1 m ->
    is_mean (S n) phi m.

(** Cosine of the angle between two photons b and q in the rest frame of an electron of 4-momentum e
    (mass times c = mc), and energy of b in that frame divided by m c^2, both as Lorentz invariants. *)
Definition cos_in_rest_frame (mc : R) (e b q : fourmom) : R := 1 - mc ^ 2 * mdot b q / (mdot e b * mdot e q).
Definition energy_in_rest_frame (mc : R) (e b : fourmom) : R := mdot e b / mc ^ 2.

Definition at_most (X : R) (o : option R) : R :=
  match o with Some x => if Rle_dec x X then 1 else 0 | None => 0 end.
