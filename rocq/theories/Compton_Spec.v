(** Vocabulary of C29, C30 and C31. *)
From Verif Require Import Base Compton_Model.
From Coq Require Import Reals.
Open Scope R_scope.

Definition lightlike (P : fourmom) : Prop := 0 < p0 P /\ p0 P ^ 2 = p1 P ^ 2 + p2 P ^ 2 + p3 P ^ 2.
Definition add4 (P Q : fourmom) : fourmom :=
  {| p0 := p0 P + p0 Q; p1 := p1 P + p1 Q; p2 := p2 P + p2 Q; p3 := p3 P + p3 Q |}.
(** Minkowski product. *)
Definition mdot (P Q : fourmom) : R := p0 P * p0 Q - p1 P * p1 Q - p2 P * p2 Q - p3 P * p3 Q.
Definition u_sq (a : cp) : R := cux a ^ 2 + cuy a ^ 2 + cuz a ^ 2.
(** The stored inv_gamma of an electron is the right one. *)
Definition elec_consistent (a : cp) : Prop := cig a = 1 / sqrt (1 + u_sq a).
(** Energy (over c) and momentum of one electron, on its mass shell. *)
Definition elec4 (mc : R) (a : cp) : fourmom :=
  {| p0 := mc * sqrt (1 + u_sq a); p1 := mc * cux a; p2 := mc * cuy a; p3 := mc * cuz a |}.
(** Energy and momentum of one photon of a photon macroparticle: ux, uy, uz hold the momentum and
    inv_gamma the inverse of the energy. *)
Definition photon4 (a : cp) : fourmom := {| p0 := 1 / cig a; p1 := cux a; p2 := cuy a; p3 := cuz a |}.
Definition same_place (a b : cp) : Prop := cx a = cx b /\ cy a = cy b /\ cz a = cz b.
(** Speed in units of c, squared, of the next position push. *)
Definition speed2 (a : cp) : R := (cig a * cux a) ^ 2 + (cig a * cuy a) ^ 2 + (cig a * cuz a) ^ 2.

Definition unit_draw (r : R) : Prop := 0 <= r /\ r < 1.
(** Content of the arrays of a species ([None]: a slot never filled). *)
Definition slots (st : cstore) : list (option cp) := map (snd st) (range (fst st)).

(** Admissible inputs of one step: physical constants, a photon beam, a ratio at least 1 (asserted by
    the code, compton.py:92), electrons with the right inv_gamma, numbers drawn in [0, 1). *)
Definition step_ok (c PI_RE_2 mc : R) (beam : fourmom) (ratio : R) (draw_n : Z -> R) (draws : Z -> Z -> list (R * R))
  (draw_recoil : Z -> R) (Ntot batch_size : Z) (dt : R) (photon_n : Z -> R) (elec : Z -> cp) (photons : cstore) : Prop :=
  0 < c /\ 0 <= PI_RE_2 /\ 0 < mc /\ lightlike beam /\ 1 <= ratio /\ 0 <= dt /\ (0 < batch_size)%Z /\ (0 <= Ntot)%Z /\
  (0 <= fst photons)%Z /\
  (forall i, 0 <= photon_n i) /\ (forall i, (0 <= i < Ntot)%Z -> elec_consistent (elec i)) /\
  (forall i, unit_draw (draw_n i)) /\ (forall i, unit_draw (draw_recoil i)) /\
  (forall i s, Forall (fun d => unit_draw (fst d) /\ unit_draw (snd d)) (draws i s)).
