(** Vocabulary of C42 and C50: an electromagnetic field at an event, its Lorentz transformation to the frame
    that moves along +z with Lorentz factor g and velocity b c, and what is added to the fields of a particle. *)
From Verif Require Import Base ExtField_Model.
From Coq Require Import Reals.
Open Scope R_scope.

Record emf := { Ex' : R; Ey' : R; Ez' : R; Bx' : R; By' : R; Bz' : R }.
Definition transform (c g b : R) (f : emf) : emf :=
  {| Ex' := g * (Ex' f - b * c * By' f); Ey' := g * (Ey' f + b * c * Bx' f); Ez' := Ez' f;
     Bx' := g * (Bx' f + b / c * Ey' f); By' := g * (By' f - b / c * Ex' f); Bz' := Bz' f |}.
(** A field with the single component ft. *)
Definition single (ft : fieldtype) (v : R) : emf :=
  let zero := {| Ex' := 0; Ey' := 0; Ez' := 0; Bx' := 0; By' := 0; Bz' := 0 |} in
  match ft with
  | Ex => {| Ex' := v; Ey' := 0; Ez' := 0; Bx' := 0; By' := 0; Bz' := 0 |}
  | Ey => {| Ex' := 0; Ey' := v; Ez' := 0; Bx' := 0; By' := 0; Bz' := 0 |}
  | Ez => {| Ex' := 0; Ey' := 0; Ez' := v; Bx' := 0; By' := 0; Bz' := 0 |}
  | Bx => {| Ex' := 0; Ey' := 0; Ez' := 0; Bx' := v; By' := 0; Bz' := 0 |}
  | By => {| Ex' := 0; Ey' := 0; Ez' := 0; Bx' := 0; By' := v; Bz' := 0 |}
  | Bz => {| Ex' := 0; Ey' := 0; Ez' := 0; Bx' := 0; By' := 0; Bz' := v |}
  | OtherField => zero end.
(** The particle with f added to its fields. *)
Definition add_field (p : point) (f : emf) : point :=
  {| x := x p; y := y p; z := z p; fEx := fEx p + Ex' f; fEy := fEy p + Ey' f; fEz := fEz p + Ez' f;
     fBx := fBx p + Bx' f; fBy := fBy p + By' f; fBz := fBz p + Bz' f |}.
