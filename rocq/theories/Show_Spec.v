(** What C105 says: a display that is right and does not interrupt the run. *)
From Coq Require Import ZArith Reals List String.
From Verif Require Import Base Show_Model.
Import ListNotations.
Open Scope R_scope.

(** The simulation that a call leaves, or its exception. *)
Definition result {S L} (r : res (S * L)) : res S := match r with Ok (s, _) => Ok s | Err e => Err e end.
(** Rounding of the operations: exact arithmetic, or that of double precision for usual numbers of iterations. *)
Record rounding (N : Z) (rnd : R -> R) : Prop := {
  r_mono : forall x y, x <= y -> rnd x <= rnd y; r_int : forall n, (0 <= n <= Z.max N 35)%Z -> rnd (IZR n) = IZR n }.
(** hours, minutes, seconds of a duration, truncated to seconds *)
Definition shows (x : R) (hms : Z * Z * Z) : Prop :=
  let '(h, m, s) := hms in (0 <= h /\ 0 <= m < 60 /\ 0 <= s < 60)%Z /\ IZR (3600 * h + 60 * m + s) <= x < IZR (3600 * h + 60 * m + s) + 1.
(** Durations of the iterations: iteration j takes from [clk (j + 1)] to [clk (j + 2)]. *)
Definition duration (clk : nat -> R) (j : nat) : R := clk (j + 2)%nat - clk (j + 1)%nat.
(** The line shown at iteration i of N, for 1 <= i: a bar of 35 characters, as many of them full as the number of iterations (this one included) says; from
    iteration 20 on a remaining time between the ones obtained from the shortest and the longest of the previous iterations (but the first one). *)
Definition right_bar (rnd : R -> R) (clk : nat -> R) (N : Z) (i : nat) (l : line) : Prop :=
  exists full blank eta ms, l = Bar full blank (Z.of_nat i + 1) N eta ms /\ (0 <= full /\ 0 <= blank /\ full + blank = 35)%Z /\
    ((Z.of_nat i + 1 = N)%Z -> full = 35%Z) /\
    ((forall x, rnd x = x) -> IZR full <= 35 * (IZR (Z.of_nat i + 1) / IZR N) < IZR full + 1) /\
    match eta with
    | None => (i < 20)%nat
    | Some x => (20 <= i)%nat /\ forall lo hi, 0 <= lo -> (forall j, (1 <= j < i)%nat -> lo <= duration clk j <= hi) ->
        exists t, shows t x /\ lo * IZR (N - Z.of_nat i) <= t <= hi * IZR (N - Z.of_nat i)
    end /\
    (0 <= duration clk (i - 1) -> IZR ms <= 1000 * duration clk (i - 1) < IZR ms + 1).
