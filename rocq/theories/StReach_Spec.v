(** Specification for C93: how far the field solver reaches in one step. No definition of the model is used. *)
From Coq Require Import Reals.
From Coquelicot Require Import Complex.
From Verif Require Import Base Fourier_Lib.
Open Scope R_scope.

(** One step of the solver in vacuum multiplies the field of wave number kz (at a fixed transverse wave number kp) by one of
    three coefficients, cos(k c dt), sin(k c dt) kz / k, sin(k c dt) kp / k, times exp(i v kz dt) in a frame that moves at v.
    [T]: c dt; [d]: v dt. *)
Inductive coef := Ccos | Csinz | Csinp.
Definition wave (kp kz : R) : R := sqrt (kz ^ 2 + kp ^ 2).
Definition symbol (which : coef) (kp T d kz : R) : C :=
  Cmult (cis (d * kz))
   (RtoC match which with
         | Ccos => cos (wave kp kz * T)
         | Csinz => sin (wave kp kz * T) * kz / wave kp kz
         | Csinp => sin (wave kp kz * T) * kp / wave kp kz
         end).
(** The field of N cells after the multiplication by G in spectral space *)
Definition advance (N : nat) (G : nat -> C) (f : nat -> C) : nat -> C := idft N (fun k => Cmult (G k) (dft N f k)).
(** The field i cells away from a field concentrated in one cell, after the step *)
Definition impulse (j : nat) : C := if Nat.eqb j 0 then RtoC 1 else RtoC 0.
Definition response (N : nat) (G : nat -> C) (i : nat) : C := advance N G impulse i.
(** ... for the three coefficients together. [kz n]: the wave numbers of the grid *)
Definition total (N : nat) (kz : nat -> R) (kp T d : R) (i : nat) : R :=
  sqrt (Cmod (response N (fun n => symbol Ccos kp T d (kz n)) i) ^ 2 +
        Cmod (response N (fun n => symbol Csinz kp T d (kz n)) i) ^ 2 +
        Cmod (response N (fun n => symbol Csinp kp T d (kz n)) i) ^ 2).
(** Machine precision *)
Definition tiny : R := 1 / 10 ^ 16.
(** Cells m and j of a periodic grid of N cells are n cells apart or more *)
Definition apart (N n m j : nat) : Prop := (Z.of_nat n <= (Z.of_nat j - Z.of_nat m) mod Z.of_nat N <= Z.of_nat N - Z.of_nat n)%Z.
(** Sums of real numbers *)
Fixpoint sum (n : nat) (f : nat -> R) : R := match n with O => 0 | S n => sum n f + f n end.
