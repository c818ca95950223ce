(** Vocabulary of C39. *)
From Verif Require Import Base Deposit_Spec.
From Coq Require Import Reals.
From Coquelicot Require Import Complex.
Open Scope Z_scope.

(** Charge in the column of cells ir (per unit volume of the cell), and on the whole grid, when cell ir has volume vol ir. *)
Definition column_charge (Nz : Z) (rho : Z -> Z -> C) (ir : Z) : C := lsum (fun iz => rho iz ir) (range Nz).
Definition total_charge (vol : Z -> R) (Nz Nr : Z) (rho : Z -> Z -> C) : C :=
  lsum (fun ir => Cmult (RtoC (vol ir)) (column_charge Nz rho ir)) (range Nr).

(** One pass of the binomial filter along z, on a periodic grid of Nz cells: weights 1/4, 1/2, 1/4. *)
Definition pass (Nz : Z) (f : Z -> C) (i : Z) : C :=
  Cplus (Cmult (RtoC (1 / 4)) (f ((i - 1) mod Nz))) (Cplus (Cmult (RtoC (1 / 2)) (f i)) (Cmult (RtoC (1 / 4)) (f ((i + 1) mod Nz)))).
Definition passes (Nz : Z) (n : nat) (f : Z -> C) : Z -> C := Nat.iter n (pass Nz) f.
(** The compensation of n passes: f + n (f - (one pass of f)). *)
Definition compensate (Nz : Z) (n : nat) (f : Z -> C) (i : Z) : C :=
  Cplus (f i) (Cmult (RtoC (INR n)) (Cminus (f i) (pass Nz f i))).
Definition smooth_z (Nz : Z) (n : nat) (comp : bool) (f : Z -> C) : Z -> C :=
  if comp then compensate Nz n (passes Nz n f) else passes Nz n f.
(** By how much n passes (with or without compensation) reduce a wave of phase x per cell. *)
Definition transfer (n : nat) (comp : bool) (x : R) : R :=
  ((cos (x / 2) ^ 2) ^ n * (if comp then 1 + INR n * sin (x / 2) ^ 2 else 1))%R.
