(** fields/utility_methods.py:get_modified_k, exact arithmetic. *)
From Verif Require Import Base.
From Coq Require Import Reals.
Open Scope Z_scope.

(** utility_methods.py:51-54: stencil_coef[n] *)
Fixpoint stencil_coef (m : nat) (n : nat) : R :=
  match n with
  | O => (- 2)%R
  | S n' => (- (INR m + 1 - INR n) * 1 / (INR m + INR n) * stencil_coef m n')%R
  end.
(** utility_methods.py:57-64 for one value of k *)
Definition modified_k (m : nat) (dz k : R) : R :=
  fold_right (fun n s => (sin (k * INR n * dz) / (INR n * dz) * stencil_coef m n + s)%R) 0%R (seq 1 m).
(** utility_methods.py:11-66 get_modified_k *)
Definition get_modified_k (k : list R) (n_order : Z) (dz : R) : res (list R) :=
  if n_order =? -1 then Ok k
  else if (n_order mod 2 =? 1) || (n_order <=? 0) then Err ValueError
  else Ok (map (modified_k (Z.to_nat (n_order / 2)) dz) k).
