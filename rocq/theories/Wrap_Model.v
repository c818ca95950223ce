(** Single-rank periodic simulation: boundary_communicator.py:736-744 and
    particle_buffer_handling.py:513-556 (the GPU kernel 562-590 is the same loop, one thread
    per particle). *)
From Verif Require Import Base.
From Coq Require Import Reals SpecFloat.
Open Scope Z_scope.

Section Wrap.
(** The type of the positions with its comparison and arithmetic: real numbers for the
    exact statement, binary64 for the statement about the machine. *)
Variable A : Type.
Variables (ge lt : A -> A -> bool) (sub add : A -> A -> A).

(** [while z[i] >= zmax: z[i] -= l_box] with an explicit bound on the number of tests
    ([None]: still running after that many). particle_buffer_handling.py:553-554. *)
Fixpoint while_down (fuel : nat) (zmax l z : A) : option A :=
  match fuel with
  | O => None
  | S n => if ge z zmax then while_down n zmax l (sub z l) else Some z
  end.
(** particle_buffer_handling.py:555-556. *)
Fixpoint while_up (fuel : nat) (zmin l z : A) : option A :=
  match fuel with
  | O => None
  | S n => if lt z zmin then while_up n zmin l (add z l) else Some z
  end.
(** Body of the loop over the particles, particle_buffer_handling.py:550-556. *)
Definition wrap1 (fuel : nat) (zmin zmax z : A) : option A :=
  let l := sub zmax zmin in
  match while_down fuel zmax l z with
  | Some z => while_up fuel zmin l z
  | None => None
  end.
(** particle_buffer_handling.py:536-556 shift_particles_periodic_numba on the array [z]. *)
Fixpoint shift_periodic (fuel : nat) (zmin zmax : A) (zs : list A) : option (list A) :=
  match zs with
  | [] => Some []
  | z :: zs =>
      match wrap1 fuel zmin zmax z, shift_periodic fuel zmin zmax zs with
      | Some z, Some zs => Some (z :: zs)
      | _, _ => None
      end
  end.
End Wrap.

(** Over the reals. *)
Definition Rge_b (x y : R) : bool := if Rle_dec y x then true else false.
Definition Rlt_b (x y : R) : bool := if Rlt_dec x y then true else false.
Definition shift_periodic_R := shift_periodic R Rge_b Rlt_b Rminus Rplus.

(** In binary64, round to nearest even (Coq standard library, no primitive floats).
    A Python/numba comparison with NaN is false. *)
Definition f_ge (x y : spec_float) : bool := SFleb y x.
Definition f_lt (x y : spec_float) : bool := SFltb x y.
Definition f_sub (x y : spec_float) : spec_float := SFsub 53 1024 x y.
Definition f_add (x y : spec_float) : spec_float := SFadd 53 1024 x y.
Definition shift_periodic_64 := shift_periodic spec_float f_ge f_lt f_sub f_add.
