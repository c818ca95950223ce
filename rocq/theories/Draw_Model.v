(** The random numbers of the ionization: particles/elementary_process/ionization/ionizer.py:242-247. *)
From Coq Require Import ZArith Reals.
From Flocq Require Import Core.
From Verif Require Import Base.
Open Scope R_scope.

(** np.random.rand (ionizer.py:247; external library, not in /repo: assumed): [k] is the integer, uniform in [0, 2^53), that the generator delivers. *)
Definition numpy_rand (k : Z) : R := IZR k / bpow radix2 53.
(** Rounding to single precision *)
Definition rnd32 (x : R) : R := round radix2 (FLT_exp (-149) 24) ZnearestE x.
(** cupy.random.rand with dtype float32 (ionizer.py:245). ASSUMPTION: neither cupy nor cuRAND is in /repo or
    installed here; this is their formula from memory, not checked against their source or run. [k], uniform in [0, 2^32), comes from the generator of cuRAND, which returns
    k * 2^-32 + 2^-33 in single precision, a number in (0, 1]; cupy replaces 1 by 0 to get a number in [0, 1). *)
Definition cupy_rand (k : Z) : R :=
  let u := rnd32 (rnd32 (IZR k) * bpow radix2 (-32) + bpow radix2 (-33)) in
  if Req_EM_T u 1 then 0 else u.
(** ionizer.py:242-247: one draw *)
Definition random_draw (use_cuda : bool) (k : Z) : R := if use_cuda then cupy_rand k else numpy_rand k.
