(** C95: a GPU function works on the arguments that it is given. *)
From Coq Require Import ZArith List Lia Reals.
From Flocq Require Import Core Binary Bits.
From Verif Require Import Base Cupy_Model Cupy_Spec Cupy_Proofs.
Import ListNotations.
Open Scope Z_scope.

(** C95: after any earlier calls, with any types, the code that is launched for a call sees exactly the arguments of
    this call (types, shapes, the address of every element, the scalars), provided that earlier calls with the same
    types had arrays of the same layouts. *)
Theorem C95_sees hash calls args : no_collision hash (calls ++ [args]) -> Forall proper args ->
  (forall c, In c calls -> types_of c = types_of args -> layouts c = layouts args) ->
  sees_all args (snd (call_kernel hash (after hash new_fn calls) args)).
Proof. exact (call_sees hash calls args). Qed.
Print Assumptions C95_sees.

(** C95: in particular when all arrays are C-contiguous. *)
Theorem C95_contiguous hash calls args : no_collision hash (calls ++ [args]) -> Forall proper args ->
  Forall (Forall c_contiguous) calls -> Forall c_contiguous args ->
  sees_all args (snd (call_kernel hash (after hash new_fn calls) args)).
Proof. exact (contiguous_sees hash calls args). Qed.
Print Assumptions C95_contiguous.

(** C95: a call is compiled at most once. *)
Theorem C95_compiled_once hash calls args : In args calls ->
  fst (call_kernel hash (after hash new_fn calls) args) = after hash new_fn calls.
Proof. exact (no_recompile hash calls args). Qed.
Print Assumptions C95_compiled_once.

(** C95: an external field given with float numbers: the kernel sees the fields and positions of the species
    (whatever their strides), the time, the amplitude and the length scale. *)
Theorem C95_external_field hash field x y z t a l :
  f64_1d field -> f64_1d x -> f64_1d y -> f64_1d z ->
  scalar_dtype t = F64 -> scalar_dtype a = F64 -> scalar_dtype l = F64 ->
  sees_all [Arr field; Arr x; Arr y; Arr z; Sca t; Sca a; Sca l] (external_field_launch hash field x y z t a l).
Proof. exact (ext_floats hash field x y z t a l). Qed.
Print Assumptions C95_external_field.

(** C95 is false in general: the layout is not among the types, so a kernel that was compiled for a contiguous array
    is used for every second element of an array, and works on the wrong elements. *)
Theorem C95_layout_refuted hash : exists calls args,
  no_collision hash (calls ++ [args]) /\ Forall proper args /\
  ~ sees_all args (snd (call_kernel hash (after hash new_fn calls) args)).
Proof. exists [contiguous_call], strided_call. exact (layout_wrong hash). Qed.
Print Assumptions C95_layout_refuted.

(** C95 is false for an external field whose amplitude is an integer (such as 1 instead of 1.): on the GPU, the number
    that the kernel uses is the amplitude times 2^-1074 (on the CPU, numpy converts the integer to a float). *)
Theorem C95_integer_amplitude_refuted hash field x y z t l n :
  f64_1d field -> f64_1d x -> f64_1d y -> f64_1d z -> scalar_dtype t = F64 -> scalar_dtype l = F64 ->
  0 < n < 2 ^ 52 ->
  exists seen bits,
    receive (fst (external_field_launch hash field x y z t (PyInt n) l))
            (snd (external_field_launch hash field x y z t (PyInt n) l)) = Some seen /\
    nth_error seen 5 = Some (DSca F64 bits) /\
    B2R 53 1024 (b64_of_bits bits) = (IZR n * bpow radix2 (-1074))%R /\
    B2R 53 1024 (b64_of_bits bits) <> IZR n.
Proof. exact (ext_int hash field x y z t l n). Qed.
Print Assumptions C95_integer_amplitude_refuted.

(** Non-vacuity: after calls with a 2D array and with a scalar, a call with a transposed 2D array and an integer. *)
Definition ex_calls : list (list arg) :=
  [[Arr (mkArr C128 64 [3; 5] [80; 16])]; [Arr (mkArr F64 640 [7] [8]); Sca (PyFloat 5); Sca (PyInt 1)]; [Sca (PyBool true)]].
Definition ex_args : list arg := [Arr (mkArr C128 64 [5; 3] [16; 80]); Sca (PyInt 2)].
Definition ex_hash (l : list tentry) : Z := Z.of_nat (length l).
Example C95_met : no_collision ex_hash (ex_calls ++ [ex_args]) /\ Forall proper ex_args /\
  (forall c, In c ex_calls -> types_of c = types_of ex_args -> layouts c = layouts ex_args).
Proof.
  split; [|split].
  - intros a b Ha Hb. cbn in Ha, Hb.
    destruct Ha as [<-|[<-|[<-|[<-|[]]]]], Hb as [<-|[<-|[<-|[<-|[]]]]]; cbn; intros H; try reflexivity; discriminate.
  - repeat constructor; lia.
  - intros c Hc. cbn in Hc. destruct Hc as [<-|[<-|[<-|[]]]]; cbn; discriminate.
Qed.
Example C95_contiguous_met : Forall (Forall c_contiguous) ex_calls.
Proof. repeat constructor. Qed.
Example C95_field_met : f64_1d (mkArr F64 0 [100] [8]) /\ scalar_dtype (PyFloat 0) = F64 /\ scalar_dtype (NpScalar F64 1) = F64.
Proof. repeat split. Qed.
