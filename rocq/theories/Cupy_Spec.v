(** What a kernel should work on: the arrays and numbers that the caller gave. *)
From Coq Require Import ZArith List.
From Verif Require Import Base Cupy_Model.
Import ListNotations.
Open Scope Z_scope.

(** An index into an array *)
Definition in_shape (shape idx : list Z) : Prop := Forall2 (fun s i => 0 <= i < s) shape idx.
(** Where the element of a Cupy array is: a[i, j, ...] *)
Definition element_address (x : nda) (idx : list Z) : Z :=
  a_base x + fold_right Z.add 0 (map (fun '(s, i) => s * i) (combine (a_strides x) idx)).
(** A number of the caller, as the type and the bytes (an unsigned integer) that stand for it: int is int64 in two's
    complement, float and complex are given by their encodings, bool is one byte 0 or 1, a numpy number has its own type *)
Definition same_number (s : scalar) (d : dtype) (bits : Z) : Prop :=
  match s with
  | PyInt z => d = I64 /\ 0 <= bits < 2 ^ 64 /\ exists k, z = bits + k * 2 ^ 64
  | PyFloat b => d = F64 /\ bits = b
  | PyBool b => d = B1 /\ bits = Z.b2z b
  | PyComplex b => d = C128 /\ bits = b
  | NpScalar t b => d = t /\ bits = b
  end.
(** The compiled code sees the argument that was given: same type of numbers, same shape, same elements; same number *)
Definition sees (given : arg) (seen : darg) : Prop :=
  match given, seen with
  | Arr x, DArr d l base shape strides =>
      d = a_dtype x /\ shape = a_shape x /\
      forall idx, in_shape shape idx -> device_address d l base shape strides idx = element_address x idx
  | Sca s, DSca d bits => same_number s d bits
  | _, _ => False
  end.
Definition sees_all (args : list arg) (launched : kernel * list word) : Prop :=
  exists seen, receive (fst launched) (snd launched) = Some seen /\ Forall2 sees args seen.

(** A Cupy array has one stride per dimension; no extent is negative *)
Definition proper (a : arg) : Prop :=
  match a with Arr x => length (a_strides x) = length (a_shape x) /\ Forall (fun s => 0 <= s) (a_shape x) | Sca _ => True end.
(** Bytes of a number of each type *)
Definition bytes (d : dtype) : Z := match d with C128 => 16 | F64 | I64 | U64 => 8 | F32 | I32 | U32 => 4 | B1 => 1 end.
(** A C-contiguous array: consecutive elements, last index fastest *)
Definition c_contiguous (a : arg) : Prop :=
  match a with
  | Arr x => a_strides x = map (fun d => bytes (a_dtype x) * fold_right Z.mul 1 (skipn (S d) (a_shape x))) (seq 0 (length (a_shape x)))
  | Sca _ => True end.
(** the layouts of the arrays among the arguments *)
Definition layouts (args : list arg) : list (option layout) :=
  map (fun a => match a with Arr x => Some (layout_of x) | Sca _ => None end) args.
(** Two different lists of types never have the same hash, among those that occur *)
Definition no_collision (hash : list tentry -> Z) (calls : list (list arg)) : Prop :=
  forall a b, In a calls -> In b calls -> hash (types_of a) = hash (types_of b) -> types_of a = types_of b.
(** The arrays of a species (a position, a gathered field): one dimension, float64, any stride *)
Definition f64_1d (x : nda) : Prop := a_dtype x = F64 /\ length (a_shape x) = 1%nat /\ length (a_strides x) = 1%nat.
