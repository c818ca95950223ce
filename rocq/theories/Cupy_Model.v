(** utils/cuda.py: the decorator compile_cupy, which compiles a function for the GPU at the first call with given
    argument types, keeps the result, and passes the arguments at each call; and its use by
    lpa_utils/external_fields.py. Memory addresses and machine words are integers. *)
From Coq Require Import ZArith List Bool Lia.
From Verif Require Import Base.
Import ListNotations.
Open Scope Z_scope.

(** The numpy data types that occur *)
Inductive dtype := F64 | F32 | C128 | I64 | I32 | U32 | U64 | B1.
Definition dtype_eqb (a b : dtype) : bool :=
  match a, b with
  | F64, F64 | F32, F32 | C128, C128 | I64, I64 | I32, I32 | U32, U32 | U64, U64 | B1, B1 => true
  | _, _ => false end.
(** a.dtype.itemsize (numpy) *)
Definition itemsize (d : dtype) : Z :=
  match d with F64 => 8 | F32 => 4 | C128 => 16 | I64 => 8 | I32 => 4 | U32 => 4 | U64 => 8 | B1 => 1 end.

(** A Cupy array: data type, address of its first element, shape, strides in bytes *)
Record nda := mkArr { a_dtype : dtype; a_base : Z; a_shape : list Z; a_strides : list Z }.
(** An argument of a kernel (utils/cuda.py:474-477): an array or a scalar; a scalar is a Python int, float (given by
    its IEEE encoding, a 64-bit integer), bool, complex (given by its 128-bit encoding), or a numpy scalar *)
Inductive scalar := PyInt (z : Z) | PyFloat (bits : Z) | PyBool (b : bool) | PyComplex (bits : Z)
                  | NpScalar (d : dtype) (bits : Z).
Inductive arg := Arr (a : nda) | Sca (s : scalar).

(** np.dtype(type(a)), utils/cuda.py:334 *)
Definition scalar_dtype (s : scalar) : dtype :=
  match s with PyInt _ => I64 | PyFloat _ => F64 | PyBool _ => B1 | PyComplex _ => C128 | NpScalar d _ => d end.
(** the bytes that Cupy passes for a scalar (cupy.cuda.function), read as a little-endian unsigned integer *)
Definition scalar_bits (s : scalar) : Z :=
  match s with
  | PyInt z => z mod 2 ^ 64
  | PyFloat b => b
  | PyBool b => if b then 1 else 0
  | PyComplex b => b
  | NpScalar _ b => b
  end.

(** utils/cuda.py:308-337 get_args_hash: the list [types] *)
Inductive tentry := TD (d : dtype) | TN (n : nat).
Definition arg_types (a : arg) : list tentry :=
  match a with
  | Arr x => [TD (a_dtype x); TN (length (a_shape x))]
  | Sca s => [TD (scalar_dtype s)]
  end.
Definition types_of (args : list arg) : list tentry := flat_map arg_types args.

(** Layout of an array for numba: C-contiguous, Fortran-contiguous, or any (dimensions of extent 1 do not count) *)
Inductive layout := LC | LF | LA.
Definition prod (l : list Z) : Z := fold_right Z.mul 1 l.
Fixpoint row_strides (isz : Z) (shape : list Z) : list Z :=
  match shape with [] => [] | _ :: t => isz * prod t :: row_strides isz t end.
Fixpoint col_strides (acc : Z) (shape : list Z) : list Z :=
  match shape with [] => [] | s :: t => acc :: col_strides (acc * s) t end.
Fixpoint matches (shape strides want : list Z) : bool :=
  match shape, strides, want with
  | [], [], [] => true
  | s :: sh, x :: st, w :: wa => ((s =? 1) || (x =? w)) && matches sh st wa
  | _, _, _ => false
  end.
Definition layout_of (x : nda) : layout :=
  if matches (a_shape x) (a_strides x) (row_strides (itemsize (a_dtype x)) (a_shape x)) then LC
  else if matches (a_shape x) (a_strides x) (col_strides (itemsize (a_dtype x)) (a_shape x)) then LF
  else LA.

(** The numba type of an argument, and a compiled kernel: the signature that it was compiled for
    (cuda.jit()(func).specialize(\*args), utils/cuda.py:493-494) *)
Inductive nty := NArr (d : dtype) (ndim : nat) (l : layout) | NSca (d : dtype).
Definition numba_typeof (a : arg) : nty :=
  match a with
  | Arr x => NArr (a_dtype x) (length (a_shape x)) (layout_of x)
  | Sca s => NSca (scalar_dtype s)
  end.
Definition kernel := list nty.

(** utils/cuda.py:503-531: the list kernel_args *)
Inductive word := WInt (z : Z) | WPtr (p : Z) | WRaw (nbytes bits : Z).
Definition size_of (x : nda) : Z := prod (a_shape x).
Definition arg_words (a : arg) : list word :=
  match a with
  | Arr x => [WInt 0; WInt 0; WInt (size_of x); WInt (itemsize (a_dtype x)); WPtr (a_base x)]
             ++ map WInt (a_shape x) ++ map WInt (a_strides x)
  | Sca s => [WRaw (itemsize (scalar_dtype s)) (scalar_bits s)]
  end.
Definition kernel_args (args : list arg) : list word := flat_map arg_words args.

(** The object compile_cupy: utils/cuda.py:360-374 *)
Record cupy_fn := mkFn { specialized : option kernel; kernel_dict : Z -> option kernel }.
Definition new_fn : cupy_fn := mkFn None (fun _ => None).
(** utils/cuda.py:414-432 specialize *)
Definition specialize (f : cupy_fn) (signature : list nty) : cupy_fn := mkFn (Some signature) (kernel_dict f).

Section Call.
Variable hash : list tentry -> Z.   (* Python's built-in hash *)
(** utils/cuda.py:467-538 call_kernel: the object after the call, and what is launched *)
Definition call_kernel (f : cupy_fn) (args : list arg) : cupy_fn * (kernel * list word) :=
  match specialized f with
  | Some k => (f, (k, kernel_args args))
  | None =>
      let h := hash (types_of args) in
      match kernel_dict f h with
      | Some k => (f, (k, kernel_args args))
      | None =>
          let k := map numba_typeof args in
          (mkFn None (fun h' => if h' =? h then Some k else kernel_dict f h'), (k, kernel_args args))
      end
  end.
(** a sequence of calls, from the definition of the function (the decorator) on *)
Definition after (f : cupy_fn) (calls : list (list arg)) : cupy_fn :=
  fold_left (fun f args => fst (call_kernel f args)) calls f.
End Call.

(** The compiled code: it takes its parameters one after the other from the words that it is passed, according to its
    signature ([None]: the words do not have the form that the code expects, behaviour undefined). Numba's calling
    convention, described at utils/cuda.py:514-523. *)
Inductive darg := DArr (d : dtype) (l : layout) (base : Z) (shape strides : list Z) | DSca (d : dtype) (bits : Z).
Fixpoint take_ints (n : nat) (ws : list word) : option (list Z * list word) :=
  match n with
  | O => Some ([], ws)
  | S n' => match ws with
            | WInt z :: ws' => match take_ints n' ws' with Some (l, r) => Some (z :: l, r) | None => None end
            | _ => None end
  end.
Fixpoint receive (k : kernel) (ws : list word) : option (list darg) :=
  match k with
  | [] => match ws with [] => Some [] | _ => None end
  | NSca d :: k' =>
      match ws with
      | WRaw n b :: ws' =>
          if n =? itemsize d then
            match receive k' ws' with Some r => Some (DSca d b :: r) | None => None end
          else None
      | _ => None
      end
  | NArr d nd l :: k' =>
      match ws with
      | WInt _ :: WInt _ :: WInt _ :: WInt _ :: WPtr p :: ws1 =>
          match take_ints nd ws1 with
          | Some (shape, ws2) =>
              match take_ints nd ws2 with
              | Some (strides, ws3) =>
                  match receive k' ws3 with Some r => Some (DArr d l p shape strides :: r) | None => None end
              | None => None end
          | None => None end
      | _ => None
      end
  end.

(** Address of an element, as computed by the compiled code: for contiguous layouts numba computes it from the shape
    and ignores the strides *)
Fixpoint row_index (shape idx : list Z) : Z :=
  match shape, idx with s :: sh, i :: ix => i * prod sh + row_index sh ix | _, _ => 0 end.
Fixpoint col_index (shape idx : list Z) : Z :=
  match shape, idx with s :: sh, i :: ix => i + s * col_index sh ix | _, _ => 0 end.
Fixpoint dot (strides idx : list Z) : Z :=
  match strides, idx with x :: st, i :: ix => x * i + dot st ix | _, _ => 0 end.
Definition device_address (d : dtype) (l : layout) (base : Z) (shape strides idx : list Z) : Z :=
  match l with
  | LC => base + itemsize d * row_index shape idx
  | LF => base + itemsize d * col_index shape idx
  | LA => base + dot strides idx
  end.

(** lpa_utils/external_fields.py:148-150: the signature of the kernel of an external field; float64[:] is an array
    of one dimension and any layout *)
Definition external_field_signature : list nty :=
  [NArr F64 1 LA; NArr F64 1 LA; NArr F64 1 LA; NArr F64 1 LA; NSca F64; NSca F64; NSca F64].
(** lpa_utils/external_fields.py:150 and 210-215: the GPU function and its call for one species and one field *)
Definition external_field_launch (hash : list tentry -> Z) (field x y z : nda) (t amplitude length_scale : scalar)
  : kernel * list word :=
  snd (call_kernel hash (specialize new_fn external_field_signature)
         [Arr field; Arr x; Arr y; Arr z; Sca t; Sca amplitude; Sca length_scale]).
