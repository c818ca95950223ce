(** What happens when a CUDA kernel is launched: utils/cuda.py and the meaning of [kernel[grid, block](...)].

    A thread is a program made of single reads and writes of the memory of the GPU. The threads of a launch run
    concurrently and nothing orders the reads and writes of different threads (no kernel modelled on top of this file uses
    barriers or atomic operations): an execution is an arbitrary interleaving. Simplification: a read or a write of one
    array element (16 bytes for a complex number) is indivisible, and memory is sequentially consistent; for programs
    without data races, which is what is proved of the kernels, neither can be observed. *)
From Verif Require Import Base.
From Coq Require Import Reals ZArith.
From Flocq Require Import Core.
Open Scope Z_scope.

Section Threads.
  Context {L V : Type} (leq : forall a b : L, {a = b} + {a <> b}).

  Definition mem := L -> V.
  Definition upd (m : mem) (l : L) (v : V) : mem := fun l' => if leq l l' then v else m l'.

  (** The rest of what a thread has to do: read an element and go on with its value, or write one. *)
  Inductive prog := Done | Load (l : L) (k : V -> prog) | Store (l : L) (v : V) (p : prog).

  (** One operation of one thread. *)
  Inductive act : prog -> mem -> prog -> mem -> Prop :=
  | act_load : forall l k m, act (Load l k) m (k (m l)) m
  | act_store : forall l v p m, act (Store l v p) m p (upd m l v).
  (** One operation of some thread of the launch. *)
  Inductive tick : list prog * mem -> list prog * mem -> Prop :=
  | tick_intro : forall pre p post m p' m', act p m p' m' -> tick (pre ++ p :: post, m) (pre ++ p' :: post, m').
  Inductive ticks : list prog * mem -> list prog * mem -> Prop :=
  | ticks_0 : forall s, ticks s s
  | ticks_S : forall s t u, tick s t -> ticks t u -> ticks s u.

  (** The launch of [ts] may leave the memory [m']. *)
  Definition executes (ts : list prog) (m m' : mem) : Prop :=
    exists ps, ticks (ts, m) (ps, m') /\ Forall (fun p => p = Done) ps.
  (** Launches issued one after the other: the default stream of the GPU runs each after the previous one. *)
  Inductive stream : list (list prog) -> mem -> mem -> Prop :=
  | stream_nil : forall m, stream [] m m
  | stream_cons : forall k ks m m1 m2, executes k m m1 -> stream ks m1 m2 -> stream (k :: ks) m m2.
End Threads.
Arguments prog : clear implicits.
Arguments Done {L V}. Arguments Load {L V}. Arguments Store {L V}.

(** ** Launch geometry *)
(** A double-precision operation. *)
Definition fl64 (x : R) : R := round radix2 (FLT_exp (-1074) 53) ZnearestE x.
(** utils/cuda.py:49-70 cuda_tpb_bpg_1d: BPG = int(x/TPB + 1) with floating-point division and addition *)
Definition bpg (x TPB : Z) : Z := Ztrunc (fl64 (fl64 (IZR x / IZR TPB) + 1)).
Definition cuda_tpb_bpg_1d (x TPB : Z) : Z * Z := (bpg x TPB, TPB).
(** utils/cuda.py:72-95 cuda_tpb_bpg_2d; the default arguments are TPBx = 1, TPBy = 128 *)
Definition cuda_tpb_bpg_2d (x y TPBx TPBy : Z) : (Z * Z) * (Z * Z) := ((bpg x TPBx, bpg y TPBy), (TPBx, TPBy)).

(** The values of [cuda.grid(2)] in the threads of a launch: blockIdx * blockDim + threadIdx in each direction. *)
Definition grid_2d (dims : (Z * Z) * (Z * Z)) : list (Z * Z) :=
  let '((gx, gy), (tx, ty)) := dims in
  flat_map (fun bx => flat_map (fun by_ => flat_map (fun i => map (fun j => (bx * tx + i, by_ * ty + j))
    (range ty)) (range tx)) (range gy)) (range gx).
(** ... and of [cuda.grid(1)] *)
Definition grid_1d (dims : Z * Z) : list Z :=
  let '(g, t) := dims in flat_map (fun b => map (fun i => b * t + i) (range t)) (range g).
(** kernel[dims](...), for the kernel whose thread (iz, ir) runs [thr iz ir]. *)
Definition launch_2d {L V} (dims : (Z * Z) * (Z * Z)) (thr : Z -> Z -> prog L V) : list (prog L V) :=
  map (fun ij => thr (fst ij) (snd ij)) (grid_2d dims).

(** Elements of a set of 2d arrays: (array, iz, ir). *)
Definition cloc_dec {A} (adec : forall a b : A, {a = b} + {a <> b}) (a b : A * Z * Z) : {a = b} + {a <> b}.
Proof. decide equality; [apply Z.eq_dec|]. decide equality. apply Z.eq_dec. Defined.
