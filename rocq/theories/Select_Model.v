(** Choice of the GPU of each MPI rank: utils/cuda.py:189-299 (called by main.py:21 when fbpic is imported with CUDA).
    [nodes]: MPI.Get_processor_name() of each rank of COMM_WORLD. [n_gpus]: len(cuda.gpus), the same number on every node
    (simplification: with different numbers the calls of barrier do not match). *)
From Verif Require Import Base.
From Coq Require Import String Ascii.
Import ListNotations.
Open Scope Z_scope.

Notation name := string.
Definition name_eqb := String.eqb.
(** cuda.py:238-247: the loop on the list of the nodes, from the second one; [prev]: nodes[i-1] *)
Fixpoint check_loop (prev : name) (unique_nodes : list name) (l : list name) : bool :=
  match l with
  | [] => true
  | n :: l =>
      if negb (name_eqb n prev) then
        if existsb (name_eqb n) unique_nodes then false else check_loop n (unique_nodes ++ [n]) l
      else check_loop n unique_nodes l
  end.
(** cuda.py:222-258 check_consecutive_ranks_on_same_nodes (the same result on every rank: bcast); without the warning *)
Definition check_consecutive_ranks_on_same_nodes (nodes : list name) : bool :=
  match nodes with
  | [] | [_] => true
  | n :: l => check_loop n [n] l
  end.
(** cuda.py:275: int.from_bytes( node_name.encode(), 'little' ) *)
Fixpoint from_bytes_little (s : name) : Z :=
  match s with EmptyString => 0 | String a s => Z.of_nat (nat_of_ascii a) + 256 * from_bytes_little s end.
Definition color (s : name) : Z := from_bytes_little s mod 100000000.
(** cuda.py:271-278: the rank in the communicator. COMM_WORLD.Split(color): the ranks of the same color, in the order of COMM_WORLD *)
Definition comm_rank (std : bool) (nodes : list name) (r : nat) : nat :=
  if std then r else
  List.length (filter (fun n => color n =? color (nth r nodes EmptyString)) (firstn r nodes)).
(** cuda.py:281-287: the GPU of the rank; the last i_gpu with rank%n_gpus == i_gpu *)
Definition select_gpu (n_gpus rank : nat) : option nat :=
  fold_left (fun g i => if Nat.eqb (Nat.modulo rank n_gpus) i then Some i else g) (List.seq 0 n_gpus) None.
(** Outcome on one rank: the GPU, and whether the warning is emitted *)
Record outcome := { gpu : nat; warned : bool }.
Section U.
Context {U : Type} (U_eqb : U -> U -> bool) (get_uuid : name -> nat -> option U).   (* cuda.py:189-219 *)
Fixpoint distinct (l : list (option U)) : nat :=   (* len(set(uuids)), no None *)
  match l with
  | [] => 0
  | a :: l => (if existsb (fun b => match a, b with Some a, Some b => U_eqb a b | None, None => true | _, _ => false end) l then 0 else 1) + distinct l
  end%nat.
(** cuda.py:261-299 mpi_select_gpus, on the rank [r]. UnboundLocalError when no device is found: [Err RuntimeError] here.
    COMM_WORLD.gather returns the list on the rank 0 of COMM_WORLD and None on the other ones; [None in None] raises TypeError. *)
Definition mpi_select_gpus (n_gpus : nat) (nodes : list name) (r : nat) : res outcome :=
  let std := check_consecutive_ranks_on_same_nodes nodes in
  let rank := comm_rank std nodes in
  match select_gpu n_gpus (rank r) with
  | None => Err RuntimeError
  | Some g =>
      let uuids := if Nat.eqb r 0 then
          Some (map (fun k => match select_gpu n_gpus (rank k) with Some g => get_uuid (nth k nodes EmptyString) g | None => None end) (List.seq 0 (List.length nodes)))
        else None in
      if Nat.eqb (rank r) 0 then
        match uuids with
        | None => Err TypeError
        | Some l =>
            let none_in := existsb (fun u => match u with None => true | Some _ => false end) l in
            Ok {| gpu := g; warned := negb none_in && Nat.ltb (distinct l) (List.length l) |}
        end
      else Ok {| gpu := g; warned := false |}
  end.
End U.
