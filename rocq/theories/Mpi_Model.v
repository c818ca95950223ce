(** Message-passing model of the neighbour exchange
    /repo/fbpic/boundaries/boundary_communicator.py:674-707 (exchange_domains), called K
    times in a row by every rank.

    MPI is modelled by ordered (non-overtaking) channels indexed by (source,
    destination, tag).  Isend appends to a channel, Irecv posts a receive that can be
    matched with the head of its channel at any later time, Wait blocks until the request is
    complete.  A send request completes at the latest once its message is matched; it may also
    complete earlier (buffered send): steps labelled [true] include that behaviour.  What is
    sent is arbitrary at each call, so that it may depend on what was received before.
    Message sizes are not modelled. *)
From Verif Require Import Base Decomp_Model.
Open Scope Z_scope.

Inductive side := Lf | Rt.
Definition opp (s : side) : side := match s with Lf => Rt | Rt => Lf end.

(** boundary_communicator.py:207-222 (neighbours) *)
Definition nb (b : zbound) (size : Z) (s : side) (r : Z) : option Z :=
  match s with Lf => left_proc b r size | Rt => right_proc b r size end.

(** boundary_communicator.py:688-698 (tags): to the left 1, to the right 2, from the left 2,
    from the right 1. *)
Definition tag_send (s : side) : Z := match s with Lf => 1 | Rt => 2 end.
Definition tag_recv (s : side) : Z := match s with Lf => 2 | Rt => 1 end.

(** The body of exchange_domains, line by line (688-707); every instruction is guarded by
    "neighbour is not None". *)
Inductive instr := ISend (s : side) | IRecv (s : side) | WaitRecv (s : side) | WaitSend (s : side).
Definition program : list instr :=
  [ISend Lf; IRecv Lf; ISend Rt; IRecv Rt; WaitRecv Lf; WaitSend Lf; WaitRecv Rt; WaitSend Rt].
Definition side_of (i : instr) : side :=
  match i with ISend s | IRecv s | WaitRecv s | WaitSend s => s end.

Inductive rstat := RIdle | RPosted | RDone.

Section Mpi.
  Context {M : Type}.

  Record state := {
    pc : Z -> nat;                       (* next instruction of each rank *)
    rnd : Z -> nat;                      (* number of exchanges finished by each rank *)
    chan : Z -> Z -> Z -> list M;        (* source, destination, tag: unmatched messages *)
    rst : Z -> side -> rstat;            (* receive request of each side *)
    pend : Z -> side -> bool;            (* is the send request still pending *)
    sent : Z -> side -> list M;          (* history: send_left / send_right of each call *)
    got : Z -> side -> list M            (* history: content of recv_left / recv_right *)
  }.

  Definition init_state : state :=
    {| pc := fun _ => O; rnd := fun _ => O; chan := fun _ _ _ => []; rst := fun _ _ => RIdle;
       pend := fun _ _ => false; sent := fun _ _ => []; got := fun _ _ => [] |}.

  Definition side_eqb (s t : side) : bool :=
    match s, t with Lf, Lf | Rt, Rt => true | _, _ => false end.
  Definition upd {X} (f : Z -> X) (r : Z) (v : X) : Z -> X :=
    fun r' => if r' =? r then v else f r'.
  Definition upd2 {X} (f : Z -> side -> X) (r : Z) (s : side) (v : X) : Z -> side -> X :=
    fun r' s' => if (r' =? r) && side_eqb s' s then v else f r' s'.
  Definition upd3 {X} (f : Z -> Z -> Z -> X) (a b c : Z) (v : X) : Z -> Z -> Z -> X :=
    fun a' b' c' => if (a' =? a) && (b' =? b) && (c' =? c) then v else f a' b' c'.

  (** Advance the program counter of rank r; after the last instruction the call returns
      and the next one starts. *)
  Definition adv (st : state) (r : Z) : state :=
    let last := Nat.eqb (S (pc st r)) (length program) in
    {| pc := upd (pc st) r (if last then O else S (pc st r));
       rnd := upd (rnd st) r (if last then S (rnd st r) else rnd st r);
       chan := chan st; rst := rst st; pend := pend st; sent := sent st; got := got st |}.

  Definition do_send (st : state) (r d : Z) (s : side) (m : M) : state :=
    {| pc := pc st; rnd := rnd st;
       chan := upd3 (chan st) r d (tag_send s) (chan st r d (tag_send s) ++ [m]);
       rst := rst st; pend := upd2 (pend st) r s true;
       sent := upd2 (sent st) r s (sent st r s ++ [m]); got := got st |}.
  Definition set_rst (st : state) (r : Z) (s : side) (v : rstat) : state :=
    {| pc := pc st; rnd := rnd st; chan := chan st; rst := upd2 (rst st) r s v;
       pend := pend st; sent := sent st; got := got st |}.
  Definition set_pend (st : state) (r : Z) (s : side) (v : bool) : state :=
    {| pc := pc st; rnd := rnd st; chan := chan st; rst := rst st;
       pend := upd2 (pend st) r s v; sent := sent st; got := got st |}.
  (** Match the head of the channel (a -> d, tag_recv o) with the posted receive. *)
  Definition deliver (st : state) (d : Z) (o : side) (a : Z) (m : M) (q : list M) : state :=
    {| pc := pc st; rnd := rnd st; chan := upd3 (chan st) a d (tag_recv o) q;
       rst := upd2 (rst st) d o RDone; pend := pend st; sent := sent st;
       got := upd2 (got st) d o (got st d o ++ [m]) |}.

  (** One step of the whole system; [eager] allows sends to complete before matching. *)
  Inductive step (b : zbound) (size : Z) (K : nat) (eager : bool) (st : state) : state -> Prop :=
  | st_skip r i : 0 <= r < size -> (rnd st r < K)%nat -> nth_error program (pc st r) = Some i ->
      nb b size (side_of i) r = None -> step b size K eager st (adv st r)
  | st_send r s d m : 0 <= r < size -> (rnd st r < K)%nat ->
      nth_error program (pc st r) = Some (ISend s) -> nb b size s r = Some d ->
      step b size K eager st (adv (do_send st r d s m) r)
  | st_recv r s d : 0 <= r < size -> (rnd st r < K)%nat ->
      nth_error program (pc st r) = Some (IRecv s) -> nb b size s r = Some d ->
      step b size K eager st (adv (set_rst st r s RPosted) r)
  | st_waitr r s d : 0 <= r < size -> (rnd st r < K)%nat ->
      nth_error program (pc st r) = Some (WaitRecv s) -> nb b size s r = Some d ->
      rst st r s = RDone ->
      step b size K eager st (adv (set_rst st r s RIdle) r)
  | st_waits r s d : 0 <= r < size -> (rnd st r < K)%nat ->
      nth_error program (pc st r) = Some (WaitSend s) -> nb b size s r = Some d ->
      pend st r s = false ->
      step b size K eager st (adv st r)
  | st_deliver d o a m q : 0 <= d < size -> rst st d o = RPosted -> nb b size o d = Some a ->
      chan st a d (tag_recv o) = m :: q ->
      step b size K eager st (deliver st d o a m q)
  | st_complete r s d : 0 <= r < size -> pend st r s = true -> nb b size s r = Some d ->
      (chan st r d (tag_send s) = [] \/ eager = true) ->
      step b size K eager st (set_pend st r s false).

  Inductive steps (b : zbound) (size : Z) (K : nat) : nat -> state -> state -> Prop :=
  | steps_0 st : steps b size K O st st
  | steps_S n st st' st'' : steps b size K n st st' -> step b size K true st' st'' ->
      steps b size K (S n) st st''.

  (** All the ranks have returned from their K calls. *)
  Definition finished (size : Z) (K : nat) (st : state) : Prop :=
    forall r, 0 <= r < size -> rnd st r = K.
End Mpi.
Arguments state : clear implicits.
