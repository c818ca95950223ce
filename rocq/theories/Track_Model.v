(** Particle ids: particles/tracking/tracking.py, and how ids travel with the particles
    (boundaries/particle_buffer_handling.py). *)
From Verif Require Import Base PExch_Model.
Open Scope Z_scope.

(** tracking.py:27-52, the attributes of a ParticleTracker.  [t_misspelt] is the attribute
    [next_attibuted_id] that tracking.py:132 creates; nothing reads it. *)
Record tracker := { t_next : Z; t_step : Z; t_id : list Z; t_misspelt : option Z }.

(** [np.arange(start, start + N*step, step, dtype=np.uint64)] (tracking.py:48-50, 77-79).
    Simplified: values beyond 2^64 wrap (numpy raises or wraps depending on its version; the
    properties assume that ids stay below 2^64). *)
Definition arange (start : Z) (n : nat) (step : Z) : list Z :=
  map (fun k => (start + k * step) mod 2 ^ 64) (zrange n).

(** tracking.py:27-52 __init__. *)
Definition tracker_init (size rank : Z) (n : nat) : tracker :=
  {| t_next := rank + Z.of_nat n * size; t_step := size;
     t_id := arange rank n size; t_misspelt := None |}.

(** tracking.py:66-81 generate_new_ids, followed by its use: the new ids are put after (CPU
    ionization and scattering: cuda_numba_utils.py:126-138) or in the receive buffer of the
    right boundary, hence also after, the existing ones (injection: particles.py:363-369 and
    boundary_communicator.py:801-826). *)
Definition gen_cpu (n : nat) (t : tracker) : tracker :=
  {| t_next := t_next t + Z.of_nat n * t_step t; t_step := t_step t;
     t_id := t_id t ++ arange (t_next t) n (t_step t); t_misspelt := t_misspelt t |}.

(** tracking.py:83-100 and 136-160 generate_new_ids_gpu: the array was first extended with
    arbitrary values [junk]; thread [i] (of more threads than needed) writes one element. *)
Fixpoint set_nth (i : nat) (x : Z) (l : list Z) : list Z :=
  match l, i with
  | [], _ => []
  | _ :: l, O => x :: l
  | y :: l, S i => y :: set_nth i x l
  end.
Definition gen_gpu (threads : list nat) (junk : list Z) (t : tracker) : tracker :=
  let i_start := length (t_id t) in
  let n := length junk in
  {| t_next := t_next t + Z.of_nat n * t_step t; t_step := t_step t;
     t_id := fold_left (fun a i => if (i <? n)%nat
                                   then set_nth (i_start + i) ((t_next t + Z.of_nat i * t_step t) mod 2 ^ 64) a
                                   else a)
                       threads (t_id t ++ junk);
     t_misspelt := t_misspelt t |}.

(** A world: the tracker of each rank. *)
Definition world := Z -> tracker.
Definition upd (r : Z) (x : tracker) (w : world) : world := fun q => if q =? r then x else w q.

(** tracking.py:27-52 on every rank (particles.py:376-392 track). *)
Definition start (size : Z) (N : Z -> nat) : world := fun r => tracker_init size r (N r).

Definition set_ids (l : list Z) (t : tracker) : tracker :=
  {| t_next := t_next t; t_step := t_step t; t_id := l; t_misspelt := t_misspelt t |}.

Inductive dir := ToLeft | ToRight.
(** One event of a history.  [Gen]: creation of particles on a rank (injection, ionization,
    scattering).  [Send d r q k]: the particle with index [k] leaves rank [r] and is added on
    rank [q], its left or right neighbour.  [Lose]: the particle leaves the box. *)
Inductive op := Gen (r : Z) (n : nat) | Send (d : dir) (r q : Z) (k : nat) | Lose (r : Z) (k : nat).

(** [id[stay]] when only particle [k] leaves. *)
Definition without (k : nat) (l : list Z) : list Z := firstn k l ++ skipn (S k) l.

Section Step.
(** What the buffers do to an integer attribute: [PExch_Model.conv_left]/[conv_right] on the
    CPU, nothing on the GPU (particle_buffer_handling.py:178-316 uses uint64 buffers). *)
Variable conv : dir -> Z -> Z.

(** particle_buffer_handling.py:58-175 (departure), 379-421 (arrival: particles received from
    the left are put first, those from the right last). *)
Definition do_op (o : op) (w : world) : world :=
  match o with
  | Gen r n => upd r (gen_cpu n (w r)) w
  | Lose r k => upd r (set_ids (without k (t_id (w r))) (w r)) w
  | Send d r q k =>
      match nth_error (t_id (w r)) k with
      | None => w
      | Some i =>
          let w := upd r (set_ids (without k (t_id (w r))) (w r)) w in
          upd q (set_ids (match d with
                          | ToRight => conv ToRight i :: t_id (w q)
                          | ToLeft => t_id (w q) ++ [conv ToLeft i]
                          end) (w q)) w
      end
  end.
Definition run (h : list op) (w : world) : world := fold_left (fun w o => do_op o w) h w.
End Step.

Definition conv_cpu (d : dir) : Z -> Z := match d with ToLeft => conv_left | ToRight => conv_right end.
Definition conv_gpu (d : dir) (i : Z) : Z := i.

(** tracking.py:102-132 overwrite_ids, after [track] (checkpoint_restart.py:330-333): [ids r]
    are the ids in the file of rank [r].  Line 132 assigns [next_attibuted_id] instead of
    [next_attributed_id].  [int(x/y)] of integers below 2^53 is [Z.quot]. *)
Definition list_max (l : list Z) : Z := fold_right Z.max 0 l.
Definition restart (size : Z) (ids : Z -> list Z) : world := fun rank =>
  let t := tracker_init size rank (length (ids rank)) in
  let global_id_max := list_max (map (fun r => list_max (ids r)) (range size)) in
  let n := Z.quot (global_id_max - rank) (t_step t) + 1 in
  {| t_next := t_next t; t_step := t_step t; t_id := ids rank;
     t_misspelt := Some (rank + n * t_step t) |}.
