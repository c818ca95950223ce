(** Exchange of the particles between the ranks when they live on GPU:
    /repo/fbpic/boundaries/particle_buffer_handling.py:178-316 (remove_particles_gpu), 319-377
    (add_buffers_to_particles), 424-511 (add_buffers_gpu), 562-633 (kernels) and
    /repo/fbpic/boundaries/boundary_communicator.py:750-826 (exchange_particles_aperiodic_subdomain).
    As in Sort_Model.v, a device array is a total function of which the first elements are meaningful, and a launch applies
    the writes of its threads in any order (no kernel here reads what it writes). Reals for floats. *)
From Coq Require Import Reals ZArith List.
From Verif Require Import Base Decomp_Model Sort_Model.
From Verif Require PExch_Model.
Import ListNotations.
Open Scope Z_scope.

(** particles.py:150-250 (a species on GPU), tracking.py:27-52 (id), ionizer.py:65-160 (ionization_level, w_times_level).
    [p_fields]: the field arrays that the sort moves (particles.py:519-521): Ex..Bz if keep_fields_sorted, none otherwise. *)
Record gsp := mk_gsp {
  p_N : Z; p_x : Z -> R; p_y : Z -> R; p_z : Z -> R; p_ux : Z -> R; p_uy : Z -> R; p_uz : Z -> R; p_ig : Z -> R; p_w : Z -> R;
  p_fields : list (Z -> R);
  p_id : option (Z -> Z); p_ion : option ((Z -> Z) * (Z -> R));
  p_sorted : bool; p_cell : Z -> Z; p_sidx : Z -> Z; p_prefix : Z -> Z; p_shift : Z;
  p_buf : Z -> R; p_ibuf : Z -> Z }.

(** Option as a list: how an attribute list is extended by `if species.tracker is not None`
    (particle_buffer_handling.py:261-262, 290-293). *)
Definition olist {X} (o : option X) : list X := match o with Some x => [x] | None => [] end.

(** The arrays in the order of particles.py:515-524 and 538-543 rearrange_particle_arrays (w before inv_gamma). *)
Definition sort_view (s : gsp) : gspecies :=
  {| s_N := p_N s; s_x := p_x s; s_y := p_y s; s_z := p_z s;
     s_fl := [p_ux s; p_uy s; p_uz s; p_w s; p_ig s] ++ p_fields s ++ olist (option_map snd (p_ion s));
     s_int := olist (p_id s) ++ olist (option_map fst (p_ion s));
     s_cell := p_cell s; s_sidx := p_sidx s; s_prefix := p_prefix s; s_shift := p_shift s;
     s_buf := p_buf s; s_ibuf := p_ibuf s |}.

(** The same attributes present (tracker, ionizer and keep_fields_sorted do not change here). *)
Definition same_shape (s s' : gsp) : Prop :=
  (p_id s = None <-> p_id s' = None) /\ (p_ion s = None <-> p_ion s' = None).

(** particle_buffer_handling.py:207-212: sort if needed; [g]: the grid as it is now. *)
Definition ensure_sorted (g : sgrid) (s s' : gsp) : Prop :=
  if p_sorted s then s' = s
  else sort_particles g (sort_view s) (sort_view s') /\ same_shape s s' /\
       length (p_fields s') = length (p_fields s) /\ p_sorted s' = true.

(** particle_buffer_handling.py:258-262 and 455-459: the float attributes, in the order of the rows of the buffers *)
Definition float_attrs (s : gsp) : list (Z -> R) :=
  [p_x s; p_y s; p_z s; p_ux s; p_uy s; p_uz s; p_ig s; p_w s] ++ olist (option_map snd (p_ion s)).
(** particle_buffer_handling.py:288-293 and 483-487: the integer attributes *)
Definition int_attrs (s : gsp) : list (Z -> Z) := olist (p_id s) ++ olist (option_map fst (p_ion s)).

(** particle_buffer_handling.py:562-608 split_particles_to_buffers: what thread [i] writes to left_buffer ... *)
Definition split_left {V} (n_left i_min : Z) (a : Z -> V) (i : Z) : list (Z * V) :=
  if i <? i_min then if negb (n_left =? 0) then [(i, a i)] else [] else [].
(** ... and to right_buffer (to stay_buffer: [split_stay] of Sort_Model.v) *)
Definition split_right {V} (n_right i_min i_max Ntot : Z) (a : Z -> V) (i : Z) : list (Z * V) :=
  if i <? i_min then [] else if i <? i_max then [] else if i <? Ntot then
    if negb (n_right =? 0) then [(i - i_max, a i)] else []
  else [].
(** A device array of [n] elements copied to the CPU: left_buffer.get (particle_buffer_handling.py:282-285) *)
Definition get {V} (n : Z) (a : Z -> V) : list V := map a (range n).
(** particle_buffer_handling.py:264-285 (and 294-310): one turn of the loop, for the array [a]: it becomes [a'], and the
    left and right buffers hold [l] and [r]. [N] = species.Ntot. The three buffers start with arbitrary contents. *)
Definition split_attr {V} (N i_min i_max : Z) (a a' : Z -> V) (l r : list V) : Prop :=
  exists junk1 junk2 junk3 left_buffer right_buffer,
    launched N (split_left i_min i_min a) junk1 left_buffer /\
    launched N (split_stay i_min i_max a) junk2 a' /\
    launched N (split_right (N - i_max) i_min i_max N a) junk3 right_buffer /\
    l = get i_min left_buffer /\ r = get (N - i_max) right_buffer.
(** The loop over the attributes (particle_buffer_handling.py:264-285, 294-310): one row per attribute *)
Inductive split_attrs {V} (N i_min i_max : Z) : list (Z -> V) -> list (Z -> V) -> list (list V) -> list (list V) -> Prop :=
| split_nil : split_attrs N i_min i_max [] [] [] []
| split_cons : forall a l a' l' rl rr rls rrs, split_attr N i_min i_max a a' rl rr -> split_attrs N i_min i_max l l' rls rrs ->
    split_attrs N i_min i_max (a :: l) (a' :: l') (rl :: rls) (rr :: rrs).

(** particle_buffer_handling.py:239-253: the sending buffers when there is no neighbour have no particle *)
Definition send_rows {V} (proc : option Z) (rows : list (list V)) : list (list V) :=
  match proc with Some _ => rows | None => map (fun _ => []) rows end.

(** particle_buffer_handling.py:214-316, on a sorted species *)
Definition remove_sorted (g : sgrid) (n_guard : Z) (left_proc right_proc : option Z) (s s' : gsp)
    (send_left send_right : PExch_Model.buf) : Prop :=
  let (i_min, i_max) := stay_bounds g n_guard (sort_view s) in
  exists fl fr il ir,
    split_attrs (p_N s) i_min i_max (float_attrs s) (float_attrs s') fl fr /\
    split_attrs (p_N s) i_min i_max (int_attrs s) (int_attrs s') il ir /\
    send_left = PExch_Model.mkBuf (send_rows left_proc fl) (send_rows left_proc il) /\
    send_right = PExch_Model.mkBuf (send_rows right_proc fr) (send_rows right_proc ir) /\
    same_shape s s' /\ p_N s' = i_max - i_min.
(** particle_buffer_handling.py:178-316 remove_particles_gpu *)
Definition remove_particles_gpu (g : sgrid) (n_guard : Z) (left_proc right_proc : option Z) (s s' : gsp)
    (send_left send_right : PExch_Model.buf) : Prop :=
  exists s1, ensure_sorted g s s1 /\ remove_sorted g n_guard left_proc right_proc s1 s' send_left send_right.

(** particle_buffer_handling.py:610-633 copy_particles *)
Definition copy_particles {V} (n : Z) (source : Z -> V) (source_start target_start : Z) (i : Z) : list (Z * V) :=
  if i <? n then [(i + target_start, source (i + source_start))] else [].
(** `if n != 0: copy_particles[...](...)`, particle_buffer_handling.py:469-477, 497-505 *)
Definition copy_if {V} (n : Z) (source : Z -> V) (source_start target_start : Z) (t t' : Z -> V) : Prop :=
  if negb (n =? 0) then launched n (copy_particles n source source_start target_start) t t' else t' = t.
(** cupy.asarray of a row of a buffer, particle_buffer_handling.py:463-464, 491-492 *)
Definition asarray {V} (d : V) (l : list V) : Z -> V := fun i => nth (Z.to_nat i) l d.
(** particle_buffer_handling.py:461-480 (and 489-508): one turn of the loop. [n_left], [n_right]: the numbers of columns of
    the buffers. *)
Definition merge_attr {V} (d : V) (n_left old_Ntot n_right : Z) (l : list V) (stay : Z -> V) (r : list V) (a' : Z -> V) : Prop :=
  exists junk t1 t2,
    copy_if n_left (asarray d l) 0 0 junk t1 /\
    copy_if old_Ntot stay 0 n_left t1 t2 /\
    copy_if n_right (asarray d r) 0 (n_left + old_Ntot) t2 a'.
(** The loop over the attributes: row i of the buffers goes with attribute i (particle_buffer_handling.py:461-480, 489-508).
    A row too few is an IndexError, hence no result. *)
Inductive merge_attrs {V} (d : V) (n_left old_Ntot n_right : Z) :
    list (list V) -> list (Z -> V) -> list (list V) -> list (Z -> V) -> Prop :=
| merge_nil : forall rl rr, merge_attrs d n_left old_Ntot n_right rl [] rr []
| merge_cons : forall a l a' l' rl rr rls rrs, merge_attr d n_left old_Ntot n_right rl a rr a' ->
    merge_attrs d n_left old_Ntot n_right rls l rrs l' ->
    merge_attrs d n_left old_Ntot n_right (rl :: rls) (a :: l) (rr :: rrs) (a' :: l').
(** float_recv_left.shape[1] (particle_buffer_handling.py:444-445) *)
Definition columns (b : PExch_Model.buf) : Z := Z.of_nat (length (hd [] (PExch_Model.bf b))).
(** particle_buffer_handling.py:424-511 add_buffers_gpu and 348-377 of add_buffers_to_particles: the auxiliary arrays are
    reallocated, the species is flagged as unsorted. *)
Definition add_buffers_gpu (s : gsp) (recv_left recv_right : PExch_Model.buf) (s' : gsp) : Prop :=
  let n_left := columns recv_left in
  let n_right := columns recv_right in
  merge_attrs 0%R n_left (p_N s) n_right (PExch_Model.bf recv_left) (float_attrs s) (PExch_Model.bf recv_right) (float_attrs s') /\
  merge_attrs 0 n_left (p_N s) n_right (PExch_Model.bi recv_left) (int_attrs s) (PExch_Model.bi recv_right) (int_attrs s') /\
  same_shape s s' /\ p_N s' = p_N s + n_left + n_right /\ p_sorted s' = false.

(** Receiving buffers without particles: boundary_communicator.py:784-800, where N_recv is 0. *)
Definition no_particles (b : PExch_Model.buf) : PExch_Model.buf :=
  PExch_Model.mkBuf (map (fun _ => []) (PExch_Model.bf b)) (map (fun _ => []) (PExch_Model.bi b)).

(** boundary_communicator.py:750-826, all the ranks together (rank r has the grid [g r]). As in PExch_Model.v the calls of
    exchange_domains hand to rank r the right buffer of its left neighbour and the left buffer of its right neighbour.
    [inj]: the buffer of newly created particles on the last rank (lines 806-810). [shift_z]: lines 815-821. *)
Definition exchange_particles (b : zbound) (size n_guard : Z) (Ltot : R) (g : Z -> sgrid) (inj : option PExch_Model.buf)
    (S S' : Z -> gsp) : Prop :=
  exists (stay : Z -> gsp) (send_left send_right : Z -> PExch_Model.buf),
    (forall r, 0 <= r < size ->
       remove_particles_gpu (g r) n_guard (left_proc b r size) (right_proc b r size) (S r) (stay r) (send_left r) (send_right r)) /\
    (forall r, 0 <= r < size ->
       let recv_left := match left_proc b r size with Some l => send_right l | None => no_particles (send_left r) end in
       let recv_right := match right_proc b r size with Some q => send_left q | None => no_particles (send_left r) end in
       let recv_right := match inj with Some nw => if r =? size - 1 then nw else recv_right | None => recv_right end in
       let recv_right := match right_proc b r size with
                         | Some q => if q =? 0 then PExch_Model.shift_z Ltot recv_right else recv_right
                         | None => recv_right end in
       let recv_left := match left_proc b r size with
                        | Some l => if l =? size - 1 then PExch_Model.shift_z (- Ltot) recv_left else recv_left
                        | None => recv_left end in
       add_buffers_gpu (stay r) recv_left recv_right (S' r)).
