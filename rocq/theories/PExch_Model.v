(** Model of the particle exchange between ranks (CPU path):
    /repo/fbpic/boundaries/boundary_communicator.py:750-826
    (exchange_particles_aperiodic_subdomain) and
    /repo/fbpic/boundaries/particle_buffer_handling.py:58-175 (remove_particles_cpu),
    379-421 (add_buffers_cpu).

    Floating-point attributes are reals.  Each attribute array is a list; buffers are
    lists of rows, as in the code.  Reallocation of auxiliary arrays (field on particles,
    sorting buffers) is not modelled. *)
From Verif Require Import Base Decomp_Model.
From Coq Require Import Reals.
From Flocq Require Import IEEE754.Binary IEEE754.Bits.
Open Scope Z_scope.

(** particles.py:150-250 (attribute arrays), tracking.py:27-52 (id), ionizer.py:65-160
    (ionization_level, w_times_level): None when there is no tracker / ionizer. *)
Record species := mkSpecies {
  s_x : list R; s_y : list R; s_z : list R; s_ux : list R; s_uy : list R; s_uz : list R;
  s_inv_gamma : list R; s_w : list R;
  s_id : option (list Z);
  s_ion : option (list Z * list R)     (* ionization_level, w_times_level *)
}.

(** particle_buffer_handling.py: float buffers (n_float rows) and uint64 buffers (n_int rows). *)
Record buf := mkBuf { bf : list (list R); bi : list (list Z) }.

Definition Rltb (x y : R) : bool := if Rlt_dec x y then true else false.

(** numpy boolean-mask selection *)
Fixpoint select {X} (mask : list bool) (l : list X) : list X :=
  match mask, l with
  | m :: mask, x :: l => if m then x :: select mask l else select mask l
  | _, _ => []
  end.

Definition optlist {X} (o : option X) : list X := match o with Some x => [x] | None => [] end.

(** particle_buffer_handling.py:103-120 (left) and 130-148 (right): fill a sending buffer.
    [conv] is what happens to an integer attribute between the store into the sending
    buffer and the read from the receiving uint64 buffer. *)
Definition fill_buffer (conv : Z -> Z) (sp : species) (mask : list bool) : buf :=
  mkBuf ([select mask (s_x sp); select mask (s_y sp); select mask (s_z sp);
          select mask (s_ux sp); select mask (s_uy sp); select mask (s_uz sp);
          select mask (s_inv_gamma sp); select mask (s_w sp)]
         ++ optlist (option_map (fun ion => select mask (snd ion)) (s_ion sp)))
        (optlist (option_map (fun id => map conv (select mask id)) (s_id sp))
         ++ optlist (option_map (fun ion => map conv (select mask (fst ion))) (s_ion sp))).

(** particle_buffer_handling.py:121-124, 151-153 and the np.zeros of
    boundary_communicator.py:784-795: buffers without particles. *)
Definition empty_buffer (sp : species) : buf :=
  mkBuf (repeat [] (8 + length (optlist (s_ion sp))))
        (repeat [] (length (optlist (s_id sp)) + length (optlist (s_ion sp)))).

(** particle_buffer_handling.py:101 (uint64 left buffer): no conversion. *)
Definition conv_left (i : Z) : Z := i.
(** particle_buffer_handling.py:133 (uint_send_right is allocated with dtype float64) and
    boundary_communicator.py:790-795 (received into a uint64 array): the integer is rounded to
    a binary64 number and its 64 bits are read back as an unsigned integer. *)
Definition conv_right (i : Z) : Z :=
  bits_of_b64 (binary_normalize 53 1024 (refl_equal _) (refl_equal _) BinarySingleNaN.mode_NE i 0 false).

(** particle_buffer_handling.py:155-172: arrays of the particles that stay. *)
Definition keep (sp : species) (mask : list bool) : species :=
  mkSpecies (select mask (s_x sp)) (select mask (s_y sp)) (select mask (s_z sp))
            (select mask (s_ux sp)) (select mask (s_uy sp)) (select mask (s_uz sp))
            (select mask (s_inv_gamma sp)) (select mask (s_w sp))
            (option_map (select mask) (s_id sp))
            (option_map (fun ion => (select mask (fst ion), select mask (snd ion))) (s_ion sp)).

(** particle_buffer_handling.py:58-175.  zmin, zmax: edges of the local grid (fld.interp[0]). *)
Definition remove_particles_cpu (sp : species) (zmin zmax dz : R) (n_guard : Z)
           (left right : option Z) : species * buf * buf :=
  let zbox_min := (zmin + IZR n_guard * dz)%R in
  let zbox_max := (zmax - IZR n_guard * dz)%R in
  let selec_left := map (fun z => Rltb z zbox_min) (s_z sp) in
  let selec_right := map (fun z => Rltb zbox_max z) (s_z sp) in
  let selec_stay := map (fun z => negb (Rltb z zbox_min) && negb (Rltb zbox_max z)) (s_z sp) in
  let send_left := match left with
                   | Some _ => fill_buffer conv_left sp selec_left
                   | None => empty_buffer sp end in
  let send_right := match right with
                    | Some _ => fill_buffer conv_right sp selec_right
                    | None => empty_buffer sp end in
  (keep sp selec_stay, send_left, send_right).

(** particle_buffer_handling.py:379-421. *)
Definition frow (b : buf) (k : nat) : list R := nth k (bf b) [].
Definition irow (b : buf) (k : nat) : list Z := nth k (bi b) [].
Definition add_buffers_cpu (sp : species) (rl rr : buf) : species :=
  let hs k a := frow rl k ++ a ++ frow rr k in
  let his k a := irow rl k ++ a ++ irow rr k in
  let i_attr := length (optlist (s_id sp)) in
  mkSpecies (hs 0%nat (s_x sp)) (hs 1%nat (s_y sp)) (hs 2%nat (s_z sp))
            (hs 3%nat (s_ux sp)) (hs 4%nat (s_uy sp)) (hs 5%nat (s_uz sp))
            (hs 6%nat (s_inv_gamma sp)) (hs 7%nat (s_w sp))
            (option_map (his 0%nat) (s_id sp))
            (option_map (fun ion => (his i_attr (fst ion), hs 8%nat (snd ion))) (s_ion sp)).

(** boundary_communicator.py:810-820: row 2 of the float buffer is z. *)
Definition shift_z (d : R) (b : buf) : buf :=
  mkBuf (match bf b with
         | x :: y :: z :: tl => x :: y :: map (fun a => (a + d)%R) z :: tl
         | l => l
         end) (bi b).

(** boundary_communicator.py:750-826, for all the ranks at once.  The three calls of
    exchange_domains hand to rank r the right buffer of its left neighbour and the
    left buffer of its right neighbour (Mpi_Props).  [inj]: buffer of newly created
    particles on the last rank (lines 800-806), None without moving window or
    continuous injection.  zmin r, zmax r: edges of the local grid of rank r. *)
Definition exchange_particles (b : zbound) (size : Z) (n_guard : Z) (dz Ltot : R)
           (zmin zmax : Z -> R) (inj : option buf) (S : Z -> species) (r : Z) : species :=
  let left := left_proc b r size in
  let right := right_proc b r size in
  let out q := remove_particles_cpu (S q) (zmin q) (zmax q) dz n_guard
                 (left_proc b q size) (right_proc b q size) in
  let stay := fst (fst (out r)) in
  let recv_left := match left with
                   | Some l => snd (out l) | None => empty_buffer (S r) end in
  let recv_right := match right with
                    | Some q => snd (fst (out q)) | None => empty_buffer (S r) end in
  let recv_right := match inj with
                    | Some nw => if r =? size - 1 then nw else recv_right
                    | None => recv_right end in
  let recv_right := match right with
                    | Some q => if q =? 0 then shift_z Ltot recv_right else recv_right
                    | None => recv_right end in
  let recv_left := match left with
                   | Some l => if l =? size - 1 then shift_z (- Ltot) recv_left else recv_left
                   | None => recv_left end in
  add_buffers_cpu stay recv_left recv_right.
