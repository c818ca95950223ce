(** Guard-cell exchange of the fields on the GPU: boundaries/cuda_methods.py:11-482 (kernels) and the GPU branches of
    boundaries/field_buffer_handling.py:114-502. The thread (iz, ir) of each kernel is written as its sequence of reads and
    writes (Cuda_Model). *)
From Verif Require Import Base Decomp_Model Guard_Model Cuda_Model.
Open Scope Z_scope.

(** An array element: the four GPU buffers d_send_l, ... of one exchange type (field_buffer_handling.py:103-112, first index
    = packed component), the four CPU buffers send_l, ... (lines 82-101), and the field arrays (on the GPU if the simulation
    runs on the GPU, on the CPU otherwise), where [comp] numbers the arrays passed to the kernel: grid_r, grid_t, grid_z,
    pml_r, pml_t (for a scalar: the only one). *)
Inductive gloc :=
| SendL (b iz ir : Z) | SendR (b iz ir : Z) | RecvL (b iz ir : Z) | RecvR (b iz ir : Z)
| HSendL (b iz ir : Z) | HSendR (b iz ir : Z) | HRecvL (b iz ir : Z) | HRecvR (b iz ir : Z)
| Grd (m comp iz ir : Z).
Definition gloc_dec (a b : gloc) : {a = b} + {a <> b}.
Proof. decide equality; apply Z.eq_dec. Defined.

Section GGuard.
  Context {A : Type} (plus : A -> A -> A).
  Notation prog := (prog gloc A).

  (** dst = src, followed by [p] *)
  Definition mov (dst src : gloc) (p : prog) : prog := Load src (fun v => Store dst v p).
  (** dst += src, followed by [p] *)
  Definition addto (dst src : gloc) (p : prog) : prog := Load dst (fun a => Load src (fun v => Store dst (plus a v) p)).

  (** cuda_methods.py:11-70 copy_vec_to_gpu_buffer *)
  Definition copy_vec_to_gpu_buffer (Nz Nr m : Z) (copy_left copy_right : bool) (nz_start nz_end : Z) (iz ir : Z) : prog :=
    if ir <? Nr then if iz <? nz_end - nz_start then
      (fun rest => if copy_left then let iz_left := nz_start + iz in
          mov (SendL (3*m+0) iz ir) (Grd m 0 iz_left ir) (
          mov (SendL (3*m+1) iz ir) (Grd m 1 iz_left ir) (
          mov (SendL (3*m+2) iz ir) (Grd m 2 iz_left ir) rest)) else rest)
      (if copy_right then let iz_right := Nz - nz_end + iz in
          mov (SendR (3*m+0) iz ir) (Grd m 0 iz_right ir) (
          mov (SendR (3*m+1) iz ir) (Grd m 1 iz_right ir) (
          mov (SendR (3*m+2) iz ir) (Grd m 2 iz_right ir) Done)) else Done)
    else Done else Done.
  (** cuda_methods.py:72-139 copy_pml_to_gpu_buffer *)
  Definition copy_pml_to_gpu_buffer (Nz Nr m : Z) (copy_left copy_right : bool) (nz_start nz_end : Z) (iz ir : Z) : prog :=
    if ir <? Nr then if iz <? nz_end - nz_start then
      (fun rest => if copy_left then let iz_left := nz_start + iz in
          mov (SendL (5*m+0) iz ir) (Grd m 0 iz_left ir) (
          mov (SendL (5*m+1) iz ir) (Grd m 1 iz_left ir) (
          mov (SendL (5*m+2) iz ir) (Grd m 2 iz_left ir) (
          mov (SendL (5*m+3) iz ir) (Grd m 3 iz_left ir) (
          mov (SendL (5*m+4) iz ir) (Grd m 4 iz_left ir) rest)))) else rest)
      (if copy_right then let iz_right := Nz - nz_end + iz in
          mov (SendR (5*m+0) iz ir) (Grd m 0 iz_right ir) (
          mov (SendR (5*m+1) iz ir) (Grd m 1 iz_right ir) (
          mov (SendR (5*m+2) iz ir) (Grd m 2 iz_right ir) (
          mov (SendR (5*m+3) iz ir) (Grd m 3 iz_right ir) (
          mov (SendR (5*m+4) iz ir) (Grd m 4 iz_right ir) Done)))) else Done)
    else Done else Done.
  (** cuda_methods.py:141-194 copy_scal_to_gpu_buffer *)
  Definition copy_scal_to_gpu_buffer (Nz Nr m : Z) (copy_left copy_right : bool) (nz_start nz_end : Z) (iz ir : Z) : prog :=
    if ir <? Nr then if iz <? nz_end - nz_start then
      (fun rest => if copy_left then let iz_left := nz_start + iz in
          mov (SendL m iz ir) (Grd m 0 iz_left ir) rest else rest)
      (if copy_right then let iz_right := Nz - nz_end + iz in
          mov (SendR m iz ir) (Grd m 0 iz_right ir) Done else Done)
    else Done else Done.
  (** cuda_methods.py:196-252 replace_vec_from_gpu_buffer *)
  Definition replace_vec_from_gpu_buffer (Nz Nr m : Z) (copy_left copy_right : bool) (nz_start nz_end : Z) (iz ir : Z) : prog :=
    if ir <? Nr then if iz <? nz_end - nz_start then
      (fun rest => if copy_left then let iz_left := iz in
          mov (Grd m 0 iz_left ir) (RecvL (3*m+0) iz ir) (
          mov (Grd m 1 iz_left ir) (RecvL (3*m+1) iz ir) (
          mov (Grd m 2 iz_left ir) (RecvL (3*m+2) iz ir) rest)) else rest)
      (if copy_right then let iz_right := Nz - (nz_end - nz_start) + iz in
          mov (Grd m 0 iz_right ir) (RecvR (3*m+0) iz ir) (
          mov (Grd m 1 iz_right ir) (RecvR (3*m+1) iz ir) (
          mov (Grd m 2 iz_right ir) (RecvR (3*m+2) iz ir) Done)) else Done)
    else Done else Done.
  (** cuda_methods.py:254-318 replace_pml_from_gpu_buffer *)
  Definition replace_pml_from_gpu_buffer (Nz Nr m : Z) (copy_left copy_right : bool) (nz_start nz_end : Z) (iz ir : Z) : prog :=
    if ir <? Nr then if iz <? nz_end - nz_start then
      (fun rest => if copy_left then let iz_left := iz in
          mov (Grd m 0 iz_left ir) (RecvL (5*m+0) iz ir) (
          mov (Grd m 1 iz_left ir) (RecvL (5*m+1) iz ir) (
          mov (Grd m 2 iz_left ir) (RecvL (5*m+2) iz ir) (
          mov (Grd m 3 iz_left ir) (RecvL (5*m+3) iz ir) (
          mov (Grd m 4 iz_left ir) (RecvL (5*m+4) iz ir) rest)))) else rest)
      (if copy_right then let iz_right := Nz - (nz_end - nz_start) + iz in
          mov (Grd m 0 iz_right ir) (RecvR (5*m+0) iz ir) (
          mov (Grd m 1 iz_right ir) (RecvR (5*m+1) iz ir) (
          mov (Grd m 2 iz_right ir) (RecvR (5*m+2) iz ir) (
          mov (Grd m 3 iz_right ir) (RecvR (5*m+3) iz ir) (
          mov (Grd m 4 iz_right ir) (RecvR (5*m+4) iz ir) Done)))) else Done)
    else Done else Done.
  (** cuda_methods.py:320-371 replace_scal_from_gpu_buffer *)
  Definition replace_scal_from_gpu_buffer (Nz Nr m : Z) (copy_left copy_right : bool) (nz_start nz_end : Z) (iz ir : Z) : prog :=
    if ir <? Nr then if iz <? nz_end - nz_start then
      (fun rest => if copy_left then let iz_left := iz in
          mov (Grd m 0 iz_left ir) (RecvL m iz ir) rest else rest)
      (if copy_right then let iz_right := Nz - (nz_end - nz_start) + iz in
          mov (Grd m 0 iz_right ir) (RecvR m iz ir) Done else Done)
    else Done else Done.
  (** cuda_methods.py:373-429 add_vec_from_gpu_buffer *)
  Definition add_vec_from_gpu_buffer (Nz Nr m : Z) (copy_left copy_right : bool) (nz_start nz_end : Z) (iz ir : Z) : prog :=
    if ir <? Nr then if iz <? nz_end - nz_start then
      (fun rest => if copy_left then let iz_left := iz in
          addto (Grd m 0 iz_left ir) (RecvL (3*m+0) iz ir) (
          addto (Grd m 1 iz_left ir) (RecvL (3*m+1) iz ir) (
          addto (Grd m 2 iz_left ir) (RecvL (3*m+2) iz ir) rest)) else rest)
      (if copy_right then let iz_right := Nz - (nz_end - nz_start) + iz in
          addto (Grd m 0 iz_right ir) (RecvR (3*m+0) iz ir) (
          addto (Grd m 1 iz_right ir) (RecvR (3*m+1) iz ir) (
          addto (Grd m 2 iz_right ir) (RecvR (3*m+2) iz ir) Done)) else Done)
    else Done else Done.
  (** cuda_methods.py:431-482 add_scal_from_gpu_buffer *)
  Definition add_scal_from_gpu_buffer (Nz Nr m : Z) (copy_left copy_right : bool) (nz_start nz_end : Z) (iz ir : Z) : prog :=
    if ir <? Nr then if iz <? nz_end - nz_start then
      (fun rest => if copy_left then let iz_left := iz in
          addto (Grd m 0 iz_left ir) (RecvL m iz ir) rest else rest)
      (if copy_right then let iz_right := Nz - (nz_end - nz_start) + iz in
          addto (Grd m 0 iz_right ir) (RecvR m iz ir) Done else Done)
    else Done else Done.

  (** What is exchanged: boundary_communicator.py:609-671 exchange_fields calls handle_vec_buffer with pml_r = None
      (three components), handle_vec_buffer with the PML arrays (five), or handle_scal_buffer. *)
  Inductive kind := Vec | VecPml | Scal.
  Definition ncomp (k : kind) : Z := match k with Vec => 3 | VecPml => 5 | Scal => 1 end.

  (** field_buffer_handling.py:191-219, 419-436 (use_cuda and before_sending): the launches of the loop over m *)
  Definition gpu_before_sending (k : kind) (me : method) (ng Nz Nr Nm : Z) (copy_left copy_right : bool) : list (list prog) :=
    let nz_start := nz_start me ng in let nz_end := nz_end me ng in
    let dims := cuda_tpb_bpg_2d (nz_end - nz_start) Nr 1 128 in
    map (fun m => launch_2d dims (match k with
      | Vec => copy_vec_to_gpu_buffer Nz Nr m copy_left copy_right nz_start nz_end
      | VecPml => copy_pml_to_gpu_buffer Nz Nr m copy_left copy_right nz_start nz_end
      | Scal => copy_scal_to_gpu_buffer Nz Nr m copy_left copy_right nz_start nz_end end)) (range Nm).
  (** field_buffer_handling.py:221-263, 438-462 (use_cuda and after_receiving). With method 'add' the PML arrays are ignored
      (line 256-263): only E and B have them, and these are exchanged with 'replace' only. *)
  Definition gpu_after_receiving (k : kind) (me : method) (ng Nz Nr Nm : Z) (copy_left copy_right : bool) : list (list prog) :=
    let nz_start := nz_start me ng in let nz_end := nz_end me ng in
    let dims := cuda_tpb_bpg_2d (nz_end - nz_start) Nr 1 128 in
    map (fun m => launch_2d dims (match me, k with
      | Replace, Vec => replace_vec_from_gpu_buffer Nz Nr m copy_left copy_right nz_start nz_end
      | Replace, VecPml => replace_pml_from_gpu_buffer Nz Nr m copy_left copy_right nz_start nz_end
      | Replace, Scal => replace_scal_from_gpu_buffer Nz Nr m copy_left copy_right nz_start nz_end
      | Add, Scal => add_scal_from_gpu_buffer Nz Nr m copy_left copy_right nz_start nz_end
      | Add, _ => add_vec_from_gpu_buffer Nz Nr m copy_left copy_right nz_start nz_end end)) (range Nm).

  (** field_buffer_handling.py:268-301, 468-480 (before_sending, CPU): the packing of Guard_Model, for each radial index *)
  Definition cpu_before_sending (k : kind) (me : method) (ng Nz Nr Nm : Z) (copy_left copy_right : bool) (M : @mem gloc A) : @mem gloc A :=
    let n := nz_end me ng - nz_start me ng in
    let inside := fun b iz ir => (0 <=? b) && (b <? ncomp k * Nm) && (0 <=? iz) && (iz <? n) && (0 <=? ir) && (ir <? Nr) in
    let g := fun ir m comp iz => M (Grd m comp iz ir) in
    fun l => match l with
    | HSendL b iz ir => if copy_left && inside b iz ir then send_l me (ncomp k) ng (g ir) b iz else M l
    | HSendR b iz ir => if copy_right && inside b iz ir then send_r me (ncomp k) ng Nz (g ir) b iz else M l
    | _ => M l
    end.
  (** field_buffer_handling.py:303-348, 482-502 (after_receiving, CPU) *)
  Definition cpu_after_receiving (k : kind) (me : method) (ng Nz Nr Nm : Z) (copy_left copy_right : bool) (M : @mem gloc A) : @mem gloc A :=
    let g := fun ir m comp iz => M (Grd m comp iz ir) in
    fun l => match l with
    | Grd m comp iz ir =>
        if (0 <=? m) && (m <? Nm) && (0 <=? comp) && (comp <? ncomp k) && (0 <=? ir) && (ir <? Nr) then
          recv_right plus me (ncomp k) ng Nz (if copy_right then Some (fun b iz => M (HRecvR b iz ir)) else None)
            (recv_left plus me (ncomp k) ng (if copy_left then Some (fun b iz => M (HRecvL b iz ir)) else None) (g ir)) m comp iz
        else M l
    | _ => M l
    end.
  (** field_buffer_handling.py:210-219, 430-436: [d_send_l.get(out=send_l)], ... (whole arrays) *)
  Definition get_send (copy_left copy_right : bool) (M : @mem gloc A) : @mem gloc A := fun l =>
    match l with
    | HSendL b iz ir => if copy_left then M (SendL b iz ir) else M l
    | HSendR b iz ir => if copy_right then M (SendR b iz ir) else M l
    | _ => M l
    end.
  (** field_buffer_handling.py:221-230, 438-447: [d_recv_l.set(recv_l)], ... *)
  Definition set_recv (copy_left copy_right : bool) (M : @mem gloc A) : @mem gloc A := fun l =>
    match l with
    | RecvL b iz ir => if copy_left then M (HRecvL b iz ir) else M l
    | RecvR b iz ir => if copy_right then M (HRecvR b iz ir) else M l
    | _ => M l
    end.
  (** handle_vec_buffer / handle_scal_buffer with before_sending=True: [M] may become [M']. *)
  Definition before_sending (use_cuda gpudirect : bool) (k : kind) (me : method) (ng Nz Nr Nm : Z) (cl cr : bool) (M M' : @mem gloc A) : Prop :=
    if use_cuda then
      exists M1, stream gloc_dec (gpu_before_sending k me ng Nz Nr Nm cl cr) M M1 /\
                 M' = if gpudirect then M1 else get_send cl cr M1
    else M' = cpu_before_sending k me ng Nz Nr Nm cl cr M.
  (** handle_vec_buffer / handle_scal_buffer with after_receiving=True *)
  Definition after_receiving (use_cuda gpudirect : bool) (k : kind) (me : method) (ng Nz Nr Nm : Z) (cl cr : bool) (M M' : @mem gloc A) : Prop :=
    if use_cuda then
      stream gloc_dec (gpu_after_receiving k me ng Nz Nr Nm cl cr) (if gpudirect then M else set_recv cl cr M) M'
    else M' = cpu_after_receiving k me ng Nz Nr Nm cl cr M.
  (** boundary_communicator.py:644-659: the buffers handed to MPI are the GPU ones if gpudirect_enabled, the CPU ones
      otherwise; exchange_domains (674-707) fills the receive buffers with what the neighbours have in their send buffers
      (proved of the message-passing model in Mpi_Props). A side without neighbour keeps its buffer. *)
  Definition mpi_swap (gpudirect : bool) (left right : Z -> option Z) (M : Z -> @mem gloc A) (r : Z) : @mem gloc A := fun l =>
    match l with
    | RecvL b iz ir => match left r with Some s => if gpudirect then M s (SendR b iz ir) else M r l | None => M r l end
    | RecvR b iz ir => match right r with Some s => if gpudirect then M s (SendL b iz ir) else M r l | None => M r l end
    | HRecvL b iz ir => match left r with Some s => if gpudirect then M r l else M s (HSendR b iz ir) | None => M r l end
    | HRecvR b iz ir => match right r with Some s => if gpudirect then M r l else M s (HSendL b iz ir) | None => M r l end
    | _ => M r l
    end.
  (** boundary_communicator.py:603-671 exchange_fields, run by all the ranks on machines with a GPU (cuda_installed), with
      the flag gpudirect_enabled of utils/mpi.py:25-33 (the environment variable FBPIC_ENABLE_GPUDIRECT): [M r], the memory
      of rank r, may become [M' r]. *)
  Definition any_exchange_fields (use_cuda gpudirect : bool) (size : Z) (left right : Z -> option Z) (k : kind) (me : method)
      (ng : Z) (Nz : Z -> Z) (Nr Nm : Z) (M M' : Z -> @mem gloc A) : Prop :=
    if size =? 1 then M' = M else
    let has := fun o : option Z => match o with Some _ => true | None => false end in
    exists M1,
      (forall r, 0 <= r < size -> before_sending use_cuda gpudirect k me ng (Nz r) Nr Nm (has (left r)) (has (right r)) (M r) (M1 r)) /\
      (forall r, 0 <= r < size -> after_receiving use_cuda gpudirect k me ng (Nz r) Nr Nm (has (left r)) (has (right r))
                                    (mpi_swap gpudirect left right M1 r) (M' r)).
End GGuard.
