(** Model of the guard-cell exchange of fields:
    /repo/fbpic/boundaries/boundary_communicator.py:556-671 (exchange_fields) and
    /repo/fbpic/boundaries/field_buffer_handling.py:114-502 (CPU branches).

    A vector field with PML has k = 5 components per mode, a plain vector field k = 3
    and a scalar field k = 1.  A grid is a function of (mode m, component comp, row iz);
    the element type A stands for one row: the radial index is carried along
    unchanged by every copy below (simplification). *)
From Verif Require Import Base Decomp_Model.
Open Scope Z_scope.

Section Guard.
  Context {A : Type} (plus : A -> A -> A).

  Definition grid := Z -> Z -> Z -> A.          (* m, component, iz *)
  Definition buffer := Z -> Z -> A.             (* packed index k*m+comp, row *)

  Inductive method := Replace | Add.

  (** field_buffer_handling.py:180-185 and 408-413 (nz_start, nz_end). *)
  Definition nz_start (me : method) (ng : Z) : Z := match me with Replace => ng | Add => 0 end.
  Definition nz_end (me : method) (ng : Z) : Z := 2 * ng.

  (** field_buffer_handling.py:268-301, 468-480 (before_sending, CPU):
      send[k*m+comp,:,:] = grid_comp[m][a:b,:].  The packed index b is read back as
      (b / k, b mod k). *)
  Definition pack (k : Z) (g : grid) (first : Z) : buffer :=
    fun b iz => g (b / k) (b mod k) (first + iz).
  Definition send_l (me : method) (k ng : Z) (g : grid) : buffer :=
    pack k g (nz_start me ng).
  Definition send_r (me : method) (k ng Nz : Z) (g : grid) : buffer :=
    pack k g (Nz - nz_end me ng).

  (** field_buffer_handling.py:303-348, 482-502 (after_receiving, CPU).
      [None] for a side whose neighbour is None (copy_left/copy_right false). *)
  Definition recv_left (me : method) (k ng : Z) (buf : option buffer) (g : grid) : grid :=
    match buf with
    | None => g
    | Some rb => fun m comp iz =>
        let n := nz_end me ng - nz_start me ng in
        if (0 <=? iz) && (iz <? n) then
          match me with
          | Replace => rb (k * m + comp) iz
          | Add => plus (g m comp iz) (rb (k * m + comp) iz)
          end
        else g m comp iz
    end.
  (** numpy slice [-n:] of an axis of length Nz, for n > 0 *)
  Definition recv_right (me : method) (k ng Nz : Z) (buf : option buffer) (g : grid) : grid :=
    match buf with
    | None => g
    | Some rb => fun m comp iz =>
        let n := nz_end me ng - nz_start me ng in
        if (Nz - n <=? iz) && (iz <? Nz) then
          match me with
          | Replace => rb (k * m + comp) (iz - (Nz - n))
          | Add => plus (g m comp iz) (rb (k * m + comp) (iz - (Nz - n)))
          end
        else g m comp iz
    end.

  (** boundary_communicator.py:556-671 exchange_fields, run by all the ranks.
      [left r], [right r] are the neighbours, [Nz r] the local number of rows.
      The MPI exchange (exchange_domains) hands to rank r what its left neighbour put in
      its right send buffer and what its right neighbour put in its left one (proved
      of the message-passing model in Mpi_Props). *)
  Definition exchange_fields (size : Z) (left right : Z -> option Z) (me : method)
             (k ng : Z) (Nz : Z -> Z) (G : Z -> grid) : Z -> grid :=
    if size =? 1 then G
    else fun r =>
      let rl := match left r with
                | None => None
                | Some l => Some (send_r me k ng (Nz l) (G l)) end in
      let rr := match right r with
                | None => None
                | Some s => Some (send_l me k ng (G s)) end in
      recv_right me k ng (Nz r) rr (recv_left me k ng rl (G r)).
End Guard.

(** The communicators of all the ranks of one simulation: same arguments, own rank
    (boundary_communicator.py:200-222). *)
Definition with_rank (b : zbound) (c : comm) (r : Z) : comm :=
  {| c_rank := r; c_size := c_size c;
     c_left := left_proc b r (c_size c); c_right := right_proc b r (c_size c);
     c_Nz := c_Nz c; c_zmin := c_zmin c; c_dz := c_dz c; c_nguard := c_nguard c;
     c_nzdamp := c_nzdamp c; c_ninject := c_ninject c; c_period := c_period c |}.
