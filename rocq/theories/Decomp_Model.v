(** Model of the domain decomposition of
    /repo/fbpic/boundaries/boundary_communicator.py. *)
From Verif Require Import Base.
From Coq Require Import Reals.
From Flocq Require Import Core.Raux.
Open Scope Z_scope.

(** Longitudinal boundary kinds (boundary_communicator.py:187-190; other strings
    raise ValueError there and are not represented). *)
Inductive zbound := Periodic | Open.

(** The attributes of BoundaryCommunicator used here (boundary_communicator.py:154-304).
    Simplified: the radial attributes, the MPI communicator object and the
    damping arrays are not part of this record. *)
Record comm := mkComm {
  c_rank : Z; c_size : Z;
  c_left : option Z; c_right : option Z;     (* left_proc, right_proc *)
  c_Nz : Z;                                   (* _Nz_global_domain *)
  c_zmin : R;                                 (* _zmin_global_domain *)
  c_dz : R;
  c_nguard : Z; c_nzdamp : Z; c_ninject : Z;
  c_period : Z                                (* exchange_period *)
}.

(** boundary_communicator.py:207-208, 211-222: ranks of the neighbours. *)
Definition left_proc (b : zbound) (rank size : Z) : option Z :=
  match b with
  | Periodic => if rank =? 0 then Some (size - 1) else Some (rank - 1)
  | Open => if rank =? 0 then None else Some (rank - 1)
  end.
Definition right_proc (b : zbound) (rank size : Z) : option Z :=
  match b with
  | Periodic => if rank =? size - 1 then Some 0 else Some (rank + 1)
  | Open => if rank =? size - 1 then None else Some (rank + 1)
  end.

(** boundary_communicator.py:227-256: number of guard cells.
    [stencil] is the value returned by get_stencil_reach (an oracle here). *)
Definition init_nguard (b : zbound) (size n_order : Z) (n_guard : option Z)
           (stencil : Z) : res Z :=
  bind (match n_guard with
        | None =>
            if n_order =? -1
            then (if negb (size =? 1) then Err ValueError else Ok 64)
            else Ok (stencil + 1)
        | Some g => Ok g
        end)
       (fun g => match b with
                 | Periodic => if size =? 1 then Ok 0 else Ok g
                 | Open => Ok g
                 end).

(** boundary_communicator.py:259-272. [int(n_guard/2)] is [Z.quot]
    (exactness of the double-precision quotient: see Decomp_Proofs). *)
Definition init_nzdamp (b : zbound) (n_damp_z : Z) : Z :=
  match b with Periodic => 0 | Open => n_damp_z end.
Definition init_ninject (b : zbound) (n_guard : Z) (n_inject : option Z) : Z :=
  match b with
  | Periodic => 0
  | Open => match n_inject with None => Z.quot n_guard 2 | Some k => k end
  end.

(** boundary_communicator.py:281-304: exchange period, over the reals.
    [cdt] stands for [c*dt]. *)
Definition init_period (b : zbound) (size n_guard : Z) (cdt dz : R)
           (exchange_period : option Z) : res Z :=
  match exchange_period with
  | Some p => Ok p
  | None =>
      let cells_per_step := (2 * cdt / dz)%R in
      let p := Ztrunc (((IZR n_guard / 2) - 3) / cells_per_step)%R in
      let p := match b with Periodic => if size =? 1 then 1 else p | Open => p end in
      if p <? 1 then Err ValueError else Ok p
  end.

(** boundary_communicator.py:51-304 (the part that determines the decomposition).
    Simplified: [boundaries] already validated, radial arguments and GPU
    buffers dropped. *)
Definition init (Nz : Z) (zmin zmax : R) (b : zbound) (rank size n_order : Z)
           (n_guard : option Z) (stencil : Z) (n_damp_z : Z) (n_inject : option Z)
           (cdt : R) (exchange_period : option Z) : res comm :=
  let dz := ((zmax - zmin) / IZR Nz)%R in
  bind (init_nguard b size n_order n_guard stencil) (fun g =>
  bind (init_period b size g cdt dz exchange_period) (fun p =>
  Ok {| c_rank := rank; c_size := size;
        c_left := left_proc b rank size; c_right := right_proc b rank size;
        c_Nz := Nz; c_zmin := zmin; c_dz := dz;
        c_nguard := g; c_nzdamp := init_nzdamp b n_damp_z;
        c_ninject := init_ninject b g n_inject;
        c_period := p |})).

(** boundary_communicator.py:399-473 get_Nz_and_iz. [int(Nz/size)] is [Z.quot];
    [%] on non-negative operands is [Z.modulo]. *)
Definition get_Nz_and_iz (c : comm) (local with_damp with_guard : bool)
           (rank : option Z) : res (Z * Z) :=
  if local then
    match rank with
    | None => Err ValueError
    | Some rank =>
        let Nz_per_proc := Z.quot (c_Nz c) (c_size c) in
        let Nz := Nz_per_proc in
        let iz := rank * Nz_per_proc in
        let Nz := if rank =? c_size c - 1 then Nz + (c_Nz c) mod (c_size c) else Nz in
        let d := c_nzdamp c + c_ninject c in
        let '(Nz, iz) :=
          if with_damp then
            let '(Nz, iz) := if rank =? 0 then (Nz + d, iz - d) else (Nz, iz) in
            let Nz := if rank =? c_size c - 1 then Nz + d else Nz in
            (Nz, iz)
          else (Nz, iz) in
        let '(Nz, iz) :=
          if with_guard then (Nz + 2 * c_nguard c, iz - c_nguard c) else (Nz, iz) in
        Ok (Nz, iz)
    end
  else
    let Nz := c_Nz c in
    let iz := 0 in
    let d := c_nzdamp c + c_ninject c in
    let '(Nz, iz) := if with_damp then (Nz + 2 * d, iz - d) else (Nz, iz) in
    let '(Nz, iz) :=
      if with_guard then (Nz + 2 * c_nguard c, iz - c_nguard c) else (Nz, iz) in
    Ok (Nz, iz).

(** boundary_communicator.py:476-512 get_zmin_zmax (real arithmetic). *)
Definition get_zmin_zmax (c : comm) (local with_damp with_guard : bool)
           (rank : option Z) : res (R * R) :=
  bind (get_Nz_and_iz c local with_damp with_guard rank) (fun '(Nz, iz_start) =>
    let zmin := (c_zmin c + IZR iz_start * c_dz c)%R in
    let zmax := (zmin + IZR Nz * c_dz c)%R in
    Ok (zmin, zmax)).

(** boundary_communicator.py:338-369 divide_into_domain. *)
Definition divide_into_domain (c : comm) : res (R * R * Z) :=
  bind (get_zmin_zmax c true true true (Some (c_rank c))) (fun '(zmin, zmax) =>
  bind (get_Nz_and_iz c true true true (Some (c_rank c))) (fun '(Nz_enlarged, _) =>
    if Nz_enlarged <? 4 * c_nguard c then Err ValueError
    else Ok (zmin, zmax, Nz_enlarged))).

(** boundary_communicator.py:515-525 shift_global_domain_positions. *)
Definition shift_global_domain_positions (c : comm) (z_shift : R) : comm :=
  {| c_rank := c_rank c; c_size := c_size c; c_left := c_left c; c_right := c_right c;
     c_Nz := c_Nz c; c_zmin := (c_zmin c + z_shift)%R; c_dz := c_dz c;
     c_nguard := c_nguard c; c_nzdamp := c_nzdamp c; c_ninject := c_ninject c;
     c_period := c_period c |}.

(** 2D arrays are functions (row iz, column ir); rows/columns outside the shape are
    irrelevant.  MPI Gatherv/Scatterv act on the row-major flattening, with counts
    and displacements in elements, exactly as passed at
    boundary_communicator.py:1058-1066 and 1115-1123. *)
Section GatherScatter.
  Context {A : Type} (zero : A).
  Definition array2 := Z -> Z -> A.
  (** element [f] of the row-major flattening of an array with [Nr] columns *)
  Definition flat (Nr : Z) (a : array2) (f : Z) : A := a (f / Nr) (f mod Nr).
  Definition unflat (Nr : Z) (b : Z -> A) : array2 := fun iz ir => b (iz * Nr + ir).

  (** MPI_Gatherv: for every rank k, elements [0,count k) of its send buffer are
      written at displacement [displ k] of the receive buffer (in rank order;
      MPI forbids overlap, which [gatherv] does not assume). *)
  Definition gatherv (recv : Z -> A) (parts : list (Z * Z * (Z -> A))) : Z -> A :=
    fold_left (fun buf '(displ, count, data) =>
                 fun f => if (displ <=? f) && (f <? displ + count)
                          then data (f - displ) else buf f) parts recv.

  (** boundary_communicator.py:1044-1051: the part of the local (enlarged) array that is sent,
      as an array of shape (Nz_local, Nr). *)
  Definition local_part (c : comm) (with_damp : bool) (k : Z) (arr : array2) : res array2 :=
    bind (get_Nz_and_iz c true with_damp false (Some k)) (fun '(_, iz_start_local_domain) =>
    bind (get_Nz_and_iz c true true true (Some k)) (fun '(_, iz_start_local_array) =>
      let iz_in_array := iz_start_local_domain - iz_start_local_array in
      Ok (fun iz ir => arr (iz_in_array + iz) ir))).

  Fixpoint mapM {X Y} (f : X -> res Y) (l : list X) : res (list Y) :=
    match l with
    | [] => Ok []
    | x :: t => bind (f x) (fun y => bind (mapM f t) (fun ys => Ok (y :: ys)))
    end.

  (** boundary_communicator.py:1011-1072 gather_grid_array on the root rank, given the
      local arrays [arrs k] of all the ranks (both the [size > 1] and the
      [size = 1] branch).  [Nr] is get_Nr(with_damp). *)
  Definition gather_grid_array (c : comm) (Nr : Z) (with_damp : bool)
             (arrs : Z -> array2) : res array2 :=
    bind (get_Nz_and_iz c false with_damp false None) (fun '(_, iz_start_global) =>
    if 1 <? c_size c then
      bind (mapM (fun k =>
              bind (get_Nz_and_iz c true with_damp false (Some k)) (fun '(Nz, iz) =>
              bind (local_part c with_damp k (arrs k)) (fun loc =>
                Ok (Nr * (iz - iz_start_global), Nr * Nz, flat Nr loc))))
            (range (c_size c)))
           (fun parts => Ok (unflat Nr (gatherv (fun _ => zero) parts)))
    else local_part c with_damp (c_rank c) (arrs (c_rank c))).

  (** boundary_communicator.py:1075-1129 scatter_grid_array as seen by rank [k]
      ([arr] is the root's array; the shape assertion 1103-1105 is a
      precondition on its type and not modelled). *)
  Definition scatter_grid_array (c : comm) (Nr : Z) (with_damp : bool) (k : Z)
             (arr : array2) : res array2 :=
    bind (get_Nz_and_iz c false with_damp false None) (fun '(_, iz_start_global) =>
    bind (get_Nz_and_iz c true with_damp false (Some k)) (fun '(_, iz) =>
    if 1 <? c_size c then
      let displ := Nr * (iz - iz_start_global) in
      Ok (unflat Nr (fun f => flat Nr arr (displ + f)))
    else
      let iz_in_array := iz - iz_start_global in
      Ok (fun i ir => arr (iz_in_array + i) ir))).
End GatherScatter.

(** Precondition on the communicator, established by [init] for physically meaningful
    arguments (lemma init_valid in Decomp_Proofs). *)
Definition valid_comm (c : comm) : Prop :=
  1 <= c_size c /\ 0 <= c_rank c < c_size c /\ 0 <= c_Nz c /\
  0 <= c_nguard c /\ 0 <= c_nzdamp c /\ 0 <= c_ninject c.
