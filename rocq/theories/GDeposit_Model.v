(** Charge and current deposition on GPU: particles/deposition/cuda_methods.py (two modes),
    cuda_methods_one_mode.py (any other number of modes), particles/particles.py:deposit (GPU branch),
    main.py:deposit. Exact arithmetic; sorting: Sort_Model; CPU counterpart: Deposit_Model.
    The 8 kernels have one text up to the number of points of the shape, the component and the
    mode (the 4 or 16 registers of a component are written out one by one in the source). *)
From Coq Require Import Reals.
From Flocq Require Import Core.Core.
From Coquelicot Require Import Complex.
From Verif Require Import Base Decomp_Proofs Chunk_Model Shape_Model Sort_Model Deposit_Model.
Open Scope Z_scope.

(** np.int32(...) (cuda_methods.py:94-100): two's complement. *)
Definition int32 (x : Z) : Z := (x + 2 ^ 31) mod 2 ^ 32 - 2 ^ 31.

(** The part of an InterpolationGrid that the sorting reads (Sort_Model). *)
Definition sgrid_of (g : grid) : sgrid :=
  {| Sort_Model.g_zmin := g_zmin g; Sort_Model.g_dz := g_dz g; Sort_Model.g_Nz := g_Nz g;
     Sort_Model.g_dr := g_dr g; Sort_Model.g_Nr := g_Nr g |}.

(** The grids of the modes differ by their cell volumes (interpolation_grid.py:83-97). *)
Definition mode_grid (g : grid) (vol : nat -> Z -> R) (m : nat) : grid :=
  {| g_dz := g_dz g; g_zmin := g_zmin g; g_Nz := g_Nz g; g_dr := g_dr g; g_Nr := g_Nr g;
     g_vol := vol m; g_beta := g_beta g |}.

(** A species on GPU (particles.py:151-250): charge, flags, shape, the [sorted] flag and the
    device arrays. *)
Record gsp := { gs_q : R; gs_tracer : bool; gs_ionizable : bool; gs_shape : shape;
                gs_sorted : bool; gs_arr : gspecies }.

(** particles.py:518-525: order of the float attributes after x, y, z: ux, uy, uz, w, inv_gamma,
    (Ex .. Bz), and last w_times_level for an ionizable species. [gptcl_at]: particle [i]. *)
Definition attr (k : nat) (s : gspecies) (i : Z) : R := nth k (s_fl s) (fun _ => 0%R) i.
Definition gptcl_at (ionizable : bool) (s : gspecies) (i : Z) : ptcl :=
  {| p_x := s_x s i; p_y := s_y s i; p_z := s_z s i;
     p_ux := attr 0 s i; p_uy := attr 1 s i; p_uz := attr 2 s i; p_ig := attr 4 s i; p_w := attr 3 s i;
     p_wl := if ionizable then last (s_fl s) (fun _ => 0%R) i else 0%R |}.

Section Light.
Context (c : R).   (* speed of light *)

(** The flip argument of Sr_*. Two modes: the literals of cuda_methods.py:158-165 (rho), 378-404
    (J), 634-668, 1008-1114; otherwise f = (-1)**m and -f, cuda_methods_one_mode.py:113, 157-160. *)
Definition gpu_flip (Nm : nat) (k : comp) (m : nat) : R :=
  match Nm with
  | 2%nat =>
    match k, m with
    | Rho, O | Jz, O => 1
    | Rho, _ | Jz, _ => -1
    | Jr, O | Jt, O => -1
    | Jr, _ | Jt, _ => 1
    end
  | _ => let f := ((-1) ^ m)%R in match k with Rho | Jz => f | Jr | Jt => - f end
  end%R.
(** cuda_methods_one_mode.py:138-141: the loop over the modes. *)
Fixpoint exptheta (p : ptcl) (m : nat) : C :=
  match m with O => RtoC 1 | S m' => Cmult (exptheta p m') (cos_j p, sin_j p) end.
(** cuda_methods.py:153-156 and 368-376; cuda_methods_one_mode.py:156, 348-350. The factor before
    exptheta is [scal0] (cuda_methods.py:126-141: same conversion as threading_methods.py). *)
Definition gpu_scal (Nm : nat) (k : comp) (wj : R) (p : ptcl) (m : nat) : C :=
  match Nm with
  | 2%nat => match m with
             | O => RtoC (scal0 c k wj p * 1)
             | _ => Cmult (RtoC (scal0 c k wj p)) (cos_j p, sin_j p)
             end
  | _ => Cmult (RtoC (scal0 c k wj p)) (exptheta p m)
  end.

(** cuda_methods.py:102-165 (and the other kernels): register [a b] (a: radial point, b:
    longitudinal point) after the loop over the particles of the cell. beta_n is the array of the
    grid of mode m (particles.py:893-980). *)
Definition register (g : grid) (Nm : nat) (sh : shape) (k : comp) (m : nat) (q : R) (ionizable : bool)
  (s : gspecies) (incl_offset frequency_per_cell a b : Z) : C :=
  fold_left (fun acc j =>
    let p := gptcl_at ionizable s (incl_offset - 1 - j) in
    let ir := Z.min (Zceil (r_cell g p)) (g_Nr g) in
    let bn := g_beta g sh m ir in
    Cplus acc (Cmult (RtoC (Sr sh (r_cell g p) a (gpu_flip Nm k m) bn * Sz sh (z_cell g p) b)%R)
                     (gpu_scal Nm k (q * eff_weight ionizable p)%R p m)))
  (range frequency_per_cell) (RtoC 0).

(** cuda_methods.py:167-171 (linear), 671-680 (cubic): longitudinal index of point [b]. *)
Definition gpu_iz (sh : shape) (Nz iz_upper b : Z) : Z :=
  match sh with
  | Linear => if b =? 0 then (if iz_upper - 1 <? 0 then iz_upper - 1 + Nz else iz_upper - 1) else iz_upper
  | Cubic =>
    if b =? 0 then (if iz_upper - 2 <? 0 then iz_upper - 2 + Nz else iz_upper - 2)
    else if b =? 1 then (if iz_upper - 1 <? 0 then iz_upper - 1 + Nz else iz_upper - 1)
    else if b =? 2 then iz_upper
    else (if iz_upper + 1 >? Nz - 1 then iz_upper + 1 - Nz else iz_upper + 1)
  end.
(** cuda_methods.py:173-177 (linear), 682-691 (cubic): radial index of point [a]. *)
Definition gpu_ir (sh : shape) (Nr ir_upper a : Z) : Z :=
  match sh with
  | Linear => if a =? 0 then (if ir_upper - 1 <? 0 then - (1 + (ir_upper - 1)) else ir_upper - 1)
              else Z.min ir_upper (Nr - 1)
  | Cubic =>
    if a =? 0 then (if ir_upper - 2 <? 0 then - (1 + (ir_upper - 2)) else ir_upper - 2)
    else if a =? 1 then (let ir1 := Z.min (ir_upper - 1) (Nr - 1) in if ir1 <? 0 then - (1 + ir1) else ir1)
    else if a =? 2 then Z.min ir_upper (Nr - 1)
    else Z.min (ir_upper + 1) (Nr - 1)
  end.

(** cuda_methods.py:83-193 (and the other kernels): the atomic additions made by thread [i] to the
    array of component k, mode m. The real and the imaginary parts are added by separate atomic
    operations; for mode 0 only the real part (lines 181-193; one_mode: if m > 0). *)
Definition deposit_thread (g : grid) (Nm : nat) (sh : shape) (k : comp) (m : nat) (q : R) (ionizable : bool)
  (s : gspecies) (i : Z) : list ((Z * Z) * C) :=
  if i <? g_Nz g * (g_Nr g + 1) then
    let iz_upper := Ztrunc (rnd64 (IZR i / IZR (g_Nr g + 1))) in
    let ir_upper := i - iz_upper * (g_Nr g + 1) in
    let incl_offset := int32 (s_prefix s i) in
    let frequency_per_cell := if i =? 0 then int32 incl_offset else int32 (incl_offset - s_prefix s (i - 1)) in
    if frequency_per_cell >? 0 then
      flat_map (fun b => flat_map (fun a =>
        let at_ := (gpu_iz sh (g_Nz g) iz_upper b, gpu_ir sh (g_Nr g) ir_upper a) in
        let v := register g Nm sh k m q ionizable s incl_offset frequency_per_cell a b in
        (at_, RtoC (fst v)) :: match m with O => [] | S _ => [(at_, (0, snd v)%R)] end)
      (range (npts sh))) (range (npts sh))
    else []
  else [].

(** particles.py:243-250: threads per block; [v100]: the model of GPU. *)
Definition deposit_tpb (v100 : bool) (sh : shape) : Z :=
  match sh with Cubic => 32 | Linear => if v100 then 16 else 8 end.

(** A launch of the kernel: the atomic additions of all the threads, in any order. *)
Definition atomic_launch (n tpb : Z) (body : Z -> list ((Z * Z) * C)) (A A' : Z -> Z -> C) : Prop :=
  exists ws, Permutation ws (flat_map body (threads_1d (cuda_tpb_bpg_1d n tpb))) /\
             A' = fold_left add_at ws A.

(** fieldtype 'rho' or 'J' (particles.py:862). *)
Inductive fieldtype := FRho | FJ.
Definition deposited (ft : fieldtype) (k : comp) : bool :=
  match ft, k with FRho, Rho => true | FRho, _ => false | FJ, Rho => false | FJ, _ => true end.

(** particles.py:839-980 Particles.deposit, GPU branch: one possible execution, on the arrays [A] of
    all the components and modes. *)
Definition gpu_species_deposit (v100 : bool) (g : grid) (Nm : nat) (ft : fieldtype) (sp sp' : gsp)
  (A A' : comp -> nat -> Z -> Z -> C) : Prop :=
  if Req_EM_T (gs_q sp) 0 then sp' = sp /\ A' = A else
  gs_q sp' = gs_q sp /\ gs_tracer sp' = gs_tracer sp /\ gs_ionizable sp' = gs_ionizable sp /\
  gs_shape sp' = gs_shape sp /\ gs_sorted sp' = true /\
  (if gs_sorted sp then gs_arr sp' = gs_arr sp else sort_particles (sgrid_of g) (gs_arr sp) (gs_arr sp')) /\
  forall k m, (m < Nm)%nat ->
    if deposited ft k then
     atomic_launch (g_Nz g * (g_Nr g + 1)) (deposit_tpb v100 (gs_shape sp))
       (deposit_thread g Nm (gs_shape sp) k m (gs_q sp) (gs_ionizable sp) (gs_arr sp'))
       (A k m) (A' k m)
    else A' k m = A k m.

(** main.py:619-655: the loop over the species. *)
Inductive gpu_species_loop (v100 : bool) (g : grid) (Nm : nat) (ft : fieldtype) :
  list gsp -> list gsp -> (comp -> nat -> Z -> Z -> C) -> (comp -> nat -> Z -> Z -> C) -> Prop :=
| gsl_nil A : gpu_species_loop v100 g Nm ft [] [] A A
| gsl_cons sp sp' l l' A A1 A' :
    gpu_species_deposit v100 g Nm ft sp sp' A A1 -> gpu_species_loop v100 g Nm ft l l' A1 A' ->
    gpu_species_loop v100 g Nm ft (sp :: l) (sp' :: l') A A'.

(** main.py:588-655 on GPU, single rank, species_list=None, without antennas, up to the division
    by the volume (interpolation_grid.py:271-306; sum_reduce_deposition_array does nothing on GPU,
    fields.py:579-581). Components that are not deposited are left as they are. *)
Definition gpu_deposit (v100 : bool) (g : grid) (vol : nat -> Z -> R) (Nm : nat) (ft : fieldtype) (l l' : list gsp)
  (A A' : comp -> nat -> Z -> Z -> C) : Prop :=
  exists A1,
    gpu_species_loop v100 g Nm ft (filter (fun s => negb (gs_tracer s)) l) l'
      (fun k m => if deposited ft k
                  then zero2 else A k m) A1 /\
    forall k m, (m < Nm)%nat -> A' k m =
      if deposited ft k
      then divide_by_volume (mode_grid g vol m) (A1 k m) else A1 k m.
End Light.

(** boundaries/moving_window.py:102-117 move_grids: what a shift by [n_move] cells does to the grids
    and to a species on GPU (its [sorted] flag and its prefix sum are kept). *)
Definition grid_moved (n_move : Z) (g : grid) : grid :=
  {| g_dz := g_dz g; g_zmin := g_zmin g + IZR n_move * g_dz g; g_Nz := g_Nz g; g_dr := g_dr g; g_Nr := g_Nr g;
     g_vol := g_vol g; g_beta := g_beta g |}.
Definition species_window_moved (n_move : Z) (sp : gsp) : gsp :=
  {| gs_q := gs_q sp; gs_tracer := gs_tracer sp; gs_ionizable := gs_ionizable sp; gs_shape := gs_shape sp;
     gs_sorted := gs_sorted sp; gs_arr := grids_moved n_move (gs_arr sp) |}.
