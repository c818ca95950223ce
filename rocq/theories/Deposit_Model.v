(** Charge and current deposition on CPU: particles/deposition/threading_methods.py,
    particles/particles.py:deposit, fields/numba_methods.py, fields/fields.py, main.py:deposit.
    Exact (real and complex) arithmetic. Arrays are functions of their indices. *)
From Verif Require Import Base Chunk_Model Shape_Model.
From Coq Require Import Reals.
From Flocq Require Import Core.Core.
From Coquelicot Require Import Complex.
Open Scope Z_scope.

(** interpolation_grid.py:63-148: the attributes used by the deposition.
    [g_vol]: the cell volumes (lines 86-97, standard or modified); [g_beta sh m]: Ruyten
    coefficients ruyten_linear_coef / ruyten_cubic_coef of the grid of mode m, with the added
    first element (lines 135-138). rmin = 0. *)
Record grid := { g_dz : R; g_zmin : R; g_Nz : Z; g_dr : R; g_Nr : Z;
                 g_vol : Z -> R; g_beta : shape -> nat -> Z -> R }.

(** A macroparticle: x, y, z, ux, uy, uz, inv_gamma, w (particles.py:151-163) and, for an
    ionizable species, w_times_level (ionizer.py). *)
Record ptcl := { p_x : R; p_y : R; p_z : R; p_ux : R; p_uy : R; p_uz : R; p_ig : R; p_w : R; p_wl : R }.
Record species := { sp_q : R; sp_tracer : bool; sp_ionizable : bool; sp_shape : shape; sp_ptcl : list ptcl }.

(** The four deposited quantities. *)
Inductive comp := Rho | Jr | Jt | Jz.

Section Light.
Context (c : R).   (* speed of light, scipy.constants *)

(** particles.py:876-879: ionizable species deposit w_times_level *)
Definition eff_weight (ionizable : bool) (p : ptcl) : R := if ionizable then p_wl p else p_w p.

(** threading_methods.py:109-117 (same in the other functions) *)
Definition rj (p : ptcl) : R := sqrt (p_x p ^ 2 + p_y p ^ 2).
Definition cos_j (p : ptcl) : R := if Req_EM_T (rj p) 0 then 1%R else (p_x p * (1 / rj p))%R.
Definition sin_j (p : ptcl) : R := if Req_EM_T (rj p) 0 then 0%R else (p_y p * (1 / rj p))%R.

(** threading_methods.py:119 (rho_scal[0]) and 261-263 (jr_scal[0], jt_scal[0], jz_scal[0]);
    [wj] = q*w. *)
Definition scal0 (k : comp) (wj : R) (p : ptcl) : R :=
  match k with
  | Rho => wj
  | Jr => wj * c * p_ig p * (cos_j p * p_ux p + sin_j p * p_uy p)
  | Jt => wj * c * p_ig p * (cos_j p * p_uy p - sin_j p * p_ux p)
  | Jz => wj * c * p_ig p * p_uz p
  end.
(** threading_methods.py:120-121, 264-267: the contribution to mode m. *)
Fixpoint scal (k : comp) (wj : R) (p : ptcl) (m : nat) : C :=
  match m with
  | O => RtoC (scal0 k wj p)
  | S m' => Cmult (cos_j p, sin_j p) (scal k wj p m')
  end.
(** threading_methods.py:143-146 ((-1)**m for rho), 289-302 (-(-1)**m for Jr, Jt; (-1)**m for Jz);
    same in the cubic functions. *)
Definition flip (k : comp) (m : nat) : R :=
  match k with Rho | Jz => ((-1) ^ m)%R | Jr | Jt => (- (-1) ^ m)%R end.

(** threading_methods.py:124-125, positions in cell units. *)
Definition r_cell (g : grid) (p : ptcl) : R := (1 / g_dr g * (rj p - 0) - 1 / 2)%R.
Definition z_cell (g : grid) (p : ptcl) : R := (1 / g_dz g * (p_z p - g_zmin g) - 1 / 2)%R.
(** First indices in the array with 2+2 guard cells: linear, lines 129-130 (and 275-276);
    cubic, lines 414-415 (and 576-577). *)
Definition ir_cell (g : grid) (sh : shape) (p : ptcl) : Z :=
  match sh with
  | Linear => Z.min (Zceil (r_cell g p) + 1) (g_Nr g + 2)
  | Cubic => Z.min (Zceil (r_cell g p)) (g_Nr g)
  end.
Definition iz_cell (g : grid) (sh : shape) (p : ptcl) : Z :=
  match sh with Linear => Zceil (z_cell g p) + 1 | Cubic => Zceil (z_cell g p) end.
(** threading_methods.py:132-141: the Ruyten coefficient; particles.py:994-1000: mode 1 for all
    the modes above 0. *)
Definition bn (g : grid) (sh : shape) (m : nat) (p : ptcl) : R :=
  let ir := Z.min (Zceil (r_cell g p)) (g_Nr g) in
  match m with O => g_beta g sh 0%nat ir | S _ => g_beta g sh 1%nat ir end.

(** One [array[iz, ir] += value]. *)
Definition add_at (a : Z -> Z -> C) (w : (Z * Z) * C) : Z -> Z -> C :=
  fun i j => if (i =? fst (fst w)) && (j =? snd (fst w)) then Cplus (a i j) (snd w) else a i j.

(** threading_methods.py:143-146 (4 points), 289-302, 428-446 (16 points), 590-648: the additions made by
    one particle to its thread's array for mode m, in the order of the code. *)
Definition contributions (g : grid) (sh : shape) (k : comp) (m : nat) (q : R) (ionizable : bool) (p : ptcl)
  : list ((Z * Z) * C) :=
  flat_map (fun a => map (fun b =>
      ((iz_cell g sh p + a, ir_cell g sh p + b),
       Cmult (RtoC (Sz sh (z_cell g p) a * Sr sh (r_cell g p) b (flip k m) (bn g sh m p))%R)
             (scal k (q * eff_weight ionizable p)%R p m)))
    (range (npts sh))) (range (npts sh)).

Definition no_ptcl : ptcl := {| p_x := 0; p_y := 0; p_z := 0; p_ux := 0; p_uy := 0; p_uz := 0; p_ig := 0; p_w := 0; p_wl := 0 |}%R.

(** threading_methods.py:93-146: thread [t] loops over its chunk; it writes only its own array
    [G t], so the order of the threads does not matter. *)
Definition deposit_numba (g : grid) (k : comp) (m : nat) (nthreads : Z) (sp : species)
  (G : Z -> Z -> Z -> C) : Z -> Z -> Z -> C :=
  let idx := get_chunk_indices (Z.of_nat (length (sp_ptcl sp))) nthreads in
  fun t => fold_left add_at
    (flat_map (fun i => contributions g (sp_shape sp) k m (sp_q sp) (sp_ionizable sp)
                          (nth (Z.to_nat i) (sp_ptcl sp) no_ptcl))
              (chunk_of idx t)) (G t).

(** particles.py:839-1046 Particles.deposit, CPU branch (857-858: nothing if q = 0). *)
Definition species_deposit (g : grid) (k : comp) (m : nat) (nthreads : Z) (G : Z -> Z -> Z -> C)
  (sp : species) : Z -> Z -> Z -> C :=
  if Req_EM_T (sp_q sp) 0 then G else deposit_numba g k m nthreads sp G.

(** fields/numba_methods.py:443-461 reduce_slice: the additions made to [reduced_array]. *)
Definition reduce_slice (nthreads Nr iz iz_global : Z) (G : Z -> Z -> Z -> C) : list ((Z * Z) * C) :=
  flat_map (fun it =>
    ((iz, 1), G it iz_global 0) :: ((iz, 0), G it iz_global 1) ::
    map (fun ir => ((iz, ir), G it iz_global (ir + 2))) (range Nr) ++
    [((iz, Nr - 1), G it iz_global (Nr + 2)); ((iz, Nr - 1), G it iz_global (Nr + 3))])
  (range nthreads).
(** fields/numba_methods.py:410-441 sum_reduce_2d_array (the slices of the parallel loop are
    disjoint, so it is written as a sequential one). *)
Definition sum_reduce_2d_array (nthreads Nz Nr : Z) (G : Z -> Z -> Z -> C) : list ((Z * Z) * C) :=
  flat_map (fun iz => reduce_slice nthreads Nr iz (iz + 2) G) (range Nz) ++
  reduce_slice nthreads Nr (Nz - 2) 0 G ++
  reduce_slice nthreads Nr (Nz - 1) 1 G ++
  reduce_slice nthreads Nr 0 (Nz + 2) G ++
  reduce_slice nthreads Nr 1 (Nz + 3) G.

(** interpolation_grid.py:271-306 divide_by_volume, with invvol = 1/vol (line 100). *)
Definition divide_by_volume (g : grid) (a : Z -> Z -> C) : Z -> Z -> C :=
  fun iz ir => Cmult (a iz ir) (RtoC (1 / g_vol g ir)).

Definition zero2 : Z -> Z -> C := fun _ _ => RtoC 0.
(** main.py:588-670 Simulation.deposit, from the erasure (fields.py:539-563) to the division by
    the volume, for a single MPI rank (no exchange), on the interpolation grid of mode m.
    [species_list] = None: all the species but the tracers (line 620; line 621, the antennas, are
    modelled in Antenna_Model). *)
Definition deposit (g : grid) (k : comp) (m : nat) (nthreads : Z) (ptcl : list species)
  (species_list : option (list species)) : Z -> Z -> C :=
  let species_list := match species_list with
                      | None => filter (fun s => negb (sp_tracer s)) ptcl
                      | Some l => l end in
  let G := fold_left (species_deposit g k m nthreads) species_list (fun _ => zero2) in
  divide_by_volume g (fold_left add_at (sum_reduce_2d_array nthreads (g_Nz g) (g_Nr g) G) zero2).
End Light.
