(** Moving window: boundaries/moving_window.py. *)
From Verif Require Import Base Decomp_Model Fourier_Lib.
From Coq Require Import Reals.
From Flocq Require Import Core.Core.
From Coquelicot Require Import Coquelicot.
Open Scope Z_scope.

(** What move_grids reads and writes on one rank: [comm._zmin_global_domain], the edges of the
    local grid (fld.interp[m].zmin/zmax, the same for all m), the window's own zmin (only on
    rank 0) and time of last move. *)
Record wrank := { g_zmin : R; i_zmin : R; i_zmax : R; w_zmin : option R; w_last : R }.

(** moving_window.py:18-57 __init__ on a rank. *)
Definition window_init (b : zbound) (rank size : Z) (dt time : R) (gz iz0 iz1 : R) : res wrank :=
  let some {A} (x : option A) := match x with Some _ => true | None => false end in
  if ((rank =? size - 1) && some (right_proc b rank size))
     || ((rank =? 0) && some (left_proc b rank size))
  then Err ValueError
  else Ok {| g_zmin := gz; i_zmin := iz0; i_zmax := iz1;
             w_zmin := if rank =? 0 then Some gz else None; w_last := (time - dt)%R |}.

(** moving_window.py:83-92: rank 0 advances the window and counts the cells; the others have
    no [zmin] attribute and use the broadcast value. *)
Definition advance (v dz time : R) (s : wrank) : option (R * Z) :=
  match w_zmin s with
  | None => None
  | Some z => let z := (z + v * (time - w_last s))%R in
              Some (z, Ztrunc ((z - g_zmin s) / dz)%R)
  end.

(** moving_window.py:99-131 with the broadcast [n_move]; 515-525 of boundary_communicator.py.
    Simplified: prefix_sum_shift (GPU) and the injection positions (Inject_Model) are dropped;
    the spectral shift is [shift_spect_grid] below. *)
Definition apply_move (dz time : R) (zw : option R) (n : Z) (s : wrank) : wrank :=
  let d := (IZR n * dz)%R in
  let s' := if n =? 0 then s else
    {| g_zmin := (g_zmin s + d)%R; i_zmin := (i_zmin s + d)%R; i_zmax := (i_zmax s + d)%R;
       w_zmin := w_zmin s; w_last := w_last s |} in
  {| g_zmin := g_zmin s'; i_zmin := i_zmin s'; i_zmax := i_zmax s'; w_zmin := zw; w_last := time |}.

(** moving_window.py:60-131 move_grids on all ranks, with the broadcast from rank 0. *)
Definition move_grids (v dz time : R) (w : Z -> wrank) : Z -> wrank :=
  match advance v dz time (w 0) with
  | None => w      (* AttributeError on rank 0; excluded by [window_init] *)
  | Some (zw, n) => fun r => apply_move dz time (if r =? 0 then Some zw else None) n (w r)
  end.
Definition moves (v dz : R) (times : list R) (w : Z -> wrank) : Z -> wrank :=
  fold_left (fun w t => move_grids v dz t w) times w.

(** ** Spectral shift *)
(** [np.fft.fftfreq(N, dz)[k]]. *)
Definition fftfreq (N : nat) (dz : R) (k : nat) : R :=
  let N1 := ((N - 1) / 2 + 1)%nat in
  ((if (k <? N1)%nat then INR k else IZR (- (Z.of_nat N / 2) + (Z.of_nat k - Z.of_nat N1)))
    * / (INR N * dz))%R.
(** fields.py:176-177. *)
Definition kz_true (N : nat) (dz : R) (k : nat) : R := (2 * PI * fftfreq N dz k)%R.
(** spectral_grid.py:124 field_shift = exp(1j*kz_true*dz). *)
Definition field_shift (N : nat) (dz : R) (k : nat) : C := cis (kz_true N dz k * dz).

(** moving_window.py:229-236 (same in the GPU kernel 269-276). *)
Definition power_shift (shift : C) (n_move : Z) : C :=
  let p := Nat.iter (Z.abs_nat n_move) (fun p => Cmult p shift) (RtoC 1) in
  if n_move <? 0 then Cconj p else p.
(** moving_window.py:204-239 shift_spect_array_cpu. The parallel loop over iz is pointwise. *)
Definition shift_spect_array (shift : nat -> C) (n_move : Z) (a : nat -> nat -> C) : nat -> nat -> C :=
  fun iz ir => Cmult (a iz ir) (power_shift (shift iz) n_move).

(** The arrays of a SpectralGrid (spectral_grid.py:84-105). *)
Inductive fname := Ep | Em | Ez | Bp | Bm | Bz | Jp | Jm | Jz | Rho_prev | Rho_next
  | Ep_pml | Em_pml | Bp_pml | Bm_pml.
(** moving_window.py:134-202 shift_spect_grid. *)
Definition shift_spect_grid (use_pml shift_rho shift_currents : bool) (shift : nat -> C) (n_move : Z)
    (g : fname -> nat -> nat -> C) : fname -> nat -> nat -> C :=
  fun f =>
    let selected := match f with
      | Ep | Em | Ez | Bp | Bm | Bz => true
      | Ep_pml | Em_pml | Bp_pml | Bm_pml => use_pml
      | Rho_prev => shift_rho
      | Jp | Jm | Jz => shift_currents
      | Rho_next => false
      end in
    if selected then shift_spect_array shift n_move (g f) else g f.
