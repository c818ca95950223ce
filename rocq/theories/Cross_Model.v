(** Cross-deposition: main.py:cross_deposit and the two half pushes of the positions in
    main.py:step around it; exact arithmetic, one rank, no laser antenna (Antenna_Model). *)
From Verif Require Import Base Fourier_Lib Deposit_Model Hankel_Model.
From Coq Require Import Reals.
From Coquelicot Require Import Complex.
Open Scope Z_scope.

(** particles/push/numba_methods.py:17-32 push_x_numba, one particle *)
Definition push_ptcl (c dt xp yp zp : R) (p : ptcl) : ptcl :=
  {| p_x := p_x p + c * dt * p_ig p * xp * p_ux p; p_y := p_y p + c * dt * p_ig p * yp * p_uy p;
     p_z := p_z p + c * dt * p_ig p * zp * p_uz p; p_ux := p_ux p; p_uy := p_uy p; p_uz := p_uz p;
     p_ig := p_ig p; p_w := p_w p; p_wl := p_wl p |}%R.
(** particles.py:639-671 push_x (CPU) of every species *)
Definition push_x (c dt xp yp zp : R) (l : list species) : list species :=
  map (fun s => {| sp_q := sp_q s; sp_tracer := sp_tracer s; sp_ionizable := sp_ionizable s; sp_shape := sp_shape s;
                   sp_ptcl := map (push_ptcl c dt xp yp zp) (sp_ptcl s) |}) l.
(** main.py:772-789 shift_galilean_boundaries; [v]: v_comoving if use_galilean, 0 otherwise *)
Definition shift_grid (v dt : R) (g : grid) : grid :=
  {| g_dz := g_dz g; g_zmin := (g_zmin g + v * dt)%R; g_Nz := g_Nz g; g_dr := g_dr g; g_Nr := g_Nr g;
     g_vol := g_vol g; g_beta := g_beta g |}.
Record pic := { pic_l : list species; pic_g : grid }.
Definition move (c v : R) (mv : bool) (dt xp yp zp vdt : R) (s : pic) : pic :=
  {| pic_l := if mv then push_x c dt xp yp zp (pic_l s) else pic_l s; pic_g := shift_grid v vdt (pic_g s) |}.
(** The states of the particles and of the grid at the four deposits of rho in one iteration.
    main.py:493-500 (first half push, first half shift: time n to n+1/2), 672-716 (cross_deposit),
    516-527 (second half push and shift). *)
Definition at_half c v mv dt s := move c v mv (0.5 * dt) 1 1 1 (0.5 * dt) s.
Definition at_xy c v mv dt s := move c v mv (0.5 * dt) 1 1 (-1) (- (0.5) * dt) (at_half c v mv dt s).
Definition at_z c v mv dt s := move c v mv dt (-1) (-1) 1 dt (at_xy c v mv dt s).
Definition at_next c v mv dt s :=
  move c v mv (0.5 * dt) 1 1 1 (0.5 * dt) (move c v mv (0.5 * dt) 1 1 (-1) (- (0.5) * dt) (at_z c v mv dt s)).
(** main.py:588-670 deposit('rho_...') with update_spectral: deposit (erase to division by the volume), interp2spect
    (fields.py:313-368), filter (fields/numba_methods.py:15-35); [fz], [fr]: the filter arrays, 1 when
    filter_currents is False. *)
Definition spect_rho (tr : transformer) (fz fr : Z -> R) (c : R) (m : nat) (nthreads : Z) (s : pic) : Z -> Z -> C :=
  fun iz ir => Cmult (interp2spect_scal tr (deposit c (pic_g s) Rho m nthreads (pic_l s) None) iz ir) (RtoC (fz iz * fr ir)).
