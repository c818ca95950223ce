(** The macroparticles of a plasma, as created by particles/injection/continuous_injection.py with
    their angles and momenta, as the deposition receives them. Positions and weights: Inject_Model. *)
From Coq Require Import Reals String.
From Flocq Require Import Core.Core.
From Verif Require Import Base Decomp_Model Inject_Model Shape_Model Deposit_Model.
Open Scope Z_scope.

(** continuous_injection.py:275-320 unalign_angles: the angle_shift array, added to the angles of all
    the particles of the same z and r. [rand]: the numbers drawn by np.random.rand. In exact arithmetic
    np.mod(a, 2*pi) = a - 2*pi*floor(a/(2*pi)). *)
Definition unalign_angles (method : string) (rand : Z -> Z -> R) : res (Z -> Z -> R) :=
  if String.eqb method "random" then Ok (fun iz ir => 2 * PI * rand iz ir)%R
  else if String.eqb method "irrational" then
    Ok (fun iz ir => let a := (2 * PI * (sqrt 3 * IZR iz + sqrt 2 * IZR ir))%R in
                     (a - 2 * PI * IZR (Zfloor (a / (2 * PI))))%R)
  else Err ValueError.

(** continuous_injection.py:203-206: the arguments ux_m ... uz_th. *)
Record momenta := { ux_m : R; uy_m : R; uz_m : R; ux_th : R; uy_th : R; uz_th : R }.
(** continuous_injection.py:229-231, 259-263: x, y, z, w and the momenta of the i-th particle; [nx], [ny], [nz]:
    the numbers drawn by np.random.normal. [level]: the ionization level of all the particles of an
    ionizable species (particles/elementary_process/ionization/ionizer.py:118-119). *)
Definition loaded_ptcl (u : momenta) (nx ny nz : nat -> R) (level : R) (i : nat) (p : mp) : ptcl :=
  let uz := (uz_m u * 1 + uz_th u * nz i)%R in
  let ux := (ux_m u * 1 + ux_th u * nx i)%R in
  let uy := (uy_m u * 1 + uy_th u * ny i)%R in
  {| p_x := m_r p * cos (m_th p); p_y := m_r p * sin (m_th p); p_z := m_z p;
     p_ux := ux; p_uy := uy; p_uz := uz; p_ig := 1 / sqrt (1 + ux ^ 2 + uy ^ 2 + uz ^ 2);
     p_w := m_w p; p_wl := m_w p * level |}%R.
(** continuous_injection.py:208-265 generate_evenly_spaced (with method='random', line 228). *)
Definition generate (Npz : Z) (zmin zmax : R) (Npr : Z) (rmin rmax : R) (Nptheta : Z) (n : R) (d : dens)
  (u : momenta) (rand : Z -> Z -> R) (nx ny nz : nat -> R) (level : R) : res (list ptcl) :=
  bind (unalign_angles "random" rand) (fun ang =>
  let l := generate_evenly_spaced Npz zmin zmax Npr rmin rmax Nptheta n d ang in
  Ok (map (fun ip => loaded_ptcl u nx ny nz level (fst ip) (snd ip)) (combine (seq 0 (length l)) l))).
