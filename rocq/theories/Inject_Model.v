(** Plasma loading and continuous injection:
    particles/injection/continuous_injection.py, main.py [adapt_to_grid]. *)
From Verif Require Import Base Decomp_Model.
From Coq Require Import Reals Rbase.
From Flocq Require Import Core.Core.
Open Scope Z_scope.

(** One created macroparticle: the arrays z, r, theta, w of
    continuous_injection.py:214-257.  Simplified: momenta are not modelled here; x and y are
    [r cos theta], [r sin theta] and are only formed when calling the density function. *)
Record mp := { m_z : R; m_r : R; m_th : R; m_w : R }.

(** The two accepted signatures of the density function
    (continuous_injection.py:323-345 _check_dens_func_arguments), or no function. *)
Inductive dens := NoDens | DensZR (f : R -> R -> R) | DensXYZ (f : R -> R -> R -> R).

(** continuous_injection.py:239-245: factor applied on the weight of a particle. *)
Definition dens_at (d : dens) (z r th : R) : R :=
  match d with
  | NoDens => 1%R
  | DensZR f => f z r
  | DensXYZ f => f (r * cos th)%R (r * sin th)%R z
  end.

Definition keep (p : mp) : bool := if Rlt_dec 0 (m_w p) then true else false.

(** continuous_injection.py:203-272 generate_evenly_spaced. [ang iz ir] is the
    [angle_shift] array drawn by [unalign_angles] (275-320), an arbitrary function.
    Simplified: the warning for negative densities and the momenta are dropped. *)
Definition generate_evenly_spaced (Npz : Z) (zmin zmax : R) (Npr : Z) (rmin rmax : R)
    (Nptheta : Z) (n : R) (d : dens) (ang : Z -> Z -> R) : list mp :=
  if 0 <? Npz * Npr * Nptheta then
    let dz := ((zmax - zmin) * 1 / IZR Npz)%R in
    let z_reg i := (zmin + dz * (IZR i + 0.5))%R in
    let dr := ((rmax - rmin) * 1 / IZR Npr)%R in
    let r_reg j := (rmin + dr * (IZR j + 0.5))%R in
    let dtheta := (2 * PI / IZR Nptheta)%R in
    filter keep
      (flat_map (fun i => flat_map (fun j => map (fun k =>
         let z := z_reg i in let r := r_reg j in let th := (dtheta * IZR k + ang i j)%R in
         {| m_z := z; m_r := r; m_th := th;
            m_w := (n * r * dtheta * dr * dz * dens_at d z r th)%R |})
         (range Nptheta)) (range Npr)) (range Npz))
  else [].

(** continuous_injection.py:19-57: the attributes of a ContinuousInjector.
    [j_pos] is [None] until [initialize_injection_positions], then
    (nz_inject, z_inject, z_end_plasma). *)
Record injector := {
  j_dzp : option R;       (* dz_particles *)
  j_Npr : Z; j_rmin : R; j_rmax : R; j_Nth : Z; j_n : R; j_dens : dens;
  j_vend : R;             (* v_end_plasma *)
  j_pos : option (Z * R * R) }.

(** continuous_injection.py:19-57 __init__; [vend] is
    [c*uz_m/sqrt(1+ux_m**2+uy_m**2+uz_m**2)], computed by the caller of this definition. *)
Definition injector_init (Npz : Z) (zmin zmax : R) (dzp : option R) (Npr : Z) (rmin rmax : R)
    (Nth : Z) (n : R) (d : dens) (vend : R) : injector :=
  {| j_dzp := if negb (Npz =? 0) then Some ((zmax - zmin) / IZR Npz)%R else dzp;
     j_Npr := Npr; j_rmin := rmin; j_rmax := rmax; j_Nth := Nth; j_n := n; j_dens := d;
     j_vend := vend; j_pos := None |}.

Definition set_pos (p : option (Z * R * R)) (j : injector) : injector :=
  {| j_dzp := j_dzp j; j_Npr := j_Npr j; j_rmin := j_rmin j; j_rmax := j_rmax j; j_Nth := j_Nth j;
     j_n := j_n j; j_dens := j_dens j; j_vend := j_vend j; j_pos := p |}.

(** [species_z.max()] on a non-empty array. *)
Definition rmaxl (a : R) (l : list R) : R := fold_left Rmax l a.

(** continuous_injection.py:60-119 initialize_injection_positions. In the code the test of
    [dz_particles is None] comes last; when the species has particles and [dz_particles] is None
    the multiplication [0.5*None] raises TypeError first. *)
Definition initialize (c : comm) (v dt : R) (species_z : list R) (j : injector) : res injector :=
  if negb (c_rank c =? c_size c - 1) then Ok j else
  match j_pos j with
  | Some _ => Ok j
  | None =>
    bind (get_zmin_zmax c false true false None) (fun '(_, zmax_damp) =>
    let z_inject := (zmax_damp + (3 - IZR (c_ninject c)) * c_dz c
                     + IZR (c_period c) * dt * (v - j_vend j))%R in
    match species_z, j_dzp j with
    | z :: zs, Some dzp => Ok (set_pos (Some (0, z_inject, (rmaxl z zs + 0.5 * dzp)%R)) j)
    | _ :: _, None => Err TypeError
    | [], Some _ =>
        bind (get_zmin_zmax c false false false None) (fun '(_, zmax_phys) =>
        Ok (set_pos (Some (0, z_inject, zmax_phys)) j))
    | [], None => Err ValueError
    end)
  end.

(** continuous_injection.py:121-128 reset_injection_positions. *)
Definition reset (j : injector) : injector := set_pos None j.

(** continuous_injection.py:130-156 increment_injection_positions. *)
Definition increment (v duration : R) (j : injector) : res injector :=
  match j_pos j, j_dzp j with
  | Some (nz, z_inject, z_end), Some dzp =>
      let z_inject := (z_inject + v * duration)%R in
      let z_end := (z_end + j_vend j * duration)%R in
      let nz_new := Ztrunc ((z_inject - z_end) / dzp)%R in
      Ok (set_pos (Some (nz + nz_new, z_inject, (z_end + IZR nz_new * dzp)%R)) j)
  | _, _ => Err TypeError
  end.

(** continuous_injection.py:167-178: the density function shifted by the motion of the plasma. *)
Definition moving_dens (d : dens) (vend time : R) : dens :=
  match d with
  | NoDens => NoDens
  | DensZR f => DensZR (fun z r => f (z - vend * time)%R r)
  | DensXYZ f => DensXYZ (fun x y z => f x y (z - vend * time)%R)
  end.

(** continuous_injection.py:159-197 generate_particles. *)
Definition generate_particles (time : R) (ang : Z -> Z -> R) (j : injector) : res (list mp * injector) :=
  match j_pos j, j_dzp j with
  | Some (nz, z_inject, z_end), Some dzp =>
      Ok (generate_evenly_spaced nz (z_end - IZR nz * dzp)%R z_end (j_Npr j) (j_rmin j) (j_rmax j)
            (j_Nth j) (j_n j) (moving_dens (j_dens j) (j_vend j) time) ang,
          set_pos (Some (0, z_inject, z_end)) j)
  | _, _ => Err TypeError
  end.

(** What the loop does to an injector between two restarts: moving_window.py:120-128 (called at
    each iteration, with the speed of the window and the time since the last move) and
    boundary_communicator.py:804-810 (particle exchange). The order is arbitrary. *)
Inductive iop := Move (duration : R) | Gen (ang : Z -> Z -> R).

(** A history, from the simulation time [t]: the list of created particles, each with the time of
    its creation. In [step] the window is moved before [self.time += dt] (main.py:549, 560) with
    [t_last_move] initially [time - dt] (moving_window.py:47), so that the sum of the durations is
    the time elapsed when the next exchange calls [generate_particles]. *)
Fixpoint inject_run (v t : R) (h : list iop) (j : injector) : res (list (R * mp) * R * injector) :=
  match h with
  | [] => Ok ([], t, j)
  | Move d :: h => bind (increment v d j) (fun j' => inject_run v (t + d)%R h j')
  | Gen ang :: h =>
      bind (generate_particles t ang j) (fun '(new, j') =>
      bind (inject_run v t h j') (fun '(rest, t', j'') =>
      Ok (map (pair t) new ++ rest, t', j'')))
  end.

(** main.py:1056-1111 adapt_to_grid. [x] is the array of grid points (at least two). *)
Definition rminl (a : R) (l : list R) : R := fold_left Rmin l a.
Definition adapt_to_grid (x : list R) (p_xmin p_xmax : R) (p_nx ncells_empty : Z) : res (R * R * Z) :=
  match x with
  | x0 :: ((x1 :: _) as tl) =>
    let xmin := rminl x0 tl in
    let xmax := rmaxl x0 tl in
    let dx := (x1 - x0)%R in
    let p_xmin := if Rlt_dec p_xmin (xmin - 0.5 * dx) then (xmin - 0.5 * dx)%R else p_xmin in
    let p_xmax := if Rlt_dec (xmax + (0.5 - IZR ncells_empty) * dx) p_xmax
                  then (xmax + (0.5 - IZR ncells_empty) * dx)%R else p_xmax in
    let x_load := filter (fun x => (if Rlt_dec p_xmin x then true else false)
                                   && (if Rlt_dec x p_xmax then true else false)) x in
    let Npx := Z.of_nat (length x_load) * p_nx in
    match x_load with
    | a :: l => if 0 <? Npx then Ok ((rminl a l - 0.5 * dx)%R, (rmaxl a l + 0.5 * dx)%R, Npx)
                else Ok (p_xmin, p_xmax, Npx)
    | [] => Ok (p_xmin, p_xmax, Npx)
    end
  | _ => Err IndexError
  end.

(** continuous_injection.py:145-146 in the loading of a species: main.py:952-994 and
    particles.py:160-199.  Loading and the injector of the same species, on one rank. *)
Definition load_species (Npz : Z) (zmin zmax : R) (dzp : R) (Npr : Z) (rmin rmax : R) (Nth : Z)
    (n : R) (d : dens) (vend : R) (ang : Z -> Z -> R) : list mp * injector :=
  (generate_evenly_spaced Npz zmin zmax Npr rmin rmax Nth n d ang,
   injector_init Npz zmin zmax (Some dzp) Npr rmin rmax Nth n d vend).
