(** Loading of a uniform plasma: main.py:952-967 (part of add_new_species). *)
From Verif Require Import Base Decomp_Model Inject_Model.
From Coq Require Import Reals.
Open Scope Z_scope.

(** fields/interpolation_grid.py:168-176: N cell centres from the lower edge [x0]. *)
Definition centres (x0 dx : R) (N : Z) : list R := map (fun i => x0 + (IZR i + 0.5) * dx)%R (range N).

(** main.py:952-967: the bounds are restricted to the local physical domain
    [zmin_loc, zmax_loc] and to [r_phys] = comm.get_rmax(with_damp=False), then aligned on the
    grid; the result is passed to [generate_evenly_spaced] through [Particles].
    [(gz, Nz)] and [Nr]: lower edge and number of cells of the local grid (guard and damp cells
    included). Simplified: no boost, no thermal momenta. *)
Definition load_uniform (gz dz : R) (Nz : Z) (dr : R) (Nr : Z) (zmin_loc zmax_loc r_phys : R)
    (p_zmin p_zmax p_rmin p_rmax : R) (p_nz p_nr p_nt : Z) (n : R) (ang : Z -> Z -> R) : res (list mp) :=
  let p_zmin := Rmax zmin_loc p_zmin in
  let p_zmax := Rmin zmax_loc p_zmax in
  let p_rmax := Rmin r_phys p_rmax in
  bind (adapt_to_grid (centres gz dz Nz) p_zmin p_zmax p_nz 0) (fun '(p_zmin, p_zmax, Npz) =>
  bind (adapt_to_grid (centres 0 dr Nr) p_rmin p_rmax p_nr 0) (fun '(p_rmin, p_rmax, Npr) =>
  Ok (generate_evenly_spaced Npz p_zmin p_zmax Npr p_rmin p_rmax p_nt n NoDens ang))).
