(** lpa_utils/bunch.py: loading of particle bunches. Exact arithmetic, except in the section on binary64 edges.
    [cl] is the speed of light. Simplified: the injector of [z_injection_plane] and the space-charge fields
    (SpaceCharge_Model) are not part of the returned species; warnings are dropped. *)
From Verif Require Import Base Decomp_Model Boost_Model Inject_Model Load_Model.
From Coq Require Import Reals.
From Flocq Require Import IEEE754.BinarySingleNaN.
Open Scope R_scope.

(** One element of the arrays x, y, z, ux, uy, uz, w *)
Record beam := { b_x : R; b_y : R; b_z : R; b_ux : R; b_uy : R; b_uz : R; b_w : R }.
(** One macroparticle of the new species: x, y, z, ux, uy, uz, inv_gamma and w *)
Record macro := { m_p : Boost_Model.ptcl; m_wt : R }.

(** bunch.py:502-507: inv_gamma and the conversion to the boosted frame *)
Definition to_boosted (cl : R) (boost : option converter) (l : list beam) : list macro :=
  map (fun a =>
    let p := {| px := b_x a; py := b_y a; pz := b_z a; pux := b_ux a; puy := b_uy a; puz := b_uz a;
                pinv_gamma := 1 / sqrt (1 + b_ux a ^ 2 + b_uy a ^ 2 + b_uz a ^ 2) |} in
    {| m_p := match boost with None => p | Some b => boost_particle cl b p end; m_wt := b_w a |}) l.
(** bunch.py:512 [(z >= zmin) & (z < zmax)] *)
Definition selected (zmin zmax z : R) : bool :=
  (if Rle_dec zmin z then true else false) && (if Rlt_dec z zmax then true else false).
(** bunch.py:456-547 add_particle_bunch_from_arrays on the rank [c_rank c] *)
Definition add_particle_bunch_from_arrays (cl : R) (c : comm) (boost : option converter) (l : list beam) : res (list macro) :=
  bind (get_zmin_zmax c true false false (Some (c_rank c))) (fun '(zmin, zmax) =>
  Ok (filter (fun p => selected zmin zmax (pz (m_p p))) (to_boosted cl boost l))).

(** The standard normal draws of one macroparticle (bunch.py:209-230); [s_gamma] is drawn from
    normal(gamma0, sig_gamma). Arbitrary values here. *)
Record draw := { s_gamma : R; s_x : R; s_y : R; s_z : R; s_ux : R; s_uy : R }.
(** bunch.py:208-262 of add_particle_bunch_gaussian: the bunch before symmetrization. A division by [N_new = 0] of Python
    numbers raises ZeroDivisionError (with a numpy float it would give an empty bunch and a warning). *)
Definition rotate (k : Z) (a : beam) : beam :=
  match k with
  | 1%Z => {| b_x := - b_y a; b_y := b_x a; b_z := b_z a; b_ux := - b_uy a; b_uy := b_ux a; b_uz := b_uz a; b_w := b_w a |}
  | 2%Z => {| b_x := - b_x a; b_y := - b_y a; b_z := b_z a; b_ux := - b_ux a; b_uy := - b_uy a; b_uz := b_uz a; b_w := b_w a |}
  | 3%Z => {| b_x := b_y a; b_y := - b_x a; b_z := b_z a; b_ux := b_uy a; b_uy := - b_ux a; b_uz := b_uz a; b_w := b_w a |}
  | _ => a
  end.
(** bunch.py:265-271 symmetrize (the four rows of the zip are the rotations 0, 1, 2, 3) *)
Definition symmetrized (l : list beam) : list beam :=
  let l := map (fun a => {| b_x := b_x a; b_y := b_y a; b_z := b_z a; b_ux := b_ux a; b_uy := b_uy a; b_uz := b_uz a;
                            b_w := b_w a * 0.25 |}) l in
  flat_map (fun k => map (rotate k) l) [0; 1; 2; 3]%Z.
(** bunch.py:230-247: momenta, and removal of the particles with uz**2 < 0 *)
Definition physical (g0 sig_gamma sig_r n_emit : R) (d : draw) : option (R * R * R * R) :=
  let gamma := if Rlt_dec 0 sig_gamma then s_gamma d else g0 in
  let sig_ur := n_emit / sig_r in
  let ux := sig_ur * s_ux d in let uy := sig_ur * s_uy d in
  let uz_sqr := (gamma ^ 2 - 1) - ux ^ 2 - uy ^ 2 in
  if Rle_dec 0 uz_sqr then Some (ux, uy, sqrt uz_sqr, 1 / gamma) else None.
(** bunch.py:126-284 add_particle_bunch_gaussian, up to the call of add_particle_bunch_from_arrays. [draws n]: the values
    returned by the random number generator for n macroparticles. *)
Definition gaussian_beam (cl sig_r sig_z n_emit g0 sig_gamma n_physical_particles : R) (n_macroparticles : Z) (tf zf : R)
    (symmetrize : bool) (draws : Z -> list draw) : res (list beam) :=
  bind (if symmetrize then (if (n_macroparticles mod 4 =? 0)%Z then Ok (n_macroparticles / 4)%Z else Err AssertionError)
        else Ok n_macroparticles) (fun n =>
  let kept := flat_map (fun d => match physical g0 sig_gamma sig_r n_emit d with
                                 | Some u => [(d, u)] | None => [] end) (draws n) in
  let N_new := Z.of_nat (length kept) in
  if (N_new =? 0)%Z then Err ZeroDivisionError else
  let w := n_physical_particles / IZR N_new in
  let l := map (fun '(d, (ux, uy, uz, inv_gamma)) =>
     let x := sig_r * s_x d in let y := sig_r * s_y d in let z := zf + sig_z * s_z d in
     let off v q := if Req_EM_T tf 0 then v else v - q * inv_gamma * cl * tf in
     {| b_x := off x ux; b_y := off y uy; b_z := off z uz; b_ux := ux; b_uy := uy; b_uz := uz; b_w := w |}) kept in
  Ok (if symmetrize then symmetrized l else l)).
(** bunch.py:126-284 add_particle_bunch_gaussian on the rank [c_rank c]. Every rank has its own random number generator
    (nothing is broadcast; utils/random_seed.py:15-31 even adds the rank to the seed): [draws r] is that of rank r. *)
Definition add_particle_bunch_gaussian (cl : R) (c : comm) (boost : option converter)
    (sig_r sig_z n_emit g0 sig_gamma n_physical_particles : R) (n_macroparticles : Z) (tf zf : R)
    (symmetrize : bool) (draws : Z -> Z -> list draw) : res (list macro) :=
  bind (gaussian_beam cl sig_r sig_z n_emit g0 sig_gamma n_physical_particles n_macroparticles tf zf symmetrize (draws (c_rank c)))
       (add_particle_bunch_from_arrays cl c boost).
(** bunch.py:619-693 add_elec_bunch_gaussian ([e]: elementary charge; the species has charge -e) *)
Definition add_elec_bunch_gaussian (cl e : R) (c : comm) (boost : option converter)
    (sig_r sig_z n_emit g0 sig_gamma Q : R) (N : Z) (tf zf : R)
    (symmetrize : bool) (draws : Z -> Z -> list draw) : res (list macro) :=
  add_particle_bunch_gaussian cl c boost sig_r sig_z n_emit g0 sig_gamma (Q / e) N tf zf symmetrize draws.
(** bunch.py:287-356 add_particle_bunch_file; [rows] are the rows of the text file. *)
Definition file_beam (n_physical_particles z_off : R) (rows : list (R * R * R * R * R * R)) : res (list beam) :=
  let n_macroparticles := Z.of_nat (length rows) in
  if (n_macroparticles =? 0)%Z then Err ZeroDivisionError else
  Ok (map (fun '(x, y, z, ux, uy, uz) =>
        {| b_x := x; b_y := y; b_z := z + z_off; b_ux := ux; b_uy := uy; b_uz := uz;
           b_w := n_physical_particles / IZR n_macroparticles |}) rows).
Definition add_particle_bunch_file (cl : R) (c : comm) (boost : option converter) (n_physical_particles z_off : R)
    (rows : list (R * R * R * R * R * R)) : res (list macro) :=
  bind (file_beam n_physical_particles z_off rows) (add_particle_bunch_from_arrays cl c boost).
(** bunch.py:696-739 add_elec_bunch_file *)
Definition add_elec_bunch_file (cl e : R) (c : comm) (boost : option converter) (Q_tot z_off : R)
    (rows : list (R * R * R * R * R * R)) : res (list macro) :=
  add_particle_bunch_file cl c boost (Q_tot / e) z_off rows.
(** bunch.py:428-446 of add_particle_bunch_openPMD: the phase space read from the file is centred on z_off. *)
Definition openpmd_beam (z_off : R) (l : list beam) : res (list beam) :=
  let sum f := fold_right Rplus 0 (map f l) in
  let sw := sum b_w in
  if Req_EM_T sw 0 then Err ZeroDivisionError else
  let avg := sum (fun a => b_z a * b_w a) / sw in
  Ok (map (fun a => {| b_x := b_x a; b_y := b_y a; b_z := b_z a - avg + z_off; b_ux := b_ux a; b_uy := b_uy a; b_uz := b_uz a; b_w := b_w a |}) l).

(** The local grid and the parameters of add_new_species that a cylindrical bunch uses; loading is [load_uniform]
    (Load_Model: no boost, no density function). *)
Record grid := { g_z : R; g_dz : R; g_Nz : Z; g_dr : R; g_Nr : Z; g_zmin_loc : R; g_zmax_loc : R; g_r_phys : R }.
(** bunch.py:18-123 add_particle_bunch: momentum and particles of the species *)
Definition add_particle_bunch (g : grid) (g0 n p_zmin p_zmax p_rmin p_rmax : R) (p_nr p_nz p_nt : Z) (backward : bool)
    (ang : Z -> Z -> R) : res (R * list mp) :=
  let uz_m := sqrt (g0 ^ 2 - 1) in
  let uz_m := if backward then - uz_m else uz_m in
  bind (load_uniform (g_z g) (g_dz g) (g_Nz g) (g_dr g) (g_Nr g) (g_zmin_loc g) (g_zmax_loc g) (g_r_phys g)
          p_zmin p_zmax p_rmin p_rmax p_nz p_nr p_nt n ang) (fun l => Ok (uz_m, l)).
(** bunch.py:550-616 add_elec_bunch; line 613 passes [p_nt=p_nz] *)
Definition add_elec_bunch (g : grid) (g0 n_e p_zmin p_zmax p_rmin p_rmax : R) (p_nr p_nz p_nt : Z) (backward : bool)
    (ang : Z -> Z -> R) : res (R * list mp) :=
  add_particle_bunch g g0 n_e p_zmin p_zmax p_rmin p_rmax p_nr p_nz p_nz backward ang.

(** *** The edges and the selection in binary64 *)
Definition b64 := binary_float 53 1024.
Definition Hprec64 : FLX.Prec_gt_0 53 := eq_refl.
Definition Hmax64 : Prec_lt_emax 53 1024 := eq_refl.
Definition add64 : b64 -> b64 -> b64 := @Bplus 53 1024 Hprec64 Hmax64 mode_NE.
Definition sub64 : b64 -> b64 -> b64 := @Bminus 53 1024 Hprec64 Hmax64 mode_NE.
Definition mul64 : b64 -> b64 -> b64 := @Bmult 53 1024 Hprec64 Hmax64 mode_NE.
Definition div64 : b64 -> b64 -> b64 := @Bdiv 53 1024 Hprec64 Hmax64 mode_NE.
Definition of_Z64 (n : Z) : b64 := @binary_normalize 53 1024 Hprec64 Hmax64 mode_NE n 0 false.
(** boundary_communicator.py:476-512 get_zmin_zmax in binary64; [zg]: _zmin_global_domain *)
Definition get_zmin_zmax64 (c : comm) (zg dz : b64) (local with_damp with_guard : bool) (rank : option Z) : res (b64 * b64) :=
  bind (get_Nz_and_iz c local with_damp with_guard rank) (fun '(Nz, iz_start) =>
    let zmin := add64 zg (mul64 (of_Z64 iz_start) dz) in
    let zmax := add64 zmin (mul64 (of_Z64 Nz) dz) in
    Ok (zmin, zmax)).
(** bunch.py:510-512 on rank [r] *)
Definition selected64 (c : comm) (zg dz : b64) (r : Z) (z : b64) : bool :=
  match get_zmin_zmax64 c zg dz true false false (Some r) with
  | Ok (zmin, zmax) => Bleb zmin z && Bltb z zmax
  | Err _ => false
  end.
