(** C53: loading of a uniform plasma. *)
From Verif Require Import Base Decomp_Model Inject_Model Inject_Spec Inject_Proofs Load_Model Load_Spec Load_Proofs.
From Coq Require Import Reals Lra.
Open Scope Z_scope.

(** [mlo], [mhi], [nr]: the edges of the physical domain fall on cell edges (C01). The cells whose
    centre is strictly in the requested range and in the physical domain contain, strictly inside,
    exactly density times volume; the other ones contain nothing, edges included. *)
Theorem C53_uniform_density gz dz Nz dr Nr mlo mhi nr zmin_loc zmax_loc r_phys
    p_zmin p_zmax p_rmin p_rmax pz pr pt n ang :
  (0 < dz)%R -> (0 < dr)%R -> 2 <= Nz -> 2 <= Nr -> 1 <= pz -> 1 <= pr -> 1 <= pt -> (0 < n)%R ->
  zmin_loc = (gz + IZR mlo * dz)%R -> zmax_loc = (gz + IZR mhi * dz)%R -> r_phys = (IZR nr * dr)%R ->
  exists l,
    load_uniform gz dz Nz dr Nr zmin_loc zmax_loc r_phys p_zmin p_zmax p_rmin p_rmax pz pr pt n ang = Ok l /\
    (forall p, In p l -> (0 < m_w p)%R /\
       (zmin_loc < m_z p < zmax_loc)%R /\ (gz < m_z p < gz + IZR Nz * dz)%R /\
       (p_zmin - dz / 2 < m_z p < p_zmax + dz / 2)%R /\
       (0 < m_r p < r_phys)%R /\ (m_r p < IZR Nr * dr)%R /\
       (p_rmin - dr / 2 < m_r p < p_rmax + dr / 2)%R) /\
    (forall iz ir, 0 <= iz < Nz -> 0 <= ir < Nr ->
       let zc := (gz + (IZR iz + 0.5) * dz)%R in let rc := ((IZR ir + 0.5) * dr)%R in
       (p_zmin < zc < p_zmax)%R -> (zmin_loc < zc < zmax_loc)%R ->
       (p_rmin < rc < p_rmax)%R -> (rc < r_phys)%R ->
       weight_in l (gz + IZR iz * dz) (gz + IZR (iz + 1) * dz) (IZR ir * dr) (IZR (ir + 1) * dr)
       = (n * (PI * ((IZR (ir + 1) * dr) ^ 2 - (IZR ir * dr) ^ 2) * dz))%R) /\
    (forall iz, 0 <= iz < Nz ->
       let zc := (gz + (IZR iz + 0.5) * dz)%R in
       ~ ((p_zmin < zc < p_zmax)%R /\ (zmin_loc < zc < zmax_loc)%R) ->
       forall p, In p l -> ~ (gz + IZR iz * dz <= m_z p <= gz + IZR (iz + 1) * dz)%R).
Proof.
  exact (C53_main gz dz Nz dr Nr mlo mhi nr zmin_loc zmax_loc r_phys
    p_zmin p_zmax p_rmin p_rmax pz pr pt n ang).
Qed.
Print Assumptions C53_uniform_density.

(** Alignment on the grid, with [ne] cells left empty on the right. *)
Theorem C53_adapt_to_grid x0 dx N pmin pmax pn ne : (0 < dx)%R -> 2 <= N -> 1 <= pn -> 0 <= ne ->
  exists lo hi a b, adapt_to_grid (centres x0 dx N) pmin pmax pn ne = Ok (a, b, (hi - lo) * pn) /\
    0 <= lo <= hi /\ hi <= N /\
    (lo < hi -> a = (x0 + IZR lo * dx)%R /\ b = (x0 + IZR hi * dx)%R) /\
    (forall i, 0 <= i < N -> (lo <= i < hi <-> i < N - ne /\ (pmin < x0 + (IZR i + 0.5) * dx < pmax)%R)).
Proof. exact (fun Hdx => adapt_spec x0 dx Hdx N pmin pmax pn ne). Qed.
Print Assumptions C53_adapt_to_grid.

(** Cell (1,0) of a 4x4 grid with two damping cells is loaded. *)
Example C53_met : (0 < 0.5)%R /\ 2 <= 4 /\ (0.5 = 0 + 1 * 0.5)%R /\ (1.5 = 0 + 3 * 0.5)%R /\ (2 = 4 * 0.5)%R /\
  (0.1 < 0 + (1 + 0.5) * 0.5 < 5)%R /\ (0.5 < 0 + (1 + 0.5) * 0.5 < 1.5)%R /\
  (0 < (0 + 0.5) * 0.5 < 3)%R /\ ((0 + 0.5) * 0.5 < 2)%R.
Proof. repeat split; try lra; lia. Qed.
