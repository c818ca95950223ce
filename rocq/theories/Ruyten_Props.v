(** C24: a uniform density is deposited as a uniform density. *)
From Verif Require Import Base Shape_Model Deposit_Model Deposit_Spec Ruyten_Model Ruyten_Spec Ruyten_Proofs.
From Coq Require Import Reals Lra.
From Coquelicot Require Import Coquelicot.
Open Scope Z_scope.

(** A plasma of uniform charge density [rho], continuous in radius up to R0: between r and r+dr
    and over one cell length there is a charge rho 2 pi r dz dr. The charge left in the ring of
    cells of radial index j is rho times the volume used by the code for this cell (whatever these
    volumes are), i.e. the deposited density is rho; the plasma has to extend over all the radii
    that reach this cell, and the cell is not one of those ([reach]) that receive the folding at rmax. *)
Theorem C24_uniform_density c dz zmin dr Nz Nr vol rho z sh j R0 :
  let g := ruyten_grid dz zmin Nz dr Nr vol in
  grid_ok g -> in_grid g (unit_particle 0 z) -> 0 <= j <= Nr - 1 - reach sh ->
  ((IZR j + IZR (reach sh) + 1 / 2) * dr <= R0)%R ->
  is_RInt (fun r => (rho * (2 * PI * r * dz) * ring_charge c g sh z j r)%R) 0 R0 (rho * g_vol g j)%R.
Proof. exact (fun Hg => uniform dz zmin dr Nz Nr vol Hg c rho z sh j R0). Qed.
Print Assumptions C24_uniform_density.

(** The last cell, for the linear shape, the standard volumes and a plasma up to rmax. *)
Theorem C24_last_cell c dz zmin dr Nz Nr vol rho z :
  let g := ruyten_grid dz zmin Nz dr Nr vol in
  grid_ok g -> in_grid g (unit_particle 0 z) -> (forall j, 0 <= j -> vol j = standard_vol dz dr j) ->
  is_RInt (fun r => (rho * (2 * PI * r * dz) * ring_charge c g Linear z (Nr - 1) r)%R) 0 (IZR Nr * dr) (rho * g_vol g (Nr - 1))%R.
Proof. exact (fun Hg => uniform_last dz zmin dr Nz Nr vol Hg c rho z). Qed.
Print Assumptions C24_last_cell.

Lemma standard_vol_eq dz dr j : standard_vol dz dr j = (2 * PI * dz * dr ^ 2 * (IZR j + 1 / 2))%R.
Proof. unfold standard_vol. field. Qed.
Example C24_met : let g := ruyten_grid 1 0 4 2 5 (standard_vol 1 2) in
  grid_ok g /\ in_grid g (unit_particle 0 3) /\ 0 <= 0 <= 5 - 1 - reach Cubic /\ ((0 + IZR (reach Cubic) + 1 / 2) * 2 <= 10)%R /\
  g_vol g 0 <> 0%R.
Proof.
  pose proof PI_RGT_0.
  assert (V : forall j, 0 <= j -> standard_vol 1 2 j <> 0%R).
  { intros j Hj. rewrite standard_vol_eq. assert (0 <= IZR j)%R by (apply (IZR_le 0); lia).
    assert (0 < PI * (IZR j + 1 / 2))%R by (apply Rmult_lt_0_compat; lra). lra. }
  cbv zeta. split; [unfold grid_ok; cbn; repeat split; try lra; try lia; intros; apply V; lia|].
  split; [unfold in_grid; cbn; lra|]. split; [cbn; lia|]. split; [cbn; lra|]. apply V. lia.
Qed.
