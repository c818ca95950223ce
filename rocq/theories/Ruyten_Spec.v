(** Vocabulary of C24. *)
From Verif Require Import Base Shape_Model Deposit_Model Deposit_Spec.
From Coq Require Import Reals.
From Coquelicot Require Import Complex.
Open Scope R_scope.

(** A single particle of charge 1 at radius [r]. *)
Definition unit_particle (r z : R) : ptcl :=
  {| p_x := r; p_y := 0; p_z := z; p_ux := 0; p_uy := 0; p_uz := 0; p_ig := 1; p_w := 1; p_wl := 0 |}.
Definition unit_species (sh : shape) (r z : R) : species :=
  {| sp_q := 1; sp_tracer := false; sp_ionizable := false; sp_shape := sh; sp_ptcl := [unit_particle r z] |}.
(** Charge that its deposition (mode 0) leaves in the ring of cells of radial index [j]:
    density times volume, summed over z. *)
Definition ring_charge (c : R) (g : grid) (sh : shape) (z : R) (j : Z) (r : R) : R :=
  fst (lsum (fun iz => Cmult (deposit c g Rho 0 1 [unit_species sh r z] None iz j) (RtoC (g_vol g j))) (range (g_Nz g))).
(** Number of cells, beyond the middle of the cell, over which the cell receives charge. *)
Definition reach (sh : shape) : Z := match sh with Linear => 1 | Cubic => 2 end.
