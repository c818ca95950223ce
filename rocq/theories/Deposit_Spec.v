(** Vocabulary of C22, C23 and C52. *)
From Verif Require Import Base Shape_Model Deposit_Model.
From Coq Require Import Reals.
From Coquelicot Require Import Complex.
Open Scope Z_scope.

(** Sums over lists and over all the cells of the grid. *)
Definition lsum {A} (f : A -> C) (l : list A) : C := fold_right (fun a s => Cplus (f a) s) (RtoC 0) l.
Definition rsum {A} (f : A -> R) (l : list A) : R := fold_right (fun a s => (f a + s)%R) 0%R l.
Definition over_cells (g : grid) (f : Z -> Z -> C) : C :=
  lsum (fun iz => lsum (fun ir => f iz ir) (range (g_Nr g))) (range (g_Nz g)).
(** A usable grid; the particle is between its two z boundaries (any radius). *)
Definition grid_ok (g : grid) : Prop :=
  (0 < g_dz g)%R /\ (0 < g_dr g)%R /\ 2 <= g_Nz g /\ 2 <= g_Nr g /\
  forall ir, 0 <= ir < g_Nr g -> g_vol g ir <> 0%R.
Definition in_grid (g : grid) (p : ptcl) : Prop := (g_zmin g <= p_z p <= g_zmin g + IZR (g_Nz g) * g_dz g)%R.
Definition all_in_grid (g : grid) (l : list species) : Prop := Forall (fun s => Forall (in_grid g) (sp_ptcl s)) l.
(** Thread numbers for which the chunk computation is exact (C18). *)
Definition threads_ok (nthreads : Z) (l : list species) : Prop :=
  1 <= nthreads /\ Forall (fun s => Z.of_nat (length (sp_ptcl s)) + nthreads <= 2 ^ 53) l.
(** The species that [Simulation.deposit] considers: all but the tracers, or the list given. *)
Definition depositing (ptcl : list species) (sl : option (list species)) : list species :=
  match sl with None => filter (fun s => negb (sp_tracer s)) ptcl | Some l => l end.
(** Charge of a species: q times the sum of the weights (for an ionizable species, of the weights
    times the ionization level); axial current: with the velocity c*uz/gamma. *)
Definition weight (s : species) (p : ptcl) : R := if sp_ionizable s then p_wl p else p_w p.
Definition charge (s : species) : R := (sp_q s * rsum (weight s) (sp_ptcl s))%R.
Definition axial_current (c : R) (s : species) : R :=
  (sp_q s * rsum (fun p => weight s p * (c * p_uz p * p_ig p)) (sp_ptcl s))%R.
(** The same species with its particles in another order. *)
Definition reordered (s s' : species) : Prop :=
  sp_q s = sp_q s' /\ sp_tracer s = sp_tracer s' /\ sp_ionizable s = sp_ionizable s' /\
  sp_shape s = sp_shape s' /\ Permutation (sp_ptcl s) (sp_ptcl s').
(** Species that act on the fields. *)
Definition active (s : species) : bool := negb (sp_tracer s) && (if Req_EM_T (sp_q s) 0 then false else true).
