(** C101: the azimuthal modes of a freshly loaded plasma. *)
From Coq Require Import Reals.
From Coquelicot Require Import Complex.
From Verif Require Import Base Inject_Model Shape_Model Deposit_Model Deposit_Spec GDeposit_Model GDeposit_Spec Ring_Model Ring_Spec Ring_Proofs.
Open Scope Z_scope.

(** Any species loaded with densities that do not depend on the angle, any random shifts: mode m of
    rho (any momenta), of Jz (cold) and of Jr, Jt (cold, moving along z) is exactly zero in each cell as soon as
    the number of particles along theta does not divide m. *)
Theorem C101_modes_empty c g k m nthreads l iz ir : grid_ok g ->
  threads_ok nthreads (depositing l None) -> all_in_grid g (depositing l None) -> 0 <= iz < g_Nz g -> 0 <= ir < g_Nr g -> (1 <= m)%nat ->
  Forall (fun s => exists Nptheta u, loaded_with Nptheta u s /\ Z.of_nat m mod Nptheta <> 0 /\ same_velocity k u) (depositing l None) ->
  deposit c g k m nthreads l None iz ir = RtoC 0.
Proof. exact (modes_empty c g k m nthreads l iz ir). Qed.
Print Assumptions C101_modes_empty.
(** The same on GPU. *)
Theorem C101_gpu v100 c g vol Nm ft l l' A A' :
  (forall m, (m < Nm)%nat -> Deposit_Spec.grid_ok (mode_grid g vol m)) -> beta_ok g ->
  Forall (gsp_ok g) l -> Forall (flag_ok g) l -> gpu_deposit c v100 g vol Nm ft l l' A A' ->
  forall k m iz ir, deposited ft k = true -> (1 <= m < Nm)%nat -> 0 <= iz < g_Nz g -> 0 <= ir < g_Nr g ->
  Forall (fun s => exists Nptheta u, loaded_with Nptheta u s /\ Z.of_nat m mod Nptheta <> 0 /\ same_velocity k u)
         (depositing (map cpu_of l) None) ->
  A' k m iz ir = RtoC 0.
Proof. exact (gpu_modes_empty v100 c g vol Nm ft l l' A A'). Qed.
Print Assumptions C101_gpu.
(** In particular with at least as many particles along theta as modes (the documentation recommends four times
    as many), for all the modes of the simulation. *)
Theorem C101_enough_angles m Nm Nptheta : (1 <= m)%nat -> (m < Nm)%nat -> Z.of_nat Nm <= Nptheta -> Z.of_nat m mod Nptheta <> 0.
Proof. exact (mod_small m Nm Nptheta). Qed.
Print Assumptions C101_enough_angles.
(** A plasma at rest or moving along z has no transverse current, mode 0 included. *)
Theorem C101_no_transverse_current c g k m nthreads l iz ir : grid_ok g ->
  threads_ok nthreads (depositing l None) -> all_in_grid g (depositing l None) -> 0 <= iz < g_Nz g -> 0 <= ir < g_Nr g -> k = Jr \/ k = Jt ->
  Forall (fun s => exists Nptheta u, loaded_with Nptheta u s /\ cold u /\ longitudinal u) (depositing l None) ->
  deposit c g k m nthreads l None iz ir = RtoC 0.
Proof. exact (no_transverse c g k m nthreads l iz ir). Qed.
Print Assumptions C101_no_transverse_current.
(** The condition on the number of angles cannot be dropped: two particles along theta give a
    charge density in mode 2. *)
Theorem C101_too_few_angles c : exists g l, grid_ok g /\ threads_ok 1 (depositing l None) /\ all_in_grid g (depositing l None) /\
  Forall (fun s => exists u, loaded_with 2 u s /\ cold u /\ longitudinal u) (depositing l None) /\
  ~ (forall iz ir, 0 <= iz < g_Nz g -> 0 <= ir < g_Nr g -> deposit c g Rho 2 1 l None iz ir = RtoC 0).
Proof. exact (too_few c). Qed.
Print Assumptions C101_too_few_angles.

(** Eight particles on one ring, mode 2. *)
Example C101_met : exists l, threads_ok 1 (depositing l None) /\ all_in_grid rg (depositing l None) /\
  Forall (fun s => exists Nptheta u, loaded_with Nptheta u s /\ Z.of_nat 2 mod Nptheta <> 0 /\ same_velocity Jr u) (depositing l None) /\
  exists s, depositing l None = [s] /\ length (sp_ptcl s) = 8%nat.
Proof. exact ring_met. Qed.
