(** C69: a laser defined by its energy has that energy. *)
From Verif Require Import Base Fourier_Lib Laser_Model LaserEn_Spec LagNorm_Lib LaserEn_Proofs.
From Coq Require Import Reals Lra.
From Coquelicot Require Import Coquelicot.
Open Scope R_scope.

(** The integral of |u|^2 over any plane z = const is the value returned by squared_profile_integral, for the four
    transverse profiles: whatever the orders p and m, the order of the flattened beam, and the distance to focus. *)
Theorem C69_transverse : forall k0 dir u l, transverse_profile k0 dir u l -> forall z, plane_integral (fun x y => Cmod (u x y z) ^ 2) l.
Proof. exact transverse_ok. Qed.
Print Assumptions C69_transverse.

(** The integral of the square of the longitudinal profile over z does not depend on the time, on the chirp, or on the phase. *)
Theorem C69_longitudinal : forall c tau z0 lambda0 cep phi2 dir g t, c <> 0 -> tau <> 0 ->
  longitudinal_init c tau z0 lambda0 cep phi2 dir = Ok g ->
  line_integral (fun z => Cmod (longitudinal_evaluate c g z t) ^ 2) (longitudinal_squared_integral g) /\
  longitudinal_squared_integral g = sqrt (PI / 2) * Rabs (c * tau).
Proof.
  intros c tau z0 lambda0 cep phi2 dir g t Hc Ht G. split; [exact (longitudinal_ok c tau z0 lambda0 cep phi2 dir g t Hc Ht G)|].
  unfold longitudinal_init in G. destruct ((dir =? -1) || (dir =? 1))%Z; [|discriminate]. injection G as <-. unfold longitudinal_squared_integral. cbn [g_inv_ctau2].
  pose proof PI_RGT_0. rewrite <- (sqrt_pow2 (Rabs (c * tau))) by apply Rabs_pos. rewrite pow2_abs, <- sqrt_mult by (try lra; apply pow2_ge_0). f_equal.
  unfold Rdiv. rewrite !Rmult_1_l, Rinv_inv. lra.
Qed.
Print Assumptions C69_longitudinal.

(** The energy in space of the pulse of ParaxialApproximationLaser is E_laser at any time, when averaged over two pulses
    whose carrier phases differ by pi/2 (the energy of a single few-cycle pulse depends on the phase of the carrier
    under the envelope). *)
Theorem C69_energy : forall c eps0 tau z0 lambda0 cep phi2 dir g1 g2 k0 d u l E theta l1 l2 t,
  c <> 0 -> tau <> 0 -> 0 < eps0 -> 0 <= E -> transverse_profile k0 d u l ->
  longitudinal_init c tau z0 lambda0 cep phi2 dir = Ok g1 -> longitudinal_init c tau z0 lambda0 (cep + PI / 2) phi2 dir = Ok g2 ->
  paraxial_laser c eps0 g1 k0 d u l E theta = Ok l1 -> paraxial_laser c eps0 g2 k0 d u l E theta = Ok l2 ->
  space_integral (fun x y z => (energy_density eps0 l1 x y z t + energy_density eps0 l2 x y z t) / 2) E.
Proof.
  intros c eps0 tau z0 lambda0 cep phi2 dir g1 g2 k0 d u l E theta l1 l2 t Hc Ht He HE T G1 G2 L1 L2.
  exact (energy_ok c eps0 tau z0 lambda0 cep phi2 dir g1 g2 k0 d u l E theta l1 l2 t Hc Ht He HE T G1 G2 L1 L2 (transverse_pos k0 d u l T)).
Qed.
Print Assumptions C69_energy.

(** The hypotheses are met: a chirped pulse of 2 J, a Laguerre-Gauss mode and a flattened beam, propagating backward. *)
Example C69_met : exists g lg fl, longitudinal_init 299792458 (2e-14) 0 (8e-7) 0 (1e-27) (-1) = Ok g /\
  laguerre_init 2 3 (4e-6) (1e-4) (8e-7) 1 (-1) = Ok lg /\ flattened_init (4e-6) 6 (1e-4) (8e-7) (-1) = Ok fl /\
  (exists l, paraxial_laser 299792458 (8.854e-12) g (t_k0 (l_t lg)) (t_dir (l_t lg)) (laguerre_evaluate lg) (gauss_squared_integral (l_t lg)) 2 0 = Ok l) /\
  (exists l, paraxial_laser 299792458 (8.854e-12) g (t_k0 (f_t fl)) (t_dir (f_t fl)) (flattened_evaluate fl) (flattened_squared_integral fl) 2 0 = Ok l).
Proof.
  do 3 eexists. do 3 (split; [reflexivity|]). split; eexists; unfold paraxial_laser; cbn [g_dir g_k0 t_k0 t_dir l_t f_t];
    (destruct (Req_EM_T _ _) as [_|N]; [|exfalso; apply N; reflexivity]); (destruct (Req_EM_T _ _) as [_|N]; [|exfalso; apply N; reflexivity]); reflexivity.
Qed.
