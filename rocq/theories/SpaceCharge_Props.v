(** C43: the initial space-charge field of a bunch. *)
From Verif Require Import Base Fourier_Lib Deposit_Model Deposit_Spec Hankel_Model Smooth_Model Psatd_Model Psatd_Spec SpaceCharge_Model SpaceCharge_Proofs.
From Coq Require Import Reals Lra Lia.
From Coquelicot Require Import Complex.
Open Scope Z_scope.

(** One mode (kz, kr) <> 0 whose source moves rigidly at the velocity v = +- beta c: the fields added obey Gauss' law, div B = 0, Faraday's law and
    Ampere's law, in which d/dt is the multiplication by - i kz v. *)
Theorem C43_maxwell : forall c mu_0 epsilon_0 kz kr gm (backward : bool) s, (0 < c)%R -> (0 < epsilon_0)%R -> (mu_0 * epsilon_0 * c ^ 2 = 1)%R -> (1 <= gm)%R -> ~ (kz = 0%R /\ kr = 0%R) ->
  E_of s = {| vp := RtoC 0; vm := RtoC 0; vz := RtoC 0 |} -> B_of s = {| vp := RtoC 0; vm := RtoC 0; vz := RtoC 0 |} ->
  let v := ((if backward then -1 else 1) * (sqrt (1 - 1 / gm ^ 2) * c))%R in
  Psatd_Model.Jz s = (RtoC v * rho_prev s)%C ->
  let s' := space_charge_spect c mu_0 epsilon_0 kz kr gm backward true s in
  let J := {| vp := RtoC 0; vm := RtoC 0; vz := (RtoC v * rho_prev s)%C |} in
  let ddt := vscal (- (Ci * RtoC kz * RtoC v))%C in
  div kz kr (E_of s') = (rho_prev s / RtoC epsilon_0)%C /\
  div kz kr (B_of s') = RtoC 0 /\
  ddt (B_of s') = vscal (RtoC (-1)) (curl kz kr (E_of s')) /\
  vadd (vscal (RtoC mu_0) J) (vscal (RtoC (1 / c ^ 2)) (ddt (E_of s'))) = curl kz kr (B_of s').
Proof.
  intros c mu_0 epsilon_0 kz kr gm backward s Hc He Hmu Hg Hk HE HB v HJ s' J ddt.
  assert (V : v = (beta_of gm backward * c)%R) by (unfold v, beta_of; destruct backward; ring).
  assert (Z0 : Ep s = RtoC 0 /\ Em s = RtoC 0 /\ Ez s = RtoC 0 /\ Bp s = RtoC 0 /\ Bm s = RtoC 0 /\ Bz s = RtoC 0) by (injection HE; injection HB; auto 10).
  rewrite V in HJ. destruct (maxwell c mu_0 epsilon_0 Hc He Hmu kz kr gm Hg backward s Z0 HJ Hk) as (A1 & A2 & A3 & A4). fold s' in A1, A2, A3, A4.
  split; [exact A1|]. split; [exact A2|]. unfold ddt, J. rewrite V. split.
  - rewrite A3. unfold vscal; cbn [vp vm vz].
    replace (RtoC (-1)) with (- RtoC 1)%C by (apply injective_projections; cbn; ring). f_equal; ring.
  - rewrite A4. f_equal. unfold vscal; cbn [vp vm vz].
    assert (X : RtoC (1 / c ^ 2) = (/ RtoC (c ^ 2))%C) by (rewrite <- RtoC_inv by (apply pow_nonzero; lra); f_equal; field; lra).
    f_equal; rewrite X; unfold Cdiv; ring.
Qed.
Print Assumptions C43_maxwell.

(** From the particles: a species whose macroparticles all have Lorentz factor gm and move along z (backward or forward). Its charge, deposited, transformed
    and smoothed as in the code, is the rho below; then the fields of every mode with (kz, kr) <> 0 obey the same laws. *)
Theorem C43_bunch : forall c mu_0 epsilon_0 g tr cells smooth zeros rmax nthreads m ptcl kz gm (backward : bool),
  (0 < c)%R -> (0 < epsilon_0)%R -> (mu_0 * epsilon_0 * c ^ 2 = 1)%R -> (1 <= gm)%R ->
  grid_ok g -> threads_ok nthreads [ptcl] -> all_in_grid g [ptcl] -> t_Nz tr = g_Nz g -> t_Nr tr = g_Nr g ->
  (forall p, In p (sp_ptcl ptcl) -> p_ig p = 1 / gm /\ p_uz p = (if backward then -1 else 1) * sqrt (gm ^ 2 - 1))%R ->
  forall iz ir, 0 <= iz < g_Nz g -> 0 <= ir < g_Nr g ->
  let kr := kr_of zeros rmax (Z.of_nat m) in ~ (kz iz = 0%R /\ kr ir = 0%R) ->
  let rho := smoothed smooth zeros rmax (g_Nz g) (g_Nr g) (Z.of_nat m) (g_dz g) (g_dr g) (interp2spect_scal tr (deposit c g Rho m nthreads [] (Some [ptcl]))) iz ir in
  let s' := space_charge_fields c mu_0 epsilon_0 g tr cells smooth zeros rmax nthreads m ptcl kz gm backward iz ir in
  let v := ((if backward then -1 else 1) * (sqrt (1 - 1 / gm ^ 2) * c))%R in
  let J := {| vp := RtoC 0; vm := RtoC 0; vz := (RtoC v * rho)%C |} in
  let ddt := vscal (- (Ci * RtoC (kz iz) * RtoC v))%C in
  div (kz iz) (kr ir) (E_of s') = (rho / RtoC epsilon_0)%C /\
  div (kz iz) (kr ir) (B_of s') = RtoC 0 /\
  ddt (B_of s') = vscal (RtoC (-1)) (curl (kz iz) (kr ir) (E_of s')) /\
  vadd (vscal (RtoC mu_0) J) (vscal (RtoC (1 / c ^ 2)) (ddt (E_of s'))) = curl (kz iz) (kr ir) (B_of s').
Proof.
  intros c mu_0 epsilon_0 g tr cells smooth zeros rmax nthreads m ptcl kz gm backward Hc He Hmu Hgm Hg Ht Hi E1 E2 Hp iz ir Hz Hir kr Hk rho s' v J ddt.
  apply C43_maxwell; try assumption; try reflexivity.
  apply (sources_rigid c g tr cells smooth zeros rmax nthreads m ptcl v iz ir); try assumption.
  intros p Hin. destruct (Hp p Hin) as [-> ->]. unfold v. 
  assert (S : (sqrt (gm ^ 2 - 1) = gm * sqrt (1 - 1 / gm ^ 2))%R).
  { rewrite <- (sqrt_pow2 gm) at 2 by lra. rewrite <- sqrt_mult_alt by (apply pow2_ge_0). f_equal. field. lra. }
  rewrite S. field. lra.
Qed.
Print Assumptions C43_bunch.

(** The Lorentz factor used is that of the macroparticles when they all have the same, however they are spread over the ranks. *)
Theorem C43_gamma : forall ranks gm, gm <> 0%R -> (forall l p, In l ranks -> In p l -> snd p = 1 / gm)%R ->
  fold_right Rplus 0%R (map (fun l => fold_right Rplus 0%R (map fst l)) ranks) <> 0%R -> mean_gamma ranks = Some gm.
Proof. exact mean_gamma_ok. Qed.
Print Assumptions C43_gamma.

(** A mode that meets the hypotheses: gm = 5/3, so v = 4/5 c. *)
Example C43_met : let s := {| Ep := RtoC 0; Em := RtoC 0; Ez := RtoC 0; Bp := RtoC 0; Bm := RtoC 0; Bz := RtoC 0; Jp := RtoC 0; Jm := RtoC 0;
     Psatd_Model.Jz := RtoC (-4); rho_prev := RtoC (-5); rho_next := RtoC 0; rho_next_z := RtoC 0; rho_next_xy := RtoC 0 |} in
  E_of s = {| vp := RtoC 0; vm := RtoC 0; vz := RtoC 0 |} /\ Psatd_Model.Jz s = (RtoC (1 * (sqrt (1 - 1 / (5 / 3) ^ 2) * 1)) * rho_prev s)%C /\
  Ep (space_charge_spect 1 1 1 3 1 (5 / 3) false true s) <> RtoC 0.
Proof.
  assert (B : sqrt (1 - 1 / (5 / 3) ^ 2) = (4 / 5)%R). { replace (1 - 1 / (5 / 3) ^ 2)%R with ((4 / 5) ^ 2)%R by field. apply sqrt_pow2. lra. }
  cbv zeta. split; [reflexivity|]. split; [cbn [Psatd_Model.Jz rho_prev]; rewrite B, <- RtoC_mult; f_equal; lra|].
  unfold space_charge_spect. cbv zeta. cbn [set_B set_E Ep rho_prev]. destruct (Req_EM_T _ 0) as [E|E]; [lra|].
  intros X. apply (f_equal Re) in X. cbn in X. field_simplify in X. lra.
Qed.
