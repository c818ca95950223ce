(** C40: component transforms and copies through the real buffers are exact inverses.
    C56: the spectral grid survives a round trip through the interpolation grid. *)
From Verif Require Import Base Fourier_Lib Deposit_Model Deposit_Spec Hankel_Model Hankel_Spec Hankel_Proofs.
From Coq Require Import Reals Lra Lia.
From Coquelicot Require Import Complex.
Open Scope Z_scope.

(** The conversion loop, run on the same arrays (in place, as in the code) or on separate ones, in
    any order, gives p = (r - i t)/2 and m = (r + i t)/2 in every cell; then the reverse loop gives
    back r and t in every cell. *)
Theorem C40_rt_pm_rt : forall Nz Nr r t p m cells cells' mem,
  r <> t -> p <> m -> (p = r /\ m = t) \/ (p <> r /\ p <> t /\ m <> r /\ m <> t) ->
  all_cells Nz Nr cells -> all_cells Nz Nr cells' ->
  let mem1 := rt_to_pm r t p m cells mem in
  let mem2 := pm_to_rt p m r t cells' mem1 in
  forall iz ir, 0 <= iz < Nz -> 0 <= ir < Nr ->
  mem1 p iz ir = ((mem r iz ir - Ci * mem t iz ir) / RtoC 2)%C /\
  mem1 m iz ir = ((mem r iz ir + Ci * mem t iz ir) / RtoC 2)%C /\
  mem2 r iz ir = mem r iz ir /\ mem2 t iz ir = mem t iz ir.
Proof. exact rt_pm_rt_mem. Qed.
Print Assumptions C40_rt_pm_rt.

Theorem C40_pm_rt_pm : forall Nz Nr r t p m cells cells' mem,
  r <> t -> p <> m -> (p = r /\ m = t) \/ (p <> r /\ p <> t /\ m <> r /\ m <> t) ->
  all_cells Nz Nr cells -> all_cells Nz Nr cells' ->
  let mem1 := pm_to_rt p m r t cells mem in
  let mem2 := rt_to_pm r t p m cells' mem1 in
  forall iz ir, 0 <= iz < Nz -> 0 <= ir < Nr ->
  mem1 r iz ir = (mem p iz ir + mem m iz ir)%C /\
  mem1 t iz ir = (Ci * (mem p iz ir - mem m iz ir))%C /\
  mem2 p iz ir = mem p iz ir /\ mem2 m iz ir = mem m iz ir.
Proof. exact pm_rt_pm_mem. Qed.
Print Assumptions C40_pm_rt_pm.

(** Parseval: |r|^2 + |t|^2 = 2 (|p|^2 + |m|^2). *)
Theorem C40_norm : forall Nz Nr r t p m cells mem,
  r <> t -> p <> m -> (p = r /\ m = t) \/ (p <> r /\ p <> t /\ m <> r /\ m <> t) ->
  all_cells Nz Nr cells ->
  let mem1 := rt_to_pm r t p m cells mem in
  forall iz ir, 0 <= iz < Nz -> 0 <= ir < Nr ->
  (Cmod (mem r iz ir) ^ 2 + Cmod (mem t iz ir) ^ 2 = 2 * (Cmod (mem1 p iz ir) ^ 2 + Cmod (mem1 m iz ir) ^ 2))%R.
Proof. exact norm_mem. Qed.
Print Assumptions C40_norm.

(** Through the real-valued buffers and back; and the real matrix product in between is the complex
    one. *)
Theorem C40_copy : forall Nz a iz ir, 0 <= iz < Nz -> copy_2dR_to_2dC Nz (copy_2dC_to_2dR Nz a) iz ir = a iz ir.
Proof. exact copy_copy. Qed.
Print Assumptions C40_copy.
Theorem C40_gemm : forall Nz Nr M F iz ir, 0 <= iz < Nz ->
  dht Nz Nr M F iz ir = lsum (fun j => (F iz j * RtoC (M j ir))%C) (range Nr).
Proof. exact dht_sum. Qed.
Print Assumptions C40_gemm.

(** A scalar field: exact, but for the mode kr = 0 of m <> 0, which is erased. *)
Theorem C56_scalar : forall jn zeros rmax inv pinv Nz Nr m, inverses_ok jn zeros rmax inv pinv Nr m ->
  forall G iz ir, 0 <= iz < Nz -> 0 <= ir < Nr ->
  let tr := make_transformer jn zeros rmax inv pinv Nz Nr m in
  interp2spect_scal tr (spect2interp_scal tr G) iz ir = if negb (m =? 0) && (ir =? 0) then RtoC 0 else G iz ir.
Proof. intros. apply scal_roundtrip; auto. Qed.
Print Assumptions C56_scalar.

(** A vector field: the same for the p component; the m component is always kept. *)
Theorem C56_vector : forall jn zeros rmax inv pinv Nz Nr m, inverses_ok jn zeros rmax inv pinv Nr m ->
  forall cells cells' Gp Gm iz ir, all_cells Nz Nr cells -> all_cells Nz Nr cells' -> 0 <= iz < Nz -> 0 <= ir < Nr ->
  let tr := make_transformer jn zeros rmax inv pinv Nz Nr m in
  let '(Fr, Ft) := spect2interp_vect tr cells Gp Gm in
  let '(Gp', Gm') := interp2spect_vect tr cells' Fr Ft in
  Gp' iz ir = (if negb (m =? 0) && (ir =? 0) then RtoC 0 else Gp iz ir) /\ Gm' iz ir = Gm iz ir.
Proof. intros. apply vect_roundtrip; auto. Qed.
Print Assumptions C56_vector.

(** The radial modes are distinct (increasing wavenumbers, for increasing positive zeros of the Bessel functions), and the mode
    that is erased is the only one whose radial wavenumber is 0: it exists exactly for m <> 0. *)
Theorem C56_wavenumbers : forall zeros rmax m, (0 < rmax)%R -> (forall i : Z, 0 <= i -> (0 < zeros m i < zeros m (i + 1)%Z)%R) ->
  forall i, 0 <= i -> (kr_of zeros rmax m i < kr_of zeros rmax m (i + 1)%Z)%R /\ (kr_of zeros rmax m i = 0%R <-> m <> 0 /\ i = 0).
Proof. exact wavenumbers. Qed.
Print Assumptions C56_wavenumbers.

(** Concrete cases: the code's aliasing on a 1 x 2 grid. *)
Example C40_met : buf_r <> buf_t /\ buf_p <> buf_m /\ (buf_p = buf_r /\ buf_m = buf_t) /\
  all_cells 1 2 [(0, 1); (0, 0)].
Proof.
  repeat split; try (unfold buf_p, buf_m, buf_r, buf_t; lia).
  - repeat constructor; cbn; intuition discriminate.
  - intros i j [Hi Hj]. assert (i = 0) by lia. assert (j = 0 \/ j = 1) as [->| ->] by lia; subst; cbn; auto.
Qed.
(** m = 1, two radial cells, with another (simpler) family of functions in the place of the Bessel
    functions. *)
Example C56_met : inverses_ok (fun _ x => x) (fun _ _ => 1%R) 1 
  (fun _ j i => PI * (if j =? 0 then if i =? 0 then 3 / 2 else - 2 else if i =? 0 then - 1 / 2 else 2))%R
  (fun _ j i => PI * (if j =? 0 then 0 else 4 / 3))%R 2 1.
Proof.
  pose proof PI_RGT_0. intros p Hp. split.
  - intros Hp'. assert (p = 0) as -> by lia. intros i k Hi Hk. unfold rsum. change (range 2) with [0; 1]. cbn [fold_right].
    assert (i = 0 \/ i = 1) as [->| ->] by lia; assert (k = 0 \/ k = 1) as [->| ->] by lia;
      unfold dht_invM, alphas, delta_R; cbn [Z.eqb Pos.eqb]; change (1 - 1) with 0; change (Z.to_nat 0) with 0%nat;
      change (Z.to_nat (1 + 1)) with 2%nat; cbn [Z.eqb Pos.eqb]; field; lra.
  - intros _ Np i k Hi Hk. assert (i = 1) as -> by lia. assert (k = 0) as -> by lia.
    cbn in Hp. unfold rsum. change (range 2) with [0; 1]. cbn [fold_right].
    assert (p = 1 \/ p = 2) as [->| ->] by lia; unfold dht_invM, alphas, delta_R; cbn [Z.eqb Pos.eqb];
      change (0 + 1) with 1; cbn [Z.eqb Pos.eqb]; field; lra.
Qed.
