(** C85: the field solver on a GPU. *)
From Verif Require Import Base Fourier_Lib Psatd_Model Psatd_Spec Psatd_Proofs Psatd_Props Pml_Model Cuda_Model Cuda_Proofs GDamp_Proofs GSpect_Model GSpect_Spec GSpect_Proofs.
From Verif Require Window_Model.
From Coq Require Import Reals Lra Lia.
From Coquelicot Require Import Complex.
Open Scope Z_scope.

(** One field step on the GPU (correction of the currents if [corr], push of E and B, of the PML arrays if [use_pml], and of
    rho), as five kernels whose threads run in any interleaving: every mode ends with the value that the CPU code gives. *)
Theorem C85_field_step : forall c mu_0 epsilon_0 Nz Nr dt V cc use_pml use_true_rho corr ps kz kr M M',
  0 <= Nz <= 2 ^ 52 -> 0 <= Nr <= 2 ^ 52 ->
  outcome (gpu_field_step c mu_0 epsilon_0 Nz Nr dt V cc use_pml use_true_rho corr ps kz kr) M M' ->
  forall iz ir, 0 <= iz < Nz -> 0 <= ir < Nr -> co_V (ps iz ir) = V -> co_dt (ps iz ir) = dt ->
  let s := mode_at M iz ir in
  let s1 := if corr then correct_currents dt (ps iz ir) cc (kz iz ir) (kr iz ir) s else s in
  (mode_at M' iz ir, pml_at M' iz ir) =
    if use_pml then push_pml c mu_0 epsilon_0 (ps iz ir) use_true_rho (kz iz ir) (kr iz ir) (s1, pml_at M iz ir)
    else (push c mu_0 epsilon_0 (ps iz ir) use_true_rho (kz iz ir) (kr iz ir) s1, pml_at M iz ir).
Proof. intros c mu_0 epsilon_0 Nz Nr dt V cc up utr corr ps kz kr M M' Hz Hr. apply field_step_same; assumption. Qed.
Print Assumptions C85_field_step.

(** Hence for instance: the magnetic field stays divergence-free, and the corrected currents conserve charge. *)
Theorem C85_divB : forall c mu_0 epsilon_0 Nz Nr dt V cc use_pml use_true_rho corr ps kz kr M M',
  0 <= Nz <= 2 ^ 52 -> 0 <= Nr <= 2 ^ 52 ->
  outcome (gpu_field_step c mu_0 epsilon_0 Nz Nr dt V cc use_pml use_true_rho corr ps kz kr) M M' ->
  forall iz ir, 0 <= iz < Nz -> 0 <= ir < Nr -> co_V (ps iz ir) = V -> co_dt (ps iz ir) = dt ->
  div (kz iz ir) (kr iz ir) (B_of (mode_at M iz ir)) = RtoC 0 -> div (kz iz ir) (kr iz ir) (B_of (mode_at M' iz ir)) = RtoC 0.
Proof.
  intros c mu_0 epsilon_0 Nz Nr dt V cc up utr corr ps kz kr M M' HNz HNr H iz ir Hz Hr HV Hdt HB.
  assert (E := field_step_same c mu_0 epsilon_0 Nz Nr HNz HNr _ _ _ _ _ _ _ _ _ _ _ H iz ir Hz Hr HV Hdt). cbv zeta in E.
  assert (Em : mode_at M' iz ir = push c mu_0 epsilon_0 (ps iz ir) utr (kz iz ir) (kr iz ir)
    (if corr then correct_currents dt (ps iz ir) cc (kz iz ir) (kr iz ir) (mode_at M iz ir) else mode_at M iz ir)).
  { destruct up; [|exact (f_equal fst E)]. unfold push_pml, push_eb_with_pml in E. exact (f_equal fst E). }
  rewrite Em. clear E Em H.
  assert (F := fun s' => C32_divB c mu_0 epsilon_0 (ps iz ir) cc utr corr false (kz iz ir) (kr iz ir)
    [{| s_Jp := Jp (mode_at M iz ir); s_Jm := Jm (mode_at M iz ir); s_Jz := Jz (mode_at M iz ir); s_rho := rho_next (mode_at M iz ir);
        s_rho_z := rho_next_z (mode_at M iz ir); s_rho_xy := rho_next_xy (mode_at M iz ir) |}] (mode_at M iz ir) s' HB).
  cbn [field_steps] in F. unfold field_step in F. cbn [bind field_steps] in F. rewrite Hdt in F. exact (F _ eq_refl).
Qed.
Print Assumptions C85_divB.
Theorem C85_continuity : forall c mu_0 epsilon_0 Nz Nr dt f kz kr M M', 0 <= Nz <= 2 ^ 52 -> 0 <= Nr <= 2 ^ 52 -> (0 < dt)%R ->
  let ps := fun iz ir => psatd_coeffs c mu_0 epsilon_0 (frame_V f) (frame_gal f) (kz iz ir) (kr iz ir) dt in
  outcome (gpu_correct_currents Nz Nr dt (frame_V f) CurlFree ps kz kr) M M' ->
  forall iz ir, 0 <= iz < Nz -> 0 <= ir < Nr -> ~ (kz iz ir = 0%R /\ kr iz ir = 0%R) -> ~ resonant f (kz iz ir) dt ->
  conserves f (kz iz ir) dt (M (ARho_prev, iz, ir)) (M (ARho_next, iz, ir)) (div (kz iz ir) (kr iz ir) (J_of (mode_at M' iz ir))).
Proof.
  intros c mu_0 epsilon_0 Nz Nr dt f kz kr M M' HNz HNr Hdt ps H iz ir Hz Hr Hk Hres.
  destruct (correct_currents_same Nz Nr HNz HNr _ _ _ _ _ _ _ _ H iz ir Hz Hr eq_refl) as [E _]. rewrite E.
  exact (C34_curlfree c mu_0 epsilon_0 f (kz iz ir) (kr iz ir) dt (mode_at M iz ir) Hdt Hk Hres).
Qed.
Print Assumptions C85_continuity.

(** Erasing, dividing by the cell volume and filtering: the named arrays get the value of the CPU statement in every cell,
    the other arrays keep theirs. [fs]: the arrays given to the kernel. *)
Theorem C85_erase : forall {A : Type} (adec : forall a b : A, {a = b} + {a <> b}) Nz Nr fs M M', 0 <= Nz <= 2 ^ 52 -> 0 <= Nr <= 2 ^ 52 ->
  stream (cloc_dec adec) (gpu_erase Nz Nr fs) M M' ->
  forall a iz ir, 0 <= iz < Nz -> 0 <= ir < Nr -> (In a fs -> M' (a, iz, ir) = RtoC 0) /\ (~ In a fs -> M' (a, iz, ir) = M (a, iz, ir)).
Proof.
  intros A adec Nz Nr fs M M' HNz HNr H a iz ir Hz Hr. rewrite (erase_same Nz Nr HNz HNr adec fs M M' H a iz ir Hz Hr). destruct (in_dec adec a fs); split; tauto.
Qed.
Print Assumptions C85_erase.
Theorem C85_divide_by_volume : forall {A : Type} (adec : forall a b : A, {a = b} + {a <> b}) Nz Nr fs invvol M M', 0 <= Nz <= 2 ^ 52 -> 0 <= Nr <= 2 ^ 52 ->
  NoDup fs -> stream (cloc_dec adec) (gpu_divide_by_volume Nz Nr fs invvol) M M' ->
  forall a iz ir, 0 <= iz < Nz -> 0 <= ir < Nr ->
  (In a fs -> M' (a, iz, ir) = Cmult (M (a, iz, ir)) (RtoC (invvol ir))) /\ (~ In a fs -> M' (a, iz, ir) = M (a, iz, ir)).
Proof.
  intros A adec Nz Nr fs v M M' HNz HNr Hn H a iz ir Hz Hr. rewrite (divide_same Nz Nr HNz HNr adec fs v M M' Hn H a iz ir Hz Hr). destruct (in_dec adec a fs); split; tauto.
Qed.
Print Assumptions C85_divide_by_volume.
Theorem C85_filter : forall {A : Type} (adec : forall a b : A, {a = b} + {a <> b}) Nz Nr fs fz fr M M', 0 <= Nz <= 2 ^ 52 -> 0 <= Nr <= 2 ^ 52 ->
  NoDup fs -> stream (cloc_dec adec) (gpu_filter Nz Nr fs fz fr) M M' ->
  forall a iz ir, 0 <= iz < Nz -> 0 <= ir < Nr ->
  (In a fs -> M' (a, iz, ir) = Cmult (RtoC (fz iz * fr ir)) (M (a, iz, ir))) /\ (~ In a fs -> M' (a, iz, ir) = M (a, iz, ir)).
Proof.
  intros A adec Nz Nr fs fz fr M M' HNz HNr Hn H a iz ir Hz Hr. rewrite (filter_same Nz Nr HNz HNr adec fs fz fr M M' Hn H a iz ir Hz Hr). destruct (in_dec adec a fs); split; tauto.
Qed.
Print Assumptions C85_filter.
(** Shift of the moving window, on the GPU: the arrays of Window_Model, to which C06-C08 apply. *)
Theorem C85_shift : forall Nz Nr use_pml shift_rho shift_currents shift n M M', 0 <= Nz <= 2 ^ 52 -> 0 <= Nr <= 2 ^ 52 ->
  outcome (gpu_shift_spect_grid Nz Nr use_pml shift_rho shift_currents shift n) M M' ->
  forall f iz ir, Z.of_nat iz < Nz -> Z.of_nat ir < Nr ->
    M' (sname_of f, Z.of_nat iz, Z.of_nat ir) =
    Window_Model.shift_spect_grid use_pml shift_rho shift_currents (fun k => shift (Z.of_nat k)) n
      (fun f iz ir => M (sname_of f, Z.of_nat iz, Z.of_nat ir)) f iz ir.
Proof. intros Nz Nr up sr sc shift n M M' HNz HNr H f iz ir Hz Hr. apply (shift_same Nz Nr HNz HNr up sr sc shift n M M' H); lia. Qed.
Print Assumptions C85_shift.
(** Every list of launches has an outcome. *)
Theorem C85_outcome : forall ks M, exists M', outcome ks M M'.
Proof.
  unfold outcome. induction ks as [|x ks IH]; intros M; [exists M; constructor|].
  destruct (executes_exists (cloc_dec sname_dec) x M) as [m1 H1]. destruct (IH m1) as [m2 H2]. exists m2. econstructor; eauto.
Qed.
Print Assumptions C85_outcome.

(** correct_divE has no GPU version: with the fields in the memory of the CPU it does what C37 says; with the fields on the
    GPU, as they are during [Simulation.step] with use_cuda, it raises TypeError for every grid. *)
Theorem C85_divE_cpu : forall epsilon_0 cc g iz ir kz kr (s : mode),
  on_gpu (g_Ep g) = false -> on_gpu (g_Em g) = false -> on_gpu (g_Ez g) = false -> on_gpu (g_rho_prev g) = false ->
  on_gpu (g_kz g) = false -> on_gpu (g_kr g) = false -> (forall k, g_inv_k2 g = Some k -> on_gpu k = false) ->
  data (g_Ep g) iz ir = Ep s -> data (g_Em g) iz ir = Em s -> data (g_Ez g) iz ir = Ez s -> data (g_rho_prev g) iz ir = rho_prev s ->
  data (g_kz g) iz ir = RtoC kz -> data (g_kr g) iz ir = RtoC kr ->
  match g_inv_k2 g, inv_k2 cc kz kr with Some a, Some x => data a iz ir = RtoC x | None, None => True | _, _ => False end ->
  match correct_divE_arrays epsilon_0 g, correct_divE epsilon_0 cc kz kr s with
  | Ok g', Ok s' => data (g_Ep g') iz ir = Ep s' /\ data (g_Em g') iz ir = Em s' /\ data (g_Ez g') iz ir = Ez s'
  | Err e, Err e' => e = e'
  | _, _ => False
  end.
Proof. exact divE_cpu. Qed.
Print Assumptions C85_divE_cpu.
Theorem C85_divE_gpu : forall epsilon_0 g, on_gpu (g_kz g) = false -> forall k, g_inv_k2 g = Some k ->
  correct_divE_arrays epsilon_0 (send_fields g) = Err TypeError.
Proof. exact divE_gpu. Qed.
Print Assumptions C85_divE_gpu.
Definition ones : array := {| on_gpu := false; data := fun _ _ => RtoC 1 |}.
Definition ex_divE : grid_divE := {| g_Ep := ones; g_Em := ones; g_Ez := ones; g_rho_prev := ones; g_kz := ones; g_kr := ones; g_inv_k2 := Some (amap (Cmult (RtoC (1 / 2))) ones) |}.
Theorem C85_divE_refuted : exists g g', correct_divE_arrays 1 g = Ok g' /\ correct_divE_arrays 1 (send_fields g) = Err TypeError.
Proof. exists ex_divE. eexists. split; [unfold correct_divE_arrays, ex_divE, ewise, amap, ones; cbn [g_inv_k2 g_kz g_kr g_Ep g_Em g_Ez g_rho_prev on_gpu Bool.eqb bind]; reflexivity|].
  exact (divE_gpu 1 ex_divE eq_refl _ eq_refl). Qed.
Print Assumptions C85_divE_refuted.

(** The hypotheses are met: a 3 x 40 grid with a nonzero field in each mode, and the correction of the currents, PML on. *)
Definition ex_kz (iz ir : Z) : R := IZR iz.
Definition ex_kr (iz ir : Z) : R := IZR (ir + 1).
Definition ex_ps (iz ir : Z) : coefs := psatd_coeffs 1 1 1 None false (ex_kz iz ir) (ex_kr iz ir) (1 / 2).
Example C85_met : exists M', outcome (gpu_field_step 1 1 1 3 40 (1 / 2) None CurlFree true false true ex_ps ex_kz ex_kr)
  (fun l => RtoC (IZR (snd l + 1))) M' /\ co_V (ex_ps 2 39) = None /\ co_dt (ex_ps 2 39) = (1 / 2)%R /\ NoDup filter_J.
Proof.
  destruct (C85_outcome (gpu_field_step 1 1 1 3 40 (1 / 2) None CurlFree true false true ex_ps ex_kz ex_kr) (fun l => RtoC (IZR (snd l + 1)))) as [M' H].
  exists M'. split; [exact H|]. split; [reflexivity|]. split; [reflexivity|]. repeat constructor; cbn; intuition discriminate.
Qed.
