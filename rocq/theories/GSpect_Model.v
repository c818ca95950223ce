(** The GPU kernels of the field solver: fields/cuda_methods.py, fields/spectral_grid.py (branches with use_cuda),
    fields/interpolation_grid.py:224-306 (idem), boundaries/moving_window.py:134-184, 241-278. Exact (complex) arithmetic.
    The arrays that a kernel may write are addressed by (name, iz, ir); the arrays that no kernel writes (kz, kr, inv_k2, the
    coefficients, filters, invvol and shift factors) are passed as functions of the indices. An array element that occurs
    several times in one statement is loaded once (simplification). *)
From Verif Require Import Base Fourier_Lib Psatd_Model Cuda_Model.
From Coq Require Import Reals.
From Coquelicot Require Import Complex.
Open Scope R_scope.
Open Scope C_scope.

(** spectral_grid.py:86-106: the arrays of one SpectralGrid. *)
Inductive sname := AEp | AEm | AEz | ABp | ABm | ABz | AJp | AJm | AJz | ARho_prev | ARho_next | ARho_next_z | ARho_next_xy
  | AEp_pml | AEm_pml | ABp_pml | ABm_pml.
Definition sname_dec (a b : sname) : {a = b} + {a <> b}.
Proof. decide equality. Defined.
Notation sprog := (prog (sname * Z * Z) C).

Section Kernels.
Context (c mu_0 epsilon_0 : R).   (* scipy.constants *)
Context (Nz Nr : Z).

(** cuda_methods.py:120-141 cuda_correct_currents_curlfree_standard *)
Definition cuda_curlfree_standard (kz kr inv_k2 : Z -> Z -> R) (inv_dt : R) (iz ir : Z) : sprog :=
  if ((iz <? Nz)%Z && (ir <? Nr)%Z)%bool then
    let kz := kz iz ir in let kr := kr iz ir in let inv_k2 := inv_k2 iz ir in
    Load (ARho_next, iz, ir) (fun rho_next => Load (ARho_prev, iz, ir) (fun rho_prev =>
    Load (AJz, iz, ir) (fun jz => Load (AJp, iz, ir) (fun jp => Load (AJm, iz, ir) (fun jm =>
    let F := - (RtoC inv_k2) * ((rho_next - rho_prev) * inv_dt + Ci * kz * jz + kr * (jp - jm)) in
    Load (AJp, iz, ir) (fun jp => Store (AJp, iz, ir) (jp + 0.5 * kr * F) (
    Load (AJm, iz, ir) (fun jm => Store (AJm, iz, ir) (jm + - (0.5) * kr * F) (
    Load (AJz, iz, ir) (fun jz => Store (AJz, iz, ir) (jz + - (Ci) * kz * F) Done))))))))))
  else Done.
(** cuda_methods.py:143-171 cuda_correct_currents_crossdeposition_standard *)
Definition cuda_crossdeposition_standard (kz kr : Z -> Z -> R) (inv_dt : R) (iz ir : Z) : sprog :=
  if ((iz <? Nz)%Z && (ir <? Nr)%Z)%bool then
    let kz := kz iz ir in let kr := kr iz ir in
    Load (AJz, iz, ir) (fun jz => Load (ARho_next, iz, ir) (fun rho_next => Load (ARho_next_xy, iz, ir) (fun rho_xy =>
    Load (ARho_next_z, iz, ir) (fun rho_z => Load (ARho_prev, iz, ir) (fun rho_prev =>
    let Dz := Ci * kz * jz + 0.5 * inv_dt * (rho_next - rho_xy + rho_z - rho_prev) in
    Load (AJp, iz, ir) (fun jp => Load (AJm, iz, ir) (fun jm => Load (ARho_next, iz, ir) (fun rho_next =>
    Load (ARho_next_z, iz, ir) (fun rho_z => Load (ARho_next_xy, iz, ir) (fun rho_xy => Load (ARho_prev, iz, ir) (fun rho_prev =>
    let Dxy := kr * (jp - jm) + 0.5 * inv_dt * (rho_next - rho_z + rho_xy - rho_prev) in
    let last := if Req_EM_T kz 0 then Done
                else Load (AJz, iz, ir) (fun jz => Store (AJz, iz, ir) (jz + Ci * Dz * RtoC (1 / kz)) Done) in
    if Req_EM_T kr 0 then last
    else Load (AJp, iz, ir) (fun jp => Store (AJp, iz, ir) (jp + - (0.5) * Dxy * RtoC (1 / kr)) (
         Load (AJm, iz, ir) (fun jm => Store (AJm, iz, ir) (jm + 0.5 * Dxy * RtoC (1 / kr)) last)))
    )))))))))))
  else Done.
(** cuda_methods.py:173-197 cuda_correct_currents_curlfree_comoving *)
Definition cuda_curlfree_comoving (kz kr inv_k2 : Z -> Z -> R) (j_corr T_eb T_cc : Z -> Z -> C) (iz ir : Z) : sprog :=
  if ((iz <? Nz)%Z && (ir <? Nr)%Z)%bool then
    let kz := kz iz ir in let kr := kr iz ir in let inv_k2 := inv_k2 iz ir in
    Load (ARho_next, iz, ir) (fun rho_next => Load (ARho_prev, iz, ir) (fun rho_prev =>
    Load (AJz, iz, ir) (fun jz => Load (AJp, iz, ir) (fun jp => Load (AJm, iz, ir) (fun jm =>
    let F := - (RtoC inv_k2) * (T_cc iz ir * j_corr iz ir * (rho_next - rho_prev * T_eb iz ir) + Ci * kz * jz + kr * (jp - jm)) in
    Load (AJp, iz, ir) (fun jp => Store (AJp, iz, ir) (jp + 0.5 * kr * F) (
    Load (AJm, iz, ir) (fun jm => Store (AJm, iz, ir) (jm + - (0.5) * kr * F) (
    Load (AJz, iz, ir) (fun jz => Store (AJz, iz, ir) (jz + - (Ci) * kz * F) Done))))))))))
  else Done.
(** cuda_methods.py:199-231 cuda_correct_currents_crossdeposition_comoving *)
Definition cuda_crossdeposition_comoving (kz kr : Z -> Z -> R) (j_corr T_eb T_cc : Z -> Z -> C) (iz ir : Z) : sprog :=
  if ((iz <? Nz)%Z && (ir <? Nr)%Z)%bool then
    let kz := kz iz ir in let kr := kr iz ir in let T_eb := T_eb iz ir in let T_cc := T_cc iz ir in let j_corr := j_corr iz ir in
    Load (AJz, iz, ir) (fun jz => Load (ARho_next, iz, ir) (fun rho_next => Load (ARho_next_xy, iz, ir) (fun rho_xy =>
    Load (ARho_next_z, iz, ir) (fun rho_z => Load (ARho_prev, iz, ir) (fun rho_prev =>
    let Dz := Ci * kz * jz + 0.5 * T_cc * j_corr * (rho_next - T_eb * rho_xy + rho_z - T_eb * rho_prev) in
    Load (AJp, iz, ir) (fun jp => Load (AJm, iz, ir) (fun jm => Load (ARho_next, iz, ir) (fun rho_next =>
    Load (ARho_next_xy, iz, ir) (fun rho_xy => Load (ARho_next_z, iz, ir) (fun rho_z => Load (ARho_prev, iz, ir) (fun rho_prev =>
    let Dxy := kr * (jp - jm) + 0.5 * T_cc * j_corr * (rho_next + T_eb * rho_xy - rho_z - T_eb * rho_prev) in
    let last := if Req_EM_T kz 0 then Done
                else Load (AJz, iz, ir) (fun jz => Store (AJz, iz, ir) (jz + Ci * Dz * RtoC (1 / kz)) Done) in
    if Req_EM_T kr 0 then last
    else Load (AJp, iz, ir) (fun jp => Store (AJp, iz, ir) (jp + - (0.5) * Dxy * RtoC (1 / kr)) (
         Load (AJm, iz, ir) (fun jm => Store (AJm, iz, ir) (jm + 0.5 * Dxy * RtoC (1 / kr)) last)))
    )))))))))))
  else Done.

(** cuda_methods.py:234-302 cuda_push_eb_standard; c2 = c**2 (line 11). [ps iz ir]: the elements of the coefficient arrays. *)
Definition cuda_push_eb_standard (ps : Z -> Z -> coefs) (kr kz : Z -> Z -> R) (dt : R) (use_true_rho : bool) (iz ir : Z) : sprog :=
  if ((iz <? Nz)%Z && (ir <? Nr)%Z)%bool then
    let c2 := RtoC (c ^ 2) in let kz := kz iz ir in let kr := kr iz ir in
    let Cw := co_C (ps iz ir) in let S_w := co_S_w (ps iz ir) in let j_coef := co_j (ps iz ir) in
    let prev_coef := co_rho_prev (ps iz ir) in let next_coef := co_rho_next (ps iz ir) in
    Load (AEp, iz, ir) (fun Ep_old => Load (AEm, iz, ir) (fun Em_old => Load (AEz, iz, ir) (fun Ez_old =>
    let rest := fun rho_diff : C =>
      Load (AEp, iz, ir) (fun ep => Load (ABz, iz, ir) (fun bz => Load (ABp, iz, ir) (fun bp => Load (AJp, iz, ir) (fun jp =>
      Store (AEp, iz, ir) (Cw * ep + 0.5 * kr * rho_diff + c2 * S_w * (- (Ci) * 0.5 * kr * bz + kz * bp - mu_0 * jp)) (
      Load (AEm, iz, ir) (fun em => Load (ABz, iz, ir) (fun bz => Load (ABm, iz, ir) (fun bm => Load (AJm, iz, ir) (fun jm =>
      Store (AEm, iz, ir) (Cw * em - 0.5 * kr * rho_diff + c2 * S_w * (- (Ci) * 0.5 * kr * bz - kz * bm - mu_0 * jm)) (
      Load (AEz, iz, ir) (fun ez => Load (ABp, iz, ir) (fun bp => Load (ABm, iz, ir) (fun bm => Load (AJz, iz, ir) (fun jz =>
      Store (AEz, iz, ir) (Cw * ez - Ci * kz * rho_diff + c2 * S_w * (Ci * kr * bp + Ci * kr * bm - mu_0 * jz)) (
      Load (ABp, iz, ir) (fun bp => Load (AJz, iz, ir) (fun jz => Load (AJp, iz, ir) (fun jp =>
      Store (ABp, iz, ir) (Cw * bp - S_w * (- (Ci) * 0.5 * kr * Ez_old + kz * Ep_old) + j_coef * (- (Ci) * 0.5 * kr * jz + kz * jp)) (
      Load (ABm, iz, ir) (fun bm => Load (AJz, iz, ir) (fun jz => Load (AJm, iz, ir) (fun jm =>
      Store (ABm, iz, ir) (Cw * bm - S_w * (- (Ci) * 0.5 * kr * Ez_old - kz * Em_old) + j_coef * (- (Ci) * 0.5 * kr * jz - kz * jm)) (
      Load (ABz, iz, ir) (fun bz => Load (AJp, iz, ir) (fun jp => Load (AJm, iz, ir) (fun jm =>
      Store (ABz, iz, ir) (Cw * bz - S_w * (Ci * kr * Ep_old + Ci * kr * Em_old) + j_coef * (Ci * kr * jp + Ci * kr * jm))
      Done)))))))))))))))))))))))))) in
    if use_true_rho then
      Load (ARho_next, iz, ir) (fun rho_next => Load (ARho_prev, iz, ir) (fun rho_prev => rest (next_coef * rho_next - prev_coef * rho_prev)))
    else
      Load (AEp, iz, ir) (fun ep => Load (AEm, iz, ir) (fun em => Load (AEz, iz, ir) (fun ez =>
      let divE := kr * (ep - em) + Ci * kz * ez in
      Load (AJp, iz, ir) (fun jp => Load (AJm, iz, ir) (fun jm => Load (AJz, iz, ir) (fun jz =>
      let divJ := kr * (jp - jm) + Ci * kz * jz in
      rest ((next_coef - prev_coef) * epsilon_0 * divE - next_coef * dt * divJ)))))))
    )))
  else Done.
(** cuda_methods.py:304-331 cuda_push_eb_pml_standard *)
Definition cuda_push_eb_pml_standard (ps : Z -> Z -> coefs) (kr : Z -> Z -> R) (iz ir : Z) : sprog :=
  if ((iz <? Nz)%Z && (ir <? Nr)%Z)%bool then
    let c2 := RtoC (c ^ 2) in let kr := kr iz ir in let Cw := co_C (ps iz ir) in let S_w := co_S_w (ps iz ir) in
    Load (AEp_pml, iz, ir) (fun f => Load (ABz, iz, ir) (fun bz => Store (AEp_pml, iz, ir) (Cw * f + c2 * S_w * (- (Ci) * 0.5 * kr * bz)) (
    Load (AEm_pml, iz, ir) (fun f => Load (ABz, iz, ir) (fun bz => Store (AEm_pml, iz, ir) (Cw * f + c2 * S_w * (- (Ci) * 0.5 * kr * bz)) (
    Load (ABp_pml, iz, ir) (fun f => Load (AEz, iz, ir) (fun ez => Store (ABp_pml, iz, ir) (Cw * f - S_w * (- (Ci) * 0.5 * kr * ez)) (
    Load (ABm_pml, iz, ir) (fun f => Load (AEz, iz, ir) (fun ez => Store (ABm_pml, iz, ir) (Cw * f - S_w * (- (Ci) * 0.5 * kr * ez))
    Done)))))))))))
  else Done.
(** cuda_methods.py:333-409 cuda_push_eb_comoving *)
Definition cuda_push_eb_comoving (ps : Z -> Z -> coefs) (kr kz : Z -> Z -> R) (V : R) (use_true_rho : bool) (iz ir : Z) : sprog :=
  if ((iz <? Nz)%Z && (ir <? Nr)%Z)%bool then
    let c2 := RtoC (c ^ 2) in let kz := kz iz ir in let kr := kr iz ir in
    let Cw := co_C (ps iz ir) in let S_w := co_S_w (ps iz ir) in let j_coef := co_j (ps iz ir) in
    let prev_coef := co_rho_prev (ps iz ir) in let next_coef := co_rho_next (ps iz ir) in
    let T_eb := co_T_eb (ps iz ir) in let T_cc := co_T_cc (ps iz ir) in let T_rho := co_T_rho (ps iz ir) in
    Load (AEp, iz, ir) (fun Ep_old => Load (AEm, iz, ir) (fun Em_old => Load (AEz, iz, ir) (fun Ez_old =>
    let rest := fun rho_diff : C =>
      Load (AEp, iz, ir) (fun ep => Load (AJp, iz, ir) (fun jp => Load (ABz, iz, ir) (fun bz => Load (ABp, iz, ir) (fun bp =>
      Store (AEp, iz, ir) (T_eb * Cw * ep + 0.5 * kr * rho_diff + j_coef * Ci * kz * V * jp
         + c2 * T_eb * S_w * (- (Ci) * 0.5 * kr * bz + kz * bp - mu_0 * T_cc * jp)) (
      Load (AEm, iz, ir) (fun em => Load (AJm, iz, ir) (fun jm => Load (ABz, iz, ir) (fun bz => Load (ABm, iz, ir) (fun bm =>
      Store (AEm, iz, ir) (T_eb * Cw * em - 0.5 * kr * rho_diff + j_coef * Ci * kz * V * jm
         + c2 * T_eb * S_w * (- (Ci) * 0.5 * kr * bz - kz * bm - mu_0 * T_cc * jm)) (
      Load (AEz, iz, ir) (fun ez => Load (AJz, iz, ir) (fun jz => Load (ABp, iz, ir) (fun bp => Load (ABm, iz, ir) (fun bm =>
      Store (AEz, iz, ir) (T_eb * Cw * ez - Ci * kz * rho_diff + j_coef * Ci * kz * V * jz
         + c2 * T_eb * S_w * (Ci * kr * bp + Ci * kr * bm - mu_0 * T_cc * jz)) (
      Load (ABp, iz, ir) (fun bp => Load (AJz, iz, ir) (fun jz => Load (AJp, iz, ir) (fun jp =>
      Store (ABp, iz, ir) (T_eb * Cw * bp - T_eb * S_w * (- (Ci) * 0.5 * kr * Ez_old + kz * Ep_old) + j_coef * (- (Ci) * 0.5 * kr * jz + kz * jp)) (
      Load (ABm, iz, ir) (fun bm => Load (AJz, iz, ir) (fun jz => Load (AJm, iz, ir) (fun jm =>
      Store (ABm, iz, ir) (T_eb * Cw * bm - T_eb * S_w * (- (Ci) * 0.5 * kr * Ez_old - kz * Em_old) + j_coef * (- (Ci) * 0.5 * kr * jz - kz * jm)) (
      Load (ABz, iz, ir) (fun bz => Load (AJp, iz, ir) (fun jp => Load (AJm, iz, ir) (fun jm =>
      Store (ABz, iz, ir) (T_eb * Cw * bz - T_eb * S_w * (Ci * kr * Ep_old + Ci * kr * Em_old) + j_coef * (Ci * kr * jp + Ci * kr * jm))
      Done)))))))))))))))))))))))))) in
    if use_true_rho then
      Load (ARho_next, iz, ir) (fun rho_next => Load (ARho_prev, iz, ir) (fun rho_prev => rest (next_coef * rho_next - prev_coef * rho_prev)))
    else
      Load (AEp, iz, ir) (fun ep => Load (AEm, iz, ir) (fun em => Load (AEz, iz, ir) (fun ez =>
      let divE := kr * (ep - em) + Ci * kz * ez in
      Load (AJp, iz, ir) (fun jp => Load (AJm, iz, ir) (fun jm => Load (AJz, iz, ir) (fun jz =>
      let divJ := kr * (jp - jm) + Ci * kz * jz in
      rest ((T_eb * next_coef - prev_coef) * epsilon_0 * divE + T_rho * next_coef * divJ)))))))
    )))
  else Done.
(** cuda_methods.py:414-440 cuda_push_eb_pml_comoving *)
Definition cuda_push_eb_pml_comoving (ps : Z -> Z -> coefs) (kr : Z -> Z -> R) (iz ir : Z) : sprog :=
  if ((iz <? Nz)%Z && (ir <? Nr)%Z)%bool then
    let c2 := RtoC (c ^ 2) in let kr := kr iz ir in let Cw := co_C (ps iz ir) in let S_w := co_S_w (ps iz ir) in
    let T_eb := co_T_eb (ps iz ir) in
    Load (AEp_pml, iz, ir) (fun f => Load (ABz, iz, ir) (fun bz => Store (AEp_pml, iz, ir) (T_eb * Cw * f + c2 * T_eb * S_w * (- (Ci) * 0.5 * kr * bz)) (
    Load (AEm_pml, iz, ir) (fun f => Load (ABz, iz, ir) (fun bz => Store (AEm_pml, iz, ir) (T_eb * Cw * f + c2 * T_eb * S_w * (- (Ci) * 0.5 * kr * bz)) (
    Load (ABp_pml, iz, ir) (fun f => Load (AEz, iz, ir) (fun ez => Store (ABp_pml, iz, ir) (T_eb * Cw * f - T_eb * S_w * (- (Ci) * 0.5 * kr * ez)) (
    Load (ABm_pml, iz, ir) (fun f => Load (AEz, iz, ir) (fun ez => Store (ABm_pml, iz, ir) (T_eb * Cw * f - T_eb * S_w * (- (Ci) * 0.5 * kr * ez))
    Done)))))))))))
  else Done.
(** cuda_methods.py:442-464 cuda_push_rho *)
Definition cuda_push_rho (iz ir : Z) : sprog :=
  if ((iz <? Nz)%Z && (ir <? Nr)%Z)%bool then
    Load (ARho_next, iz, ir) (fun v => Store (ARho_prev, iz, ir) v (Store (ARho_next, iz, ir) (RtoC 0) Done))
  else Done.

(** spectral_grid.py:214-255 correct_currents with use_cuda; the array d_inv_k2 is the copy of inv_k2 (spectral_grid.py:130-137). *)
Definition gpu_correct_currents (dt : R) (V : option R) (cc : correction) (ps : Z -> Z -> coefs) (kz kr : Z -> Z -> R) : list (list sprog) :=
  let inv_dt := (1 / dt)%R in
  let dims := cuda_tpb_bpg_2d Nz Nr 1 16 in
  let k2 := fun iz ir => match inv_k2 cc (kz iz ir) (kr iz ir) with Some x => x | None => 0%R end in
  let j_corr := fun iz ir => co_j_corr (ps iz ir) in let T_eb := fun iz ir => co_T_eb (ps iz ir) in let T_cc := fun iz ir => co_T_cc (ps iz ir) in
  match V, cc with
  | None, CurlFree => [launch_2d dims (cuda_curlfree_standard kz kr k2 inv_dt)]
  | None, CrossDeposition => [launch_2d dims (cuda_crossdeposition_standard kz kr inv_dt)]
  | Some _, CurlFree => [launch_2d dims (cuda_curlfree_comoving kz kr k2 j_corr T_eb T_cc)]
  | Some _, CrossDeposition => [launch_2d dims (cuda_crossdeposition_comoving kz kr j_corr T_eb T_cc)]
  end.
(** spectral_grid.py:336-374 push_eb_with with use_cuda *)
Definition gpu_push_eb_with (dt : R) (V : option R) (use_pml use_true_rho : bool) (ps : Z -> Z -> coefs) (kz kr : Z -> Z -> R) : list (list sprog) :=
  let dims := cuda_tpb_bpg_2d Nz Nr 1 16 in
  match V with
  | None => (if use_pml then [launch_2d dims (cuda_push_eb_pml_standard ps kr)] else []) ++
            [launch_2d dims (cuda_push_eb_standard ps kr kz dt use_true_rho)]
  | Some V => (if use_pml then [launch_2d dims (cuda_push_eb_pml_comoving ps kr)] else []) ++
              [launch_2d dims (cuda_push_eb_comoving ps kr kz V use_true_rho)]
  end.
(** spectral_grid.py:407-417 push_rho with use_cuda *)
Definition gpu_push_rho : list (list sprog) := [launch_2d (cuda_tpb_bpg_2d Nz Nr 1 128) cuda_push_rho].
(** fields.py:271-276 push and 300-302 correct_currents, for one azimuthal mode (each has its own arrays), in the order of
    main.py:530-540. *)
Definition gpu_field_step (dt : R) (V : option R) (cc : correction) (use_pml use_true_rho corr : bool) (ps : Z -> Z -> coefs) (kz kr : Z -> Z -> R) :
  list (list sprog) :=
  (if corr then gpu_correct_currents dt V cc ps kz kr else []) ++ gpu_push_eb_with dt V use_pml use_true_rho ps kz kr ++ gpu_push_rho.
End Kernels.

(** Kernels on any arrays, named by the elements of a type [A]. *)
Section Pointwise.
Context {A : Type} (Nz Nr : Z).
Notation aprog := (prog (A * Z * Z) C).
(** cuda_methods.py:17-36 cuda_erase_scalar and 39-64 cuda_erase_vector: the arrays [fs] *)
Fixpoint store_all (fs : list A) (iz ir : Z) : aprog :=
  match fs with [] => Done | f :: fs => Store (f, iz, ir) (RtoC 0) (store_all fs iz ir) end.
Definition cuda_erase (fs : list A) (iz ir : Z) : aprog :=
  if ((iz <? Nz)%Z && (ir <? Nr)%Z)%bool then store_all fs iz ir else Done.
(** cuda_methods.py:67-88 cuda_divide_scalar_by_volume and 91-117 cuda_divide_vector_by_volume *)
Fixpoint times_all (x : R) (fs : list A) (iz ir : Z) : aprog :=
  match fs with [] => Done | f :: fs => Load (f, iz, ir) (fun v => Store (f, iz, ir) (v * x) (times_all x fs iz ir)) end.
Definition cuda_divide_by_volume (fs : list A) (invvol : Z -> R) (iz ir : Z) : aprog :=
  if ((iz <? Nz)%Z && (ir <? Nr)%Z)%bool then times_all (invvol ir) fs iz ir else Done.
(** cuda_methods.py:466-489 cuda_filter_scalar and 491-517 cuda_filter_vector *)
Fixpoint filter_all (x : C) (fs : list A) (iz ir : Z) : aprog :=
  match fs with [] => Done | f :: fs => Load (f, iz, ir) (fun v => Store (f, iz, ir) (x * v) (filter_all x fs iz ir)) end.
Definition cuda_filter (fs : list A) (filter_z filter_r : Z -> R) (iz ir : Z) : aprog :=
  if ((iz <? Nz)%Z && (ir <? Nr)%Z)%bool then filter_all (RtoC (filter_z iz * filter_r ir)) fs iz ir else Done.
(** moving_window.py:244-278 shift_spect_array_gpu *)
Definition shift_spect_array_gpu (f : A) (shift_factor : Z -> C) (n_move : Z) (iz ir : Z) : aprog :=
  if ((ir <? Nr)%Z && (iz <? Nz)%Z)%bool then
    let power_shift := Nat.iter (Z.abs_nat n_move) (fun p => p * shift_factor iz) (RtoC 1) in
    let power_shift := if (n_move <? 0)%Z then Cconj power_shift else power_shift in
    Load (f, iz, ir) (fun v => Store (f, iz, ir) (v * power_shift) Done)
  else Done.
(** interpolation_grid.py:224-306, spectral_grid.py:433-456: one launch each *)
Definition gpu_erase (fs : list A) : list (list aprog) := [launch_2d (cuda_tpb_bpg_2d Nz Nr 1 128) (cuda_erase fs)].
Definition gpu_divide_by_volume (fs : list A) (invvol : Z -> R) : list (list aprog) :=
  [launch_2d (cuda_tpb_bpg_2d Nz Nr 1 128) (cuda_divide_by_volume fs invvol)].
Definition gpu_filter (fs : list A) (filter_z filter_r : Z -> R) : list (list aprog) :=
  [launch_2d (cuda_tpb_bpg_2d Nz Nr 1 128) (cuda_filter fs filter_z filter_r)].
End Pointwise.
(** spectral_grid.py:433-456 filter: the arrays of each kind (the scalar kinds are the four charge densities). *)
Definition filter_J : list sname := [AJp; AJm; AJz].
Definition filter_E : list sname := [AEp; AEm; AEz].
Definition filter_B : list sname := [ABp; ABm; ABz].
(** moving_window.py:159-184 shift_spect_grid with use_cuda: one launch per array *)
Definition gpu_shift_spect_grid (Nz Nr : Z) (use_pml shift_rho shift_currents : bool) (shift : Z -> C) (n_move : Z) : list (list sprog) :=
  map (fun f => launch_2d (cuda_tpb_bpg_2d Nz Nr 1 128) (shift_spect_array_gpu Nz Nr f shift n_move))
    ([AEp; AEm; AEz; ABp; ABm; ABz] ++ (if use_pml then [AEp_pml; AEm_pml; ABp_pml; ABm_pml] else []) ++
     (if shift_rho then [ARho_prev] else []) ++ (if shift_currents then [AJp; AJm; AJz] else [])).

(** numpy and cupy arrays: an array operation accepts operands in the same memory only (cupy raises TypeError for an operand
    that is a numpy array; numpy defers to cupy). Scalars go with both. *)
Record array := { on_gpu : bool; data : Z -> Z -> C }.
Definition ewise (f : C -> C -> C) (a b : array) : res array :=
  if Bool.eqb (on_gpu a) (on_gpu b) then Ok {| on_gpu := on_gpu a; data := fun iz ir => f (data a iz ir) (data b iz ir) |} else Err TypeError.
Definition amap (f : C -> C) (a : array) : array := {| on_gpu := on_gpu a; data := fun iz ir => f (data a iz ir) |}.
(** The attributes of a SpectralGrid that correct_divE uses; kz, kr and inv_k2 stay numpy arrays (spectral_grid.py:108-120), the
    fields are cupy arrays after send_fields_to_gpu (spectral_grid.py:140-168). *)
Record grid_divE := { g_Ep : array; g_Em : array; g_Ez : array; g_rho_prev : array; g_kz : array; g_kr : array; g_inv_k2 : option array }.
(** spectral_grid.py:299-314 correct_divE, operation by operation, in the order of evaluation *)
Definition correct_divE_arrays (epsilon_0 : R) (g : grid_divE) : res grid_divE :=
  match g_inv_k2 g with
  | None => Err AttributeError
  | Some k2 =>
    bind (ewise Cmult (amap (Cmult Ci) (g_kz g)) (g_Ez g)) (fun a =>
    bind (ewise Cplus (amap (fun x => - x / epsilon_0) (g_rho_prev g)) a) (fun a =>
    bind (ewise Cminus (g_Ep g) (g_Em g)) (fun d =>
    bind (ewise Cmult (g_kr g) d) (fun d =>
    bind (ewise Cplus a d) (fun a =>
    bind (ewise Cmult (amap Copp k2) a) (fun F =>
    bind (ewise Cmult (amap (Cmult 0.5) (g_kr g)) F) (fun x => bind (ewise Cplus (g_Ep g) x) (fun ep =>
    bind (ewise Cmult (amap (Cmult (- (0.5))) (g_kr g)) F) (fun x => bind (ewise Cplus (g_Em g) x) (fun em =>
    bind (ewise Cmult (amap (Cmult (- (Ci))) (g_kz g)) F) (fun x => bind (ewise Cplus (g_Ez g) x) (fun ez =>
    Ok {| g_Ep := ep; g_Em := em; g_Ez := ez; g_rho_prev := g_rho_prev g; g_kz := g_kz g; g_kr := g_kr g; g_inv_k2 := g_inv_k2 g |}))))))))))))
  end.
(** spectral_grid.py:140-168 send_fields_to_gpu and 170-196 receive_fields_from_gpu, on those attributes *)
Definition at_gpu (b : bool) (a : array) : array := {| on_gpu := b; data := data a |}.
Definition send_fields (g : grid_divE) : grid_divE :=
  {| g_Ep := at_gpu true (g_Ep g); g_Em := at_gpu true (g_Em g); g_Ez := at_gpu true (g_Ez g); g_rho_prev := at_gpu true (g_rho_prev g);
     g_kz := g_kz g; g_kr := g_kr g; g_inv_k2 := g_inv_k2 g |}.
