(** Ruyten coefficients of the interpolation grid: fields/interpolation_grid.py. *)
From Verif Require Import Base Shape_Model Deposit_Model.
From Coq Require Import Reals.
Open Scope R_scope.

(** np.cumsum: [cumsum f n] = f 0 + ... + f n. *)
Definition cumsum (f : Z -> R) (n : Z) : R := fold_right (fun i s => f i + s) 0 (range (n + 1)).
(** interpolation_grid.py:96-97, standard cell volumes. *)
Definition standard_vol (dz dr : R) (ir : Z) : R :=
  let r := (1 / 2 + IZR ir) * dr in
  PI * dz * ((r + 1 / 2 * dr) ^ 2 - (r - 1 / 2 * dr) ^ 2).
(** interpolation_grid.py:109 *)
Definition norm_vol (vol : Z -> R) (dz dr : R) (ir : Z) : R := vol ir / (2 * PI * dr ^ 2 * dz).
(** interpolation_grid.py:110-111, and 135-136 (a 0 is added in front: element k is the
    coefficient n = k-1). *)
Definition ruyten_linear_coef (vol : Z -> R) (dz dr : R) (k : Z) : R :=
  if (k =? 0)%Z then 0 else
  let n := (k - 1)%Z in
  6 / (IZR n + 1) * (cumsum (norm_vol vol dz dr) n - 1 / 2 * (IZR n + 1) ^ 2 - 1 / 24).
(** interpolation_grid.py:112-115 and 137-138. *)
Definition ruyten_cubic_coef (vol : Z -> R) (dz dr : R) (k : Z) : R :=
  if (k =? 0)%Z then 0 else
  let n := (k - 1)%Z in
  if (n =? 0)%Z then 6 * (norm_vol vol dz dr 0 - 1 / 2 - 239 / (15 * 2 ^ 7)) else
  6 / (IZR n + 1) * (cumsum (norm_vol vol dz dr) n - 1 / 2 * (IZR n + 1) ^ 2 - 1 / 8).
(** The grid with use_ruyten_shapes=True; [vol]: volumes of mode 0 (modified or standard, lines
    86-97); the higher modes use the standard volumes. *)
Definition ruyten_grid (dz zmin : R) (Nz : Z) (dr : R) (Nr : Z) (vol : Z -> R) : grid :=
  {| g_dz := dz; g_zmin := zmin; g_Nz := Nz; g_dr := dr; g_Nr := Nr; g_vol := vol;
     g_beta := fun sh m k =>
       let v := match m with O => vol | S _ => standard_vol dz dr end in
       match sh with
       | Linear => ruyten_linear_coef v dz dr k
       | Cubic => ruyten_cubic_coef v dz dr k
       end |}.
