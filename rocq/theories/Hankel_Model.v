(** The spectral transforms: fields/spectral_transform/{hankel,fourier,numba_methods,
    spectral_transformer}.py, CPU branch. Exact arithmetic. Arrays are functions of their indices.
    Bessel zeros and matrix inverses (scipy.special.jn_zeros, numpy.linalg.inv, pinv) are
    arguments; the FFT libraries are replaced by the sums that they compute. *)
From Verif Require Import Base Fourier_Lib Deposit_Model Deposit_Spec.
From Coq Require Import Reals.
From Coquelicot Require Import Complex.
Open Scope Z_scope.

(** hankel.py:75-83 (and fields.py:187: kr = 2 pi nu): the spectral grid along r; [zeros m] are
    the positive zeros of the Bessel function J_m. *)
Definition alphas (zeros : Z -> Z -> R) (m i : Z) : R :=
  if m =? 0 then zeros 0 i else if i =? 0 then 0%R else zeros m (i - 1).
Definition kr_of (zeros : Z -> Z -> R) (rmax : R) (m i : Z) : R :=
  (2 * PI * (1 / (2 * PI * rmax) * alphas zeros m i))%R.
(** fields.py:176-178: kz_true = 2 pi numpy.fft.fftfreq(Nz, dz) *)
Definition kz_true (Nz : Z) (dz : R) (i : Z) : R :=
  (2 * PI * (IZR (if 2 * i <? Nz then i else i - Nz) / (IZR Nz * dz)))%R.
(** hankel.py:116-122: the matrix M; [inv], [pinv]: the results of numpy.linalg.inv(invM) and
    pinv(invM[1:,:]). *)
Definition dht_M (inv pinv : Z -> Z -> R) (p m : Z) (j i : Z) : R :=
  if negb (m =? 0) && negb (p =? m - 1) then if i =? 0 then 0%R else pinv j (i - 1) else inv j i.
(** hankel.py:93-114: the matrix invM; [jn p x]: the Bessel function (scipy.special.jn), r the grid of
    line 86, nu the one of line 83. *)
Definition dht_invM (jn : Z -> R -> R) (zeros : Z -> Z -> R) (rmax : R) (Nr p m : Z) (i j : Z) : R :=
  let r := (rmax * 1 / IZR Nr * (IZR j + 1 / 2))%R in
  let nu := (1 / (2 * PI * rmax) * alphas zeros m i)%R in
  let p_denom := if p =? m then p + 1 else p in
  let denom := (PI * rmax ^ 2 * jn p_denom (alphas zeros m i) ^ 2)%R in
  let num := jn p (2 * PI * r * nu)%R in
  if m =? 0 then (num / denom)%R
  else if i =? 0 then if p =? m - 1 then (r ^ Z.to_nat (m - 1) * 1 / (PI * rmax ^ Z.to_nat (m + 1)))%R else 0%R
  else (num / denom)%R.

(** numba_methods.py:11-32 numba_copy_2dC_to_2dR *)
Definition copy_2dC_to_2dR (Nz : Z) (a : Z -> Z -> C) : Z -> Z -> R :=
  fun i ir => if i <? Nz then Re (a i ir) else Im (a (i - Nz) ir).
(** numba_methods.py:34-54 numba_copy_2dR_to_2dC *)
Definition copy_2dR_to_2dC (Nz : Z) (a : Z -> Z -> R) : Z -> Z -> C :=
  fun iz ir => Cplus (RtoC (a iz ir)) (Cmult Ci (RtoC (a (iz + Nz) ir))).
(** numpy.dot of real matrices with Nr inner columns *)
Definition np_dot (Nr : Z) (a M : Z -> Z -> R) : Z -> Z -> R :=
  fun i ir => rsum (fun j => (a i j * M j ir)%R) (range Nr).
(** hankel.py:206-212 transform and 237-243 inverse_transform, with M or invM as [M]. *)
Definition dht (Nz Nr : Z) (M : Z -> Z -> R) (F : Z -> Z -> C) : Z -> Z -> C :=
  copy_2dR_to_2dC Nz (np_dot Nr (copy_2dC_to_2dR Nz F) M).
(** fourier.py:104-134 transform: FFT along z *)
Definition fft (Nz : Z) (F : Z -> Z -> C) : Z -> Z -> C :=
  fun iz ir => lsum (fun j => Cmult (cis (- (2 * PI * IZR (iz * j) / IZR Nz))) (F j ir)) (range Nz).
(** fourier.py:136-168 inverse_transform (pyfftw normalizes the backward transform) *)
Definition ifft (Nz : Z) (F : Z -> Z -> C) : Z -> Z -> C :=
  fun iz ir => Cmult (RtoC (1 / IZR Nz))
    (lsum (fun j => Cmult (cis (2 * PI * IZR (iz * j) / IZR Nz)) (F j ir)) (range Nz)).

(** Arrays in memory: several names may point to the same array. [mem b iz ir] is element [iz, ir] of
    the array at address b. *)
Definition memory := Z -> Z -> Z -> C.
Definition store (mem : memory) (b iz ir : Z) (v : C) : memory :=
  fun b' i j => if (b' =? b) && (i =? iz) && (j =? ir) then v else mem b' i j.
(** numba_methods.py:73-80: one iteration of numba_rt_to_pm *)
Definition rt_to_pm_cell (r t p m : Z) (mem : memory) (ij : Z * Z) : memory :=
  let '(iz, ir) := ij in
  let value_r := mem r iz ir in let value_t := mem t iz ir in
  let mem := store mem p iz ir (Cmult (RtoC 0.5) (Cminus value_r (Cmult Ci value_t))) in
  store mem m iz ir (Cmult (RtoC 0.5) (Cplus value_r (Cmult Ci value_t))).
(** numba_methods.py:96-103: one iteration of numba_pm_to_rt *)
Definition pm_to_rt_cell (p m r t : Z) (mem : memory) (ij : Z * Z) : memory :=
  let '(iz, ir) := ij in
  let value_p := mem p iz ir in let value_m := mem m iz ir in
  let mem := store mem r iz ir (Cplus value_p value_m) in
  store mem t iz ir (Cmult Ci (Cminus value_p value_m)).
(** numba_methods.py:60-80, 83-103: the loops, over the cells in the order [cells] (the outer loop is
    parallel). *)
Definition rt_to_pm (r t p m : Z) (cells : list (Z * Z)) (mem : memory) : memory :=
  fold_left (rt_to_pm_cell r t p m) cells mem.
Definition pm_to_rt (p m r t : Z) (cells : list (Z * Z)) (mem : memory) : memory :=
  fold_left (pm_to_rt_cell p m r t) cells mem.

(** spectral_transformer.py:67-69: the three matrices of the transformer of mode m. *)
Record transformer := { t_Nz : Z; t_Nr : Z; t_M0 : Z -> Z -> R; t_Mp : Z -> Z -> R; t_Mm : Z -> Z -> R;
                        t_invM0 : Z -> Z -> R; t_invMp : Z -> Z -> R; t_invMm : Z -> Z -> R }.
(** spectral_transformer.py:86-87: the buffers p and r are the same array, so are m and t. *)
Definition buf_r := 0. Definition buf_t := 1. Definition buf_p := buf_r. Definition buf_m := buf_t.
Definition two_arrays (a b : Z -> Z -> C) : memory := fun i => if i =? buf_r then a else b.
(** spectral_transformer.py:157-177 interp2spect_scal *)
Definition interp2spect_scal (tr : transformer) (F : Z -> Z -> C) : Z -> Z -> C :=
  dht (t_Nz tr) (t_Nr tr) (t_M0 tr) (fft (t_Nz tr) F).
(** spectral_transformer.py:89-109 spect2interp_scal *)
Definition spect2interp_scal (tr : transformer) (G : Z -> Z -> C) : Z -> Z -> C :=
  ifft (t_Nz tr) (dht (t_Nz tr) (t_Nr tr) (t_invM0 tr) G).
(** spectral_transformer.py:179-223 interp2spect_vect; [cells]: the order of the loop. *)
Definition interp2spect_vect (tr : transformer) (cells : list (Z * Z)) (Fr Ft : Z -> Z -> C) : (Z -> Z -> C) * (Z -> Z -> C) :=
  let mem := two_arrays (fft (t_Nz tr) Fr) (fft (t_Nz tr) Ft) in
  let mem := rt_to_pm buf_r buf_t buf_p buf_m cells mem in
  (dht (t_Nz tr) (t_Nr tr) (t_Mp tr) (mem buf_p), dht (t_Nz tr) (t_Nr tr) (t_Mm tr) (mem buf_m)).
(** spectral_transformer.py:111-155 spect2interp_vect *)
Definition spect2interp_vect (tr : transformer) (cells : list (Z * Z)) (Gp Gm : Z -> Z -> C) : (Z -> Z -> C) * (Z -> Z -> C) :=
  let mem := two_arrays (dht (t_Nz tr) (t_Nr tr) (t_invMp tr) Gp) (dht (t_Nz tr) (t_Nr tr) (t_invMm tr) Gm) in
  let mem := pm_to_rt buf_p buf_m buf_r buf_t cells mem in
  (ifft (t_Nz tr) (mem buf_r), ifft (t_Nz tr) (mem buf_t)).
(** spectral_transformer.py:42-87 __init__, for mode m; [inv p], [pinv p]: what numpy.linalg.inv and pinv
    return for the matrix of order p. *)
Definition make_transformer (jn : Z -> R -> R) (zeros : Z -> Z -> R) (rmax : R) (inv pinv : Z -> Z -> Z -> R)
  (Nz Nr m : Z) : transformer :=
  {| t_Nz := Nz; t_Nr := Nr;
     t_M0 := dht_M (inv m) (pinv m) m m; t_Mp := dht_M (inv (m + 1)) (pinv (m + 1)) (m + 1) m;
     t_Mm := dht_M (inv (m - 1)) (pinv (m - 1)) (m - 1) m;
     t_invM0 := dht_invM jn zeros rmax Nr m m; t_invMp := dht_invM jn zeros rmax Nr (m + 1) m;
     t_invMm := dht_invM jn zeros rmax Nr (m - 1) m |}.
