(** The Fourier-Hankel transforms on a GPU, and the FFT of the CPU through MKL: fields/spectral_transform/{cuda_methods, fourier,
    hankel, mkl_fft, spectral_transformer}.py. Exact arithmetic. The libraries (cuFFT, cuBLAS, MKL) are modelled at the level of
    their interface: what they read and write in flat buffers, as their manuals describe it. *)
From Verif Require Import Base Fourier_Lib Deposit_Spec Hankel_Model Cuda_Model.
From Coq Require Import Reals.
From Coquelicot Require Import Complex.
Open Scope Z_scope.

(** The elements of the arrays on the GPU: 2d complex arrays (grids, and the two buffers of spectral_transformer.py:71-87); the 1d
    buffers of fourier.py:73-76; the real buffers d_in, d_out of the Hankel transform [d] (hankel.py:141-142), as flat arrays (element
    [i, ir] of an array with Nr columns in C order is at i*Nr + ir). Real numbers are stored as complex numbers. *)
Inductive tloc := T2 (a iz ir : Z) | B1in (i : Z) | B1out (i : Z) | Rin (d i : Z) | Rout (d i : Z).
Definition tloc_dec (a b : tloc) : {a = b} + {a <> b}.
Proof. decide equality; apply Z.eq_dec. Defined.
Notation tprog := (prog tloc C).
Notation tmem := (@mem tloc C).

(** What is queued on the stream of the GPU: the launch of a kernel, or the call of a library. *)
Inductive op := Kernel (ts : list tprog) | Lib (f : tmem -> tmem).
Inductive runs : list op -> tmem -> tmem -> Prop :=
| runs_nil : forall M, runs [] M M
| runs_kernel : forall ts ops M M1 M2, executes tloc_dec ts M M1 -> runs ops M1 M2 -> runs (Kernel ts :: ops) M M2
| runs_lib : forall f ops M M2, runs ops (f M) M2 -> runs (Lib f :: ops) M M2.

Section Kernels.
Context (Nz Nr : Z).
(** cuda_methods.py:63-87 cuda_copy_2d_to_1d, into buffer1d_in *)
Definition cuda_copy_2d_to_1d (a iz ir : Z) : tprog :=
  if (iz <? Nz) && (ir <? Nr) then let i := iz + Nz * ir in Load (T2 a iz ir) (fun v => Store (B1in i) v Done) else Done.
(** cuda_methods.py:89-113 cuda_copy_1d_to_2d, from buffer1d_out *)
Definition cuda_copy_1d_to_2d (a iz ir : Z) : tprog :=
  if (iz <? Nz) && (ir <? Nr) then let i := iz + Nz * ir in Load (B1out i) (fun v => Store (T2 a iz ir) v Done) else Done.
(** cuda_methods.py:16-38 cuda_copy_2dC_to_2dR *)
Definition cuda_copy_2dC_to_2dR (a d iz ir : Z) : tprog :=
  if (iz <? Nz) && (ir <? Nr) then
    Load (T2 a iz ir) (fun v => Store (Rin d (iz * Nr + ir)) (RtoC (Re v)) (
    Load (T2 a iz ir) (fun v => Store (Rin d ((iz + Nz) * Nr + ir)) (RtoC (Im v)) Done)))
  else Done.
(** cuda_methods.py:40-61 cuda_copy_2dR_to_2dC *)
Definition cuda_copy_2dR_to_2dC (d a iz ir : Z) : tprog :=
  if (iz <? Nz) && (ir <? Nr) then
    Load (Rout d (iz * Nr + ir)) (fun x => Load (Rout d ((iz + Nz) * Nr + ir)) (fun y =>
    Store (T2 a iz ir) (Cplus x (Cmult Ci y)) Done))
  else Done.
(** cuda_methods.py:119-137 cuda_rt_to_pm *)
Definition cuda_rt_to_pm (r t p m iz ir : Z) : tprog :=
  if (iz <? Nz) && (ir <? Nr) then
    Load (T2 r iz ir) (fun value_r => Load (T2 t iz ir) (fun value_t =>
    Store (T2 p iz ir) (Cmult (RtoC 0.5) (Cminus value_r (Cmult Ci value_t))) (
    Store (T2 m iz ir) (Cmult (RtoC 0.5) (Cplus value_r (Cmult Ci value_t))) Done)))
  else Done.
(** cuda_methods.py:140-158 cuda_pm_to_rt *)
Definition cuda_pm_to_rt (p m r t iz ir : Z) : tprog :=
  if (iz <? Nz) && (ir <? Nr) then
    Load (T2 p iz ir) (fun value_p => Load (T2 m iz ir) (fun value_m =>
    Store (T2 r iz ir) (Cplus value_p value_m) (
    Store (T2 t iz ir) (Cmult Ci (Cminus value_p value_m)) Done)))
  else Done.
End Kernels.

(** cupy.cuda.cufft.Plan1d(n, CUFFT_Z2Z, batch).fft(in, out, direction): [batch] transforms of n consecutive elements, not
    normalized. s = -1: CUFFT_FORWARD; s = 1: CUFFT_INVERSE. *)
Definition cufft_plan1d (n batch : Z) (s : R) (M : tmem) : tmem := fun l =>
  match l with
  | B1out i => if (0 <=? i) && (i <? n * batch) then
      lsum (fun j => Cmult (cis (s * (2 * PI * IZR (i mod n * j) / IZR n))) (M (B1in (i / n * n + j)))) (range n)
    else M l
  | _ => M l
  end.
(** cupy.multiply(buffer1d_out, x, out=buffer1d_out); the buffer has n elements *)
Definition multiply_out (n : Z) (x : R) (M : tmem) : tmem := fun l =>
  match l with B1out i => if (0 <=? i) && (i <? n) then Cmult (M l) (RtoC x) else M l | _ => M l end.
(** cublas.dgemm(handle, 0, 0, m, n, k, alpha, A, lda, B, ldb, beta, C, ldc): C := alpha A B + beta C, all in column-major order;
    A: the flat array of a matrix, B: d_in, C: d_out of the Hankel transform d. *)
Definition cublas_dgemm (d m n k : Z) (alpha : R) (A : Z -> R) (lda ldb : Z) (beta : R) (ldc : Z) (M : tmem) : tmem := fun l =>
  match l with
  | Rout d' i => if (d' =? d) && (0 <=? i) && (i mod ldc <? m) && (i / ldc <? n) then
      RtoC (alpha * rsum (fun p : Z => A (i mod ldc + p * lda)%Z * Re (M (Rin d (p + i / ldc * ldb)%Z))) (range k) + beta * Re (M l))%R
    else M l
  | _ => M l
  end.
(** A matrix with Nr columns, in C order *)
Definition flat (Nr : Z) (A : Z -> Z -> R) (i : Z) : R := A (i / Nr) (i mod Nr).

Section Transforms.
Context (Nz Nr : Z) (v100 : bool).
(** fourier.py:66-70 and hankel.py:155-157: the launch geometry of the copies *)
Definition copy_dims : (Z * Z) * (Z * Z) := if v100 then cuda_tpb_bpg_2d Nz Nr 8 32 else cuda_tpb_bpg_2d Nz Nr 2 16.
(** fourier.py:104-134 transform with use_cuda *)
Definition gpu_fft (a b : Z) : list op :=
  [Kernel (launch_2d copy_dims (cuda_copy_2d_to_1d Nz Nr a)); Lib (cufft_plan1d Nz Nr (-1)); Kernel (launch_2d copy_dims (cuda_copy_1d_to_2d Nz Nr b))].
(** fourier.py:136-168 inverse_transform with use_cuda; inv_Nz: line 79 *)
Definition gpu_ifft (a b : Z) : list op :=
  [Kernel (launch_2d copy_dims (cuda_copy_2d_to_1d Nz Nr a)); Lib (cufft_plan1d Nz Nr 1); Lib (multiply_out (Nz * Nr) (1 / IZR Nz));
   Kernel (launch_2d copy_dims (cuda_copy_1d_to_2d Nz Nr b))].
(** hankel.py:182-205 transform and 215-236 inverse_transform with use_cuda, with d_M or d_invM (hankel.py:125-127) as [A]; alpha and
    beta: lines 144-145 *)
Definition gpu_dht (d : Z) (A : Z -> Z -> R) (a b : Z) : list op :=
  [Kernel (launch_2d copy_dims (cuda_copy_2dC_to_2dR Nz Nr a d));
   Lib (cublas_dgemm d Nr (2 * Nz) Nr 1 (flat Nr A) Nr Nr 0 Nr);
   Kernel (launch_2d copy_dims (cuda_copy_2dR_to_2dC Nz Nr d b))].
End Transforms.

(** The three Hankel transforms of a SpectralTransformer (spectral_transformer.py:67-69) have their own buffers. *)
Definition dht0 := 0. Definition dhtp := 1. Definition dhtm := 2.
Section Transformer.
Context (v100 : bool) (tr : transformer).
Let Nz := t_Nz tr. Let Nr := t_Nr tr.
(** spectral_transformer.py:63-65: the launch geometry of the component transforms *)
Definition pm_dims : (Z * Z) * (Z * Z) := cuda_tpb_bpg_2d Nz Nr 1 32.
(** spectral_transformer.py:157-177 interp2spect_scal; buffers: lines 71-87, addresses buf_r = buf_p and buf_t = buf_m *)
Definition gpu_interp2spect_scal (interp spect : Z) : list op :=
  gpu_fft Nz Nr v100 interp buf_r ++ gpu_dht Nz Nr v100 dht0 (t_M0 tr) buf_r spect.
(** spectral_transformer.py:89-109 spect2interp_scal *)
Definition gpu_spect2interp_scal (spect interp : Z) : list op :=
  gpu_dht Nz Nr v100 dht0 (t_invM0 tr) spect buf_r ++ gpu_ifft Nz Nr v100 buf_r interp.
(** spectral_transformer.py:179-223 interp2spect_vect, with use_cuda *)
Definition gpu_interp2spect_vect (interp_r interp_t spect_p spect_m : Z) : list op :=
  gpu_fft Nz Nr v100 interp_r buf_r ++ gpu_fft Nz Nr v100 interp_t buf_t ++
  [Kernel (launch_2d pm_dims (cuda_rt_to_pm Nz Nr buf_r buf_t buf_p buf_m))] ++
  gpu_dht Nz Nr v100 dhtp (t_Mp tr) buf_p spect_p ++ gpu_dht Nz Nr v100 dhtm (t_Mm tr) buf_m spect_m.
(** spectral_transformer.py:111-155 spect2interp_vect, with use_cuda *)
Definition gpu_spect2interp_vect (spect_p spect_m interp_r interp_t : Z) : list op :=
  gpu_dht Nz Nr v100 dhtp (t_invMp tr) spect_p buf_p ++ gpu_dht Nz Nr v100 dhtm (t_invMm tr) spect_m buf_m ++
  [Kernel (launch_2d pm_dims (cuda_pm_to_rt Nz Nr buf_p buf_m buf_r buf_t))] ++
  gpu_ifft Nz Nr v100 buf_r interp_r ++ gpu_ifft Nz Nr v100 buf_t interp_t.
End Transformer.

(** ** MKL *)
(** A numpy array of complex128: its shape, its strides (in elements), and the memory at and after its first element. *)
Record ndarray := { nd_rows : Z; nd_cols : Z; nd_s0 : Z; nd_s1 : Z; nd_data : Z -> C }.
Definition nd_get (a : ndarray) (iz ir : Z) : C := nd_data a (iz * nd_s0 a + ir * nd_s1 a).
(** numpy.zeros((Nz, Nr)) *)
Definition np_zeros (Nz Nr : Z) : ndarray := {| nd_rows := Nz; nd_cols := Nr; nd_s0 := Nr; nd_s1 := 1; nd_data := fun _ => RtoC 0 |}.
(** A DFTI descriptor: n_transforms transforms of the given length; element j of transform b is at b*distance + j*stride. *)
Record dfti := { df_length : Z; df_n : Z; df_distance : Z; df_stride : Z; df_scale : R }.
Record mklfft := { mk_rows : Z; mk_cols : Z; mk_desc : dfti }.
(** mkl_fft.py:66-102 MKLFFT.__init__ (the checks of ndim and dtype always pass: arrays are 2d complex128 arrays here); strides are
    in elements already *)
Definition mkl_init (a : ndarray) : mklfft :=
  {| mk_rows := nd_rows a; mk_cols := nd_cols a;
     mk_desc := {| df_length := nd_rows a; df_n := nd_cols a; df_distance := nd_s1 a; df_stride := nd_s0 a; df_scale := (1 / IZR (nd_rows a))%R |} |}.
(** The element at address x of the output of DftiComputeForward / DftiComputeBackward (not in place); the memory that belongs to
    no transform is left as it is. *)
Definition dfti_compute (s scale : R) (d : dfti) (input output : Z -> C) (x : Z) : C :=
  match find (fun bk => fst bk * df_distance d + snd bk * df_stride d =? x)
             (flat_map (fun b => map (fun k => (b, k)) (range (df_length d))) (range (df_n d))) with
  | Some (b, k) => Cmult (RtoC scale) (lsum (fun j => Cmult (cis (s * (2 * PI * IZR (k * j) / IZR (df_length d))))
                     (input (b * df_distance d + j * df_stride d))) (range (df_length d)))
  | None => output x
  end.
(** mkl_fft.py:104-122 transform and 124-142 inverse_transform: the value of array_out afterwards *)
Definition same_shape (f : mklfft) (a : ndarray) : bool := (nd_rows a =? mk_rows f) && (nd_cols a =? mk_cols f).
Definition mkl_transform (s scale : R) (f : mklfft) (array_in array_out : ndarray) : res ndarray :=
  if same_shape f array_in then if same_shape f array_out then
    Ok {| nd_rows := nd_rows array_out; nd_cols := nd_cols array_out; nd_s0 := nd_s0 array_out; nd_s1 := nd_s1 array_out;
          nd_data := dfti_compute s scale (mk_desc f) (nd_data array_in) (nd_data array_out) |}
  else Err AssertionError else Err AssertionError.
Definition mkl_fft (f : mklfft) (array_in array_out : ndarray) : res ndarray := mkl_transform (-1) 1 f array_in array_out.
Definition mkl_ifft (f : mklfft) (array_in array_out : ndarray) : res ndarray :=
  mkl_transform 1 (df_scale (mk_desc f)) f array_in array_out.
(** fourier.py:84-87: the descriptor is made from a new array *)
Definition fourier_mkl (Nz Nr : Z) : mklfft := mkl_init (np_zeros Nz Nr).
