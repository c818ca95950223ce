(** C86: the Fourier-Hankel transforms computed on a GPU, and the FFT computed by MKL, are the ones computed on the CPU by FFTW. *)
From Verif Require Import Base Fourier_Lib Deposit_Spec Hankel_Model Hankel_Spec Hankel_Proofs Cuda_Model Cuda_Proofs GTrans_Model GTrans_Spec GTrans_Proofs.
From Coq Require Import Reals Lia Lra.
From Coquelicot Require Import Complex.
Open Scope Z_scope.

(** Whatever the order in which the threads of the kernels run (and for both launch geometries), a scalar field is transformed on the
    GPU as it is on the CPU, and no other field is modified; the source and the destination may be the same array. *)
Theorem C86_scalar : forall v100 tr M M' interp spect, grid_ok (t_Nz tr) (t_Nr tr) -> user_array interp -> user_array spect ->
  (runs (gpu_interp2spect_scal v100 tr interp spect) M M' ->
     same_grid (t_Nz tr) (t_Nr tr) (grid_at M' spect) (interp2spect_scal tr (grid_at M interp)) /\ only_writes [spect] M M') /\
  (runs (gpu_spect2interp_scal v100 tr spect interp) M M' ->
     same_grid (t_Nz tr) (t_Nr tr) (grid_at M' interp) (spect2interp_scal tr (grid_at M spect)) /\ only_writes [interp] M M').
Proof. intros. split; [apply i2s_scal|apply s2i_scal]; auto. Qed.
Print Assumptions C86_scalar.

(** The same for vector fields, for any order in which the CPU loops over the cells ([cells]). *)
Theorem C86_vector : forall v100 tr M M' r t p m cells, grid_ok (t_Nz tr) (t_Nr tr) ->
  user_array r -> user_array t -> user_array p -> user_array m -> p <> m -> r <> t -> all_cells (t_Nz tr) (t_Nr tr) cells ->
  (runs (gpu_interp2spect_vect v100 tr r t p m) M M' ->
     let '(Gp, Gm) := interp2spect_vect tr cells (grid_at M r) (grid_at M t) in
     same_grid (t_Nz tr) (t_Nr tr) (grid_at M' p) Gp /\ same_grid (t_Nz tr) (t_Nr tr) (grid_at M' m) Gm /\ only_writes [p; m] M M') /\
  (runs (gpu_spect2interp_vect v100 tr p m r t) M M' ->
     let '(Fr, Ft) := spect2interp_vect tr cells (grid_at M p) (grid_at M m) in
     same_grid (t_Nz tr) (t_Nr tr) (grid_at M' r) Fr /\ same_grid (t_Nz tr) (t_Nr tr) (grid_at M' t) Ft /\ only_writes [r; t] M M').
Proof. intros. split; [apply i2s_vect|apply s2i_vect]; auto. Qed.
Print Assumptions C86_vector.

(** The work queued on the GPU does have an outcome. *)
Theorem C86_terminates : forall v100 tr M r t p m, exists M1 M2 M3 M4,
  runs (gpu_interp2spect_scal v100 tr r p) M M1 /\ runs (gpu_spect2interp_scal v100 tr p r) M1 M2 /\
  runs (gpu_interp2spect_vect v100 tr r t p m) M2 M3 /\ runs (gpu_spect2interp_vect v100 tr p m r t) M3 M4.
Proof.
  intros. destruct (runs_exists (gpu_interp2spect_scal v100 tr r p) M) as [M1 H1].
  destruct (runs_exists (gpu_spect2interp_scal v100 tr p r) M1) as [M2 H2].
  destruct (runs_exists (gpu_interp2spect_vect v100 tr r t p m) M2) as [M3 H3].
  destruct (runs_exists (gpu_spect2interp_vect v100 tr p m r t) M3) as [M4 H4]. exists M1, M2, M3, M4. auto.
Qed.
Print Assumptions C86_terminates.

(** A scalar spectral field survives the round trip through the interpolation grid on the GPU, except for the mode of zero radial
    wavenumber when m <> 0. *)
Theorem C86_round_trip : forall jn zeros rmax inv pinv Nz Nr m v100 M M1 M2 spect interp, inverses_ok jn zeros rmax inv pinv Nr m ->
  grid_ok Nz Nr -> user_array spect -> user_array interp ->
  let tr := make_transformer jn zeros rmax inv pinv Nz Nr m in
  runs (gpu_spect2interp_scal v100 tr spect interp) M M1 -> runs (gpu_interp2spect_scal v100 tr interp spect) M1 M2 ->
  forall iz ir, 0 <= iz < Nz -> 0 <= ir < Nr ->
  grid_at M2 spect iz ir = if negb (m =? 0) && (ir =? 0) then RtoC 0 else grid_at M spect iz ir.
Proof.
  intros jn zeros rmax inv pinv Nz Nr m v100 M M1 M2 spect interp HI HG Hs Hi tr H1 H2 iz ir Hz Hr.
  rewrite <- (scal_roundtrip jn zeros rmax inv pinv Nz Nr m HI (grid_at M spect) iz ir Hz Hr).
  destruct (i2s_scal v100 tr HG interp spect M1 M2 Hi Hs H2) as [A2 _]. destruct (s2i_scal v100 tr HG spect interp M M1 Hi Hs H1) as [A1 _].
  rewrite A2 by assumption. unfold interp2spect_scal. apply (dht_ext Nz Nr); try assumption. apply (fft_ext Nz Nr). exact A1.
Qed.
Print Assumptions C86_round_trip.

(** MKL: for arrays laid out as new numpy arrays, the transforms are those of FFTW. *)
Theorem C86_mkl : forall Nz Nr a b, c_order Nz Nr a -> c_order Nz Nr b ->
  (exists b', mkl_fft (fourier_mkl Nz Nr) a b = Ok b' /\ c_order Nz Nr b' /\ same_grid Nz Nr (nd_get b') (fft Nz (nd_get a))) /\
  (exists b', mkl_ifft (fourier_mkl Nz Nr) a b = Ok b' /\ c_order Nz Nr b' /\ same_grid Nz Nr (nd_get b') (ifft Nz (nd_get a))).
Proof. exact mkl_same. Qed.
Print Assumptions C86_mkl.
(** Arrays of another shape are refused. *)
Theorem C86_mkl_shape : forall Nz Nr a b, ~ (nd_rows a = Nz /\ nd_cols a = Nr /\ nd_rows b = Nz /\ nd_cols b = Nr) ->
  mkl_fft (fourier_mkl Nz Nr) a b = Err AssertionError /\ mkl_ifft (fourier_mkl Nz Nr) a b = Err AssertionError.
Proof. intros. split; apply mkl_rejects; assumption. Qed.
Print Assumptions C86_mkl_shape.

(** Concrete cases: a 1 x 2 grid; arrays 5, 6, 7, 8; a layout accepted by MKL. *)
Example C86_met : grid_ok 1 2 /\ user_array 5 /\ user_array 6 /\ 5 <> 6 /\ all_cells 1 2 [(0, 1); (0, 0)] /\ c_order 4 3 (np_zeros 4 3).
Proof.
  unfold grid_ok, user_array, buf_r, buf_t. repeat split; try lia.
  - repeat constructor; cbn; intuition discriminate.
  - intros i j [Hi Hj]. assert (i = 0) by lia. assert (j = 0 \/ j = 1) as [->| ->] by lia; subst; cbn; auto.
Qed.
