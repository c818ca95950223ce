(** Slices of the fields for the back-transformed field diagnostic: openpmd_diag/boosted_field_diag.py:559-692 (CPU) and 747-819
    (GPU kernel), all the fields and modes. The position of the slice and the Lorentz transform of one value: BField_Model (C50).
    Exact arithmetic. *)
From Coq Require Import Reals.
From Coquelicot Require Import Complex.
From Verif Require Import Base Decomp_Proofs Chunk_Model BField_Model.
Open Scope Z_scope.

(** boosted_field_diag.py:556-557 field_to_index: the ten fields in this order: Er, Et, Ez, Br, Bt, Bz, Jr, Jt, Jz, rho.
    [F q m iz ir]: element of the array of the field [q] of fld.interp[m]; [Nz]: number of rows of these arrays; [Nm]: modes. *)
Definition grids : Type := Z -> Z -> Z -> Z -> C.
Definition n_fields : Z := 10.
(** The index of an element of slice_array, of shape (10, 2*Nm-1, Nr_output) (line 428). *)
Definition key : Type := (Z * Z) * Z.
Definition key_eqb (a b : key) : bool :=
  (fst (fst a) =? fst (fst b)) && (snd (fst a) =? snd (fst b)) && (snd a =? snd b).

(** out[im, :] = values (numpy) *)
Definition set_row (out : Z -> Z -> R) (im : Z) (values : Z -> R) : Z -> Z -> R :=
  fun im' ir => if im' =? im then values ir else out im' ir.
(** boosted_field_diag.py:655-692 get_dataset; [empty]: the content of np.empty. An index at or beyond the number of rows raises
    (negative ones do not occur: the plane is after the beginning of the domain, line 188). *)
Definition get_dataset (F : grids) (Nm Nz : Z) (q iz_slice : Z) (empty : Z -> Z -> R) : res (Z -> Z -> R) :=
  if iz_slice <? Nz then
    Ok (fold_left (fun out m =>
          let higher_mode_slice ir := Cmult (RtoC 2) (F q m iz_slice ir) in
          set_row (set_row out (2 * m - 1) (fun ir => Re (higher_mode_slice ir))) (2 * m) (fun ir => Im (higher_mode_slice ir)))
        (map (fun i => i + 1) (range (Nm - 1)))
        (set_row empty 0 (fun ir => Re (F q 0 iz_slice ir))))
  else Err IndexError.
(** boosted_field_diag.py:624-653 extract_slice_cpu: the fields one after the other. *)
Definition extract_slice_all_cpu (F : grids) (Nm Nz iz : Z) (Sz : R) (empty : Z -> Z -> R) (slice_array : key -> R) : res (key -> R) :=
  fold_left (fun acc q =>
      bind acc (fun sl =>
      bind (get_dataset F Nm Nz q iz empty) (fun d0 =>
      bind (get_dataset F Nm Nz q (iz + 1) empty) (fun d1 =>
      Ok (fun k : key => if fst (fst k) =? q then (Sz * d0 (snd (fst k)) (snd k) + (1 - Sz) * d1 (snd (fst k)) (snd k))%R else sl k)))))
    (range n_fields) (Ok slice_array).

(** boosted_field_diag.py:747-819 extract_slice_cuda: the writes of the thread [ir]. Simplified: the ten statements of each
    block, written one by one in the source, are a loop over the fields. *)
Definition extract_slice_cuda (Nr iz : Z) (Sz : R) (f : Z -> Z -> Z -> C) (m ir : Z) : list (key * R) :=
  let izp := iz + 1 in
  let Szp := (1 - Sz)%R in
  if ir <? Nr then
    let '(Sz, Szp, im) := if m >? 0 then ((2 * Sz)%R, (2 * Szp)%R, 2 * m - 1) else (Sz, Szp, 0) in
    map (fun q => ((q, im, ir), (Sz * Re (f q iz ir) + Szp * Re (f q izp ir))%R)) (range n_fields) ++
    (if m >? 0 then map (fun q => ((q, im + 1, ir), (Sz * Im (f q iz ir) + Szp * Im (f q izp ir))%R)) (range n_fields) else [])
  else [].
(** A launch: the writes of all the threads in some order (the kernel does not read what it writes). *)
Definition write_key (a : key -> R) (w : key * R) : key -> R := fun k => if key_eqb k (fst w) then snd w else a k.
Definition launched_slice (n : Z) (body : Z -> list (key * R)) (a a' : key -> R) : Prop :=
  exists ws, Permutation ws (flat_map body (threads_1d (cuda_tpb_bpg_1d n 256))) /\ a' = fold_left write_key ws a.
(** boosted_field_diag.py:612-622: one launch per mode. *)
Inductive extract_slice_gpu (F : grids) (Nr iz : Z) (Sz : R) : list Z -> (key -> R) -> (key -> R) -> Prop :=
| gpu_done a : extract_slice_gpu F Nr iz Sz [] a a
| gpu_mode m ms a a1 a' : launched_slice Nr (extract_slice_cuda Nr iz Sz (fun q => F q m) m) a a1 ->
    extract_slice_gpu F Nr iz Sz ms a1 a' -> extract_slice_gpu F Nr iz Sz (m :: ms) a a'.

(** boosted_field_diag.py:694-742 transform_fields_to_lab_frame on the whole array: BField_Model.transform_fields on every element. *)
Definition at_key (sl : key -> R) (im ir : Z) : fields :=
  let f q := sl (q, im, ir) in
  {| fEr := f 0; fEt := f 1; fEz := f 2; fBr := f 3; fBt := f 4; fBz := f 5; fJr := f 6; fJt := f 7; fJz := f 8; frho := f 9 |}.
Definition by_index (f : fields) (q : Z) : R :=
  nth (Z.to_nat q) [fEr f; fEt f; fEz f; fBr f; fBt f; fBz f; fJr f; fJt f; fJz f; frho f] 0%R.
Definition to_lab_frame (d : fdiag) (sl : key -> R) : key -> R :=
  fun k => by_index (transform_fields d (at_key sl (snd (fst k)) (snd k))) (fst (fst k)).
