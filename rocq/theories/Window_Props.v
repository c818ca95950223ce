(** C15, C16: moving window. *)
From Verif Require Import Base Decomp_Model Fourier_Lib Window_Model Window_Proofs.
From Coq Require Import Reals Lra.
From Coquelicot Require Import Coquelicot.
Open Scope Z_scope.

(** After any sequence of moves at non-decreasing times, all ranks have moved by the same whole
    number of cells, and the nominal position is ahead of the grid origin by less than a cell
    (in the direction of the motion: for v < 0 the signs are reversed).
    [last ts (t0 - dt)] is the time of the last move. *)
Theorem C15_window_follows b size v dz dt t0 gz iz0 iz1 ts w0 :
  1 <= size -> (0 < dz)%R ->
  (forall r, 0 <= r < size -> window_init b r size dt t0 gz (iz0 r) (iz1 r) = Ok (w0 r)) ->
  ascending (t0 - dt) ts ->
  exists N, forall r, 0 <= r < size ->
    g_zmin (moves v dz ts w0 r) = (gz + IZR N * dz)%R /\
    i_zmin (moves v dz ts w0 r) = (iz0 r + IZR N * dz)%R /\
    i_zmax (moves v dz ts w0 r) = (iz1 r + IZR N * dz)%R /\
    let nominal := (gz + v * (last ts (t0 - dt) - t0 + dt))%R in
    if Rle_dec 0 v then (0 <= nominal - g_zmin (moves v dz ts w0 r) < dz)%R
    else (- dz < nominal - g_zmin (moves v dz ts w0 r) <= 0)%R.
Proof. exact (C15_main b size v dz dt t0 gz iz0 iz1 ts w0). Qed.
Print Assumptions C15_window_follows.

(** The window can be set exactly with open boundaries. *)
Theorem C15_window_needs_open b rank size dt time gz iz0 iz1 : 1 <= size -> 0 <= rank < size ->
  (rank = 0 \/ rank = size - 1) ->
  (window_init b rank size dt time gz iz0 iz1 = Err ValueError <-> b = Periodic).
Proof. exact (C15_init b rank size dt time gz iz0 iz1). Qed.
Print Assumptions C15_window_needs_open.

Example C15_met : (forall r, 0 <= r < 2 -> exists w, window_init Open r 2 1 0 5 (5 + IZR r) (6 + IZR r) = Ok w)
  /\ ascending (0 - 1) [0; 1; 3]%R.
Proof.
  split.
  - intros r Hr. assert (r = 0 \/ r = 1) as [-> | ->] by lia; eexists; reflexivity.
  - simpl. lra.
Qed.

(** Field in real space [f], transformed, shifted by n cells, transformed back: cell j contains
    what was in cell j+n (cyclically), for all the fields of the grid except rho_next. *)
Theorem C16_shift_translates use_pml N dz n (f : fname -> nat -> nat -> C) name ir j :
  (0 < N)%nat -> (dz <> 0)%R -> (j < N)%nat ->
  let spect := fun nm k i => dft N (fun z => f nm z i) k in
  let moved := shift_spect_grid use_pml true true (field_shift N dz) n spect in
  (match name with Rho_next => False | Ep_pml | Em_pml | Bp_pml | Bm_pml => use_pml = true | _ => True end) ->
  idft N (fun k => moved name k ir) j = f name (Z.to_nat ((Z.of_nat j + n) mod Z.of_nat N)) ir.
Proof. exact (C16_main use_pml N dz n f name ir j). Qed.
Print Assumptions C16_shift_translates.

(** The same for an arbitrary spectral array, and shifts compose. *)
Theorem C16_shift_translates_spectral N dz (F : nat -> nat -> C) n ir j :
  (0 < N)%nat -> (dz <> 0)%R -> (j < N)%nat ->
  idft N (fun k => shift_spect_array (field_shift N dz) n F k ir) j
  = idft N (fun k => F k ir) (Z.to_nat ((Z.of_nat j + n) mod Z.of_nat N)).
Proof. exact (idft_shift N dz F n ir j). Qed.
Print Assumptions C16_shift_translates_spectral.

Theorem C16_shifts_compose N dz (F : nat -> nat -> C) n m k ir :
  (0 < N)%nat -> (dz <> 0)%R -> (k < N)%nat ->
  shift_spect_array (field_shift N dz) m (shift_spect_array (field_shift N dz) n F) k ir
  = shift_spect_array (field_shift N dz) (n + m) F k ir.
Proof.
  exact (fun HN Hz Hk => eq_trans (eq_sym (Cmult_assoc _ _ _))
     (f_equal (Cmult (F k ir)) (shift_add N dz n m k HN Hz Hk))).
Qed.
Print Assumptions C16_shifts_compose.

Theorem C16_shift_inverse N dz (F : nat -> nat -> C) n k ir :
  (0 < N)%nat -> (dz <> 0)%R -> (k < N)%nat ->
  shift_spect_array (field_shift N dz) (- n) (shift_spect_array (field_shift N dz) n F) k ir = F k ir.
Proof.
  intros HN Hz Hk. rewrite C16_shifts_compose, Z.add_opp_diag_r by assumption.
  unfold shift_spect_array, power_shift. simpl. ring.
Qed.
Print Assumptions C16_shift_inverse.
Example C16_met : (0 < 4)%nat /\ (0.1 <> 0)%R /\ (3 < 4)%nat.
Proof. repeat split; try lia; lra. Qed.
