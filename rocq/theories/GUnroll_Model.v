(** The deposition kernels as they are written out, register by register: the 8 CUDA kernels of
    particles/deposition/cuda_methods.py and cuda_methods_one_mode.py, and the 4 functions of
    threading_methods.py. Deposit_Model and GDeposit_Model have them with indices instead; here each
    statement of the source is one row of a table (the tables were made from the source text). *)
From Coq Require Import Reals.
From Flocq Require Import Core.Core.
From Coquelicot Require Import Complex.
From Verif Require Import Base Decomp_Proofs Chunk_Model Shape_Model Sort_Model Deposit_Model GDeposit_Model.
Open Scope Z_scope.

(** cuda_methods.py:104-111, 291-317 ...: the name of a register, e.g. J_r_m1_03: component, mode (0
    in the functions for one mode, where it is J_r_m_03), radial point, longitudinal point. *)
Record rname := N { n_comp : comp; n_mode : nat; n_a : Z; n_b : Z }.
(** cuda_methods.py:158-165, 378-402 ...: one statement [reg += Sr(r_cell, sr, flip, bn)*Sz(z_cell, sz)*scal]:
    the register, the point and the flip (1, -1; in the functions for one mode 1 stands for f and -1
    for -f) and the beta_n of Sr, the point of Sz, the component and mode of the last factor. *)
Record acc_row := mk_acc { c_reg : rname; c_sr : Z; c_flip : Z; c_bn : nat; c_sz : Z; c_comp : comp; c_mode : nat }.
Definition A k m a b sr fl bn sz k' m' := mk_acc (N k m a b) sr fl bn sz k' m'.
(** cuda_methods.py:182-194 ...: one statement cuda.atomic.add(array.part, (iz, ir), reg.part): the
    array, its part, the numbers of the indices, the register, its part; [d_high]: under [if m > 0]
    (cuda_methods_one_mode.py:180). *)
Inductive part := Re_ | Im_.
Record add_row := mk_add { d_comp : comp; d_mode : nat; d_part : part; d_iz : Z; d_ir : Z;
                           d_reg : rname; d_from : part; d_high : bool }.
Definition D k m p iz ir k' m' a b p' h := mk_add k m p iz ir (N k' m' a b) p' h.
(** cuda_methods.py:28-194 ...: a kernel: the registers set to 0, the statements of the loop over the
    particles, the statements after the loop. *)
Record kernel := { k_shape : shape; k_two : bool; k_init : list rname; k_acc : list acc_row; k_add : list add_row }.
(** threading_methods.py:143-146 ...: one statement array[i_thread,m,iz_cell+iz,ir_cell+ir] +=
    Sz(z_cell, sz)*Sr(r_cell, sr, flip*(-1)**m, bn)*scal[m]. *)
Record cpu_row := P { r_comp : comp; r_iz : Z; r_ir : Z; r_sz : Z; r_sr : Z; r_flip : Z; r_scal : comp }.

(** cuda_methods.py:28-194 deposit_rho_gpu_linear: lines 104-111, 158-165, 182-194 *)
Definition deposit_rho_gpu_linear : kernel := {|
  k_shape := Linear; k_two := true;
  k_init := [
   N Rho 0 0 0; N Rho 0 0 1; N Rho 0 1 0; N Rho 0 1 1; N Rho 1 0 0; N Rho 1 0 1; N Rho 1 1 0; N Rho 1 1 1];
  k_acc := [
   A Rho 0 0 0 0 1 0 0 Rho 0; A Rho 0 0 1 0 1 0 1 Rho 0; A Rho 1 0 0 0 (-1) 1 0 Rho 1; A Rho 1 0 1 0 (-1) 1 1 Rho 1;
   A Rho 0 1 0 1 1 0 0 Rho 0; A Rho 0 1 1 1 1 0 1 Rho 0; A Rho 1 1 0 1 (-1) 1 0 Rho 1; A Rho 1 1 1 1 (-1) 1 1 Rho 1];
  k_add := [
   D Rho 0 Re_ 0 0 Rho 0 0 0 Re_ false; D Rho 0 Re_ 0 1 Rho 0 1 0 Re_ false; D Rho 0 Re_ 1 0 Rho 0 0 1 Re_ false; D Rho 0 Re_ 1 1 Rho 0 1 1 Re_ false;
   D Rho 1 Re_ 0 0 Rho 1 0 0 Re_ false; D Rho 1 Im_ 0 0 Rho 1 0 0 Im_ false; D Rho 1 Re_ 0 1 Rho 1 1 0 Re_ false; D Rho 1 Im_ 0 1 Rho 1 1 0 Im_ false;
   D Rho 1 Re_ 1 0 Rho 1 0 1 Re_ false; D Rho 1 Im_ 1 0 Rho 1 0 1 Im_ false; D Rho 1 Re_ 1 1 Rho 1 1 1 Re_ false; D Rho 1 Im_ 1 1 Rho 1 1 1 Im_ false] |}.
(** cuda_methods.py:202-459 deposit_J_gpu_linear: lines 291-317, 378-402, 419-459 *)
Definition deposit_J_gpu_linear : kernel := {|
  k_shape := Linear; k_two := true;
  k_init := [
   N Jr 0 0 0; N Jr 1 0 0; N Jt 0 0 0; N Jt 1 0 0; N Jz 0 0 0; N Jz 1 0 0; N Jr 0 0 1; N Jr 1 0 1; N Jt 0 0 1; N Jt 1 0 1; N Jz 0 0 1; N Jz 1 0 1;
   N Jr 0 1 0; N Jr 1 1 0; N Jt 0 1 0; N Jt 1 1 0; N Jz 0 1 0; N Jz 1 1 0; N Jr 0 1 1; N Jr 1 1 1; N Jt 0 1 1; N Jt 1 1 1; N Jz 0 1 1; N Jz 1 1 1];
  k_acc := [
   A Jr 0 0 0 0 (-1) 0 0 Jr 0; A Jt 0 0 0 0 (-1) 0 0 Jt 0; A Jz 0 0 0 0 1 0 0 Jz 0; A Jr 0 0 1 0 (-1) 0 1 Jr 0;
   A Jt 0 0 1 0 (-1) 0 1 Jt 0; A Jz 0 0 1 0 1 0 1 Jz 0; A Jr 1 0 0 0 1 1 0 Jr 1; A Jt 1 0 0 0 1 1 0 Jt 1;
   A Jz 1 0 0 0 (-1) 1 0 Jz 1; A Jr 1 0 1 0 1 1 1 Jr 1; A Jt 1 0 1 0 1 1 1 Jt 1; A Jz 1 0 1 0 (-1) 1 1 Jz 1;
   A Jr 0 1 0 1 (-1) 0 0 Jr 0; A Jt 0 1 0 1 (-1) 0 0 Jt 0; A Jz 0 1 0 1 1 0 0 Jz 0; A Jr 0 1 1 1 (-1) 0 1 Jr 0;
   A Jt 0 1 1 1 (-1) 0 1 Jt 0; A Jz 0 1 1 1 1 0 1 Jz 0; A Jr 1 1 0 1 1 1 0 Jr 1; A Jt 1 1 0 1 1 1 0 Jt 1;
   A Jz 1 1 0 1 (-1) 1 0 Jz 1; A Jr 1 1 1 1 1 1 1 Jr 1; A Jt 1 1 1 1 1 1 1 Jt 1; A Jz 1 1 1 1 (-1) 1 1 Jz 1];
  k_add := [
   D Jr 0 Re_ 0 0 Jr 0 0 0 Re_ false; D Jr 0 Re_ 0 1 Jr 0 1 0 Re_ false; D Jr 0 Re_ 1 0 Jr 0 0 1 Re_ false; D Jr 0 Re_ 1 1 Jr 0 1 1 Re_ false;
   D Jr 1 Re_ 0 0 Jr 1 0 0 Re_ false; D Jr 1 Im_ 0 0 Jr 1 0 0 Im_ false; D Jr 1 Re_ 0 1 Jr 1 1 0 Re_ false; D Jr 1 Im_ 0 1 Jr 1 1 0 Im_ false;
   D Jr 1 Re_ 1 0 Jr 1 0 1 Re_ false; D Jr 1 Im_ 1 0 Jr 1 0 1 Im_ false; D Jr 1 Re_ 1 1 Jr 1 1 1 Re_ false; D Jr 1 Im_ 1 1 Jr 1 1 1 Im_ false;
   D Jt 0 Re_ 0 0 Jt 0 0 0 Re_ false; D Jt 0 Re_ 0 1 Jt 0 1 0 Re_ false; D Jt 0 Re_ 1 0 Jt 0 0 1 Re_ false; D Jt 0 Re_ 1 1 Jt 0 1 1 Re_ false;
   D Jt 1 Re_ 0 0 Jt 1 0 0 Re_ false; D Jt 1 Im_ 0 0 Jt 1 0 0 Im_ false; D Jt 1 Re_ 0 1 Jt 1 1 0 Re_ false; D Jt 1 Im_ 0 1 Jt 1 1 0 Im_ false;
   D Jt 1 Re_ 1 0 Jt 1 0 1 Re_ false; D Jt 1 Im_ 1 0 Jt 1 0 1 Im_ false; D Jt 1 Re_ 1 1 Jt 1 1 1 Re_ false; D Jt 1 Im_ 1 1 Jt 1 1 1 Im_ false;
   D Jz 0 Re_ 0 0 Jz 0 0 0 Re_ false; D Jz 0 Re_ 0 1 Jz 0 1 0 Re_ false; D Jz 0 Re_ 1 0 Jz 0 0 1 Re_ false; D Jz 0 Re_ 1 1 Jz 0 1 1 Re_ false;
   D Jz 1 Re_ 0 0 Jz 1 0 0 Re_ false; D Jz 1 Im_ 0 0 Jz 1 0 0 Im_ false; D Jz 1 Re_ 0 1 Jz 1 1 0 Re_ false; D Jz 1 Im_ 0 1 Jz 1 1 0 Im_ false;
   D Jz 1 Re_ 1 0 Jz 1 0 1 Re_ false; D Jz 1 Im_ 1 0 Jz 1 0 1 Im_ false; D Jz 1 Re_ 1 1 Jz 1 1 1 Re_ false; D Jz 1 Im_ 1 1 Jz 1 1 1 Im_ false] |}.
(** cuda_methods.py:466-744 deposit_rho_gpu_cubic: lines 541-587, 634-668, 696-744 *)
Definition deposit_rho_gpu_cubic : kernel := {|
  k_shape := Cubic; k_two := true;
  k_init := [
   N Rho 0 0 0; N Rho 1 0 0; N Rho 0 0 1; N Rho 1 0 1; N Rho 0 0 2; N Rho 1 0 2; N Rho 0 0 3; N Rho 1 0 3; N Rho 0 1 0; N Rho 1 1 0; N Rho 0 1 1; N Rho 1 1 1;
   N Rho 0 1 2; N Rho 1 1 2; N Rho 0 1 3; N Rho 1 1 3; N Rho 0 2 0; N Rho 1 2 0; N Rho 0 2 1; N Rho 1 2 1; N Rho 0 2 2; N Rho 1 2 2; N Rho 0 2 3; N Rho 1 2 3;
   N Rho 0 3 0; N Rho 1 3 0; N Rho 0 3 1; N Rho 1 3 1; N Rho 0 3 2; N Rho 1 3 2; N Rho 0 3 3; N Rho 1 3 3];
  k_acc := [
   A Rho 0 0 0 0 1 0 0 Rho 0; A Rho 1 0 0 0 (-1) 1 0 Rho 1; A Rho 0 0 1 0 1 0 1 Rho 0; A Rho 1 0 1 0 (-1) 1 1 Rho 1;
   A Rho 0 0 2 0 1 0 2 Rho 0; A Rho 1 0 2 0 (-1) 1 2 Rho 1; A Rho 0 0 3 0 1 0 3 Rho 0; A Rho 1 0 3 0 (-1) 1 3 Rho 1;
   A Rho 0 1 0 1 1 0 0 Rho 0; A Rho 1 1 0 1 (-1) 1 0 Rho 1; A Rho 0 1 1 1 1 0 1 Rho 0; A Rho 1 1 1 1 (-1) 1 1 Rho 1;
   A Rho 0 1 2 1 1 0 2 Rho 0; A Rho 1 1 2 1 (-1) 1 2 Rho 1; A Rho 0 1 3 1 1 0 3 Rho 0; A Rho 1 1 3 1 (-1) 1 3 Rho 1;
   A Rho 0 2 0 2 1 0 0 Rho 0; A Rho 1 2 0 2 (-1) 1 0 Rho 1; A Rho 0 2 1 2 1 0 1 Rho 0; A Rho 1 2 1 2 (-1) 1 1 Rho 1;
   A Rho 0 2 2 2 1 0 2 Rho 0; A Rho 1 2 2 2 (-1) 1 2 Rho 1; A Rho 0 2 3 2 1 0 3 Rho 0; A Rho 1 2 3 2 (-1) 1 3 Rho 1;
   A Rho 0 3 0 3 1 0 0 Rho 0; A Rho 1 3 0 3 (-1) 1 0 Rho 1; A Rho 0 3 1 3 1 0 1 Rho 0; A Rho 1 3 1 3 (-1) 1 1 Rho 1;
   A Rho 0 3 2 3 1 0 2 Rho 0; A Rho 1 3 2 3 (-1) 1 2 Rho 1; A Rho 0 3 3 3 1 0 3 Rho 0; A Rho 1 3 3 3 (-1) 1 3 Rho 1];
  k_add := [
   D Rho 0 Re_ 0 0 Rho 0 0 0 Re_ false; D Rho 0 Re_ 0 1 Rho 0 1 0 Re_ false; D Rho 0 Re_ 0 2 Rho 0 2 0 Re_ false; D Rho 0 Re_ 0 3 Rho 0 3 0 Re_ false;
   D Rho 0 Re_ 1 0 Rho 0 0 1 Re_ false; D Rho 0 Re_ 1 1 Rho 0 1 1 Re_ false; D Rho 0 Re_ 1 2 Rho 0 2 1 Re_ false; D Rho 0 Re_ 1 3 Rho 0 3 1 Re_ false;
   D Rho 0 Re_ 2 0 Rho 0 0 2 Re_ false; D Rho 0 Re_ 2 1 Rho 0 1 2 Re_ false; D Rho 0 Re_ 2 2 Rho 0 2 2 Re_ false; D Rho 0 Re_ 2 3 Rho 0 3 2 Re_ false;
   D Rho 0 Re_ 3 0 Rho 0 0 3 Re_ false; D Rho 0 Re_ 3 1 Rho 0 1 3 Re_ false; D Rho 0 Re_ 3 2 Rho 0 2 3 Re_ false; D Rho 0 Re_ 3 3 Rho 0 3 3 Re_ false;
   D Rho 1 Re_ 0 0 Rho 1 0 0 Re_ false; D Rho 1 Im_ 0 0 Rho 1 0 0 Im_ false; D Rho 1 Re_ 0 1 Rho 1 1 0 Re_ false; D Rho 1 Im_ 0 1 Rho 1 1 0 Im_ false;
   D Rho 1 Re_ 0 2 Rho 1 2 0 Re_ false; D Rho 1 Im_ 0 2 Rho 1 2 0 Im_ false; D Rho 1 Re_ 0 3 Rho 1 3 0 Re_ false; D Rho 1 Im_ 0 3 Rho 1 3 0 Im_ false;
   D Rho 1 Re_ 1 0 Rho 1 0 1 Re_ false; D Rho 1 Im_ 1 0 Rho 1 0 1 Im_ false; D Rho 1 Re_ 1 1 Rho 1 1 1 Re_ false; D Rho 1 Im_ 1 1 Rho 1 1 1 Im_ false;
   D Rho 1 Re_ 1 2 Rho 1 2 1 Re_ false; D Rho 1 Im_ 1 2 Rho 1 2 1 Im_ false; D Rho 1 Re_ 1 3 Rho 1 3 1 Re_ false; D Rho 1 Im_ 1 3 Rho 1 3 1 Im_ false;
   D Rho 1 Re_ 2 0 Rho 1 0 2 Re_ false; D Rho 1 Im_ 2 0 Rho 1 0 2 Im_ false; D Rho 1 Re_ 2 1 Rho 1 1 2 Re_ false; D Rho 1 Im_ 2 1 Rho 1 1 2 Im_ false;
   D Rho 1 Re_ 2 2 Rho 1 2 2 Re_ false; D Rho 1 Im_ 2 2 Rho 1 2 2 Im_ false; D Rho 1 Re_ 2 3 Rho 1 3 2 Re_ false; D Rho 1 Im_ 2 3 Rho 1 3 2 Im_ false;
   D Rho 1 Re_ 3 0 Rho 1 0 3 Re_ false; D Rho 1 Im_ 3 0 Rho 1 0 3 Im_ false; D Rho 1 Re_ 3 1 Rho 1 1 3 Re_ false; D Rho 1 Im_ 3 1 Rho 1 1 3 Im_ false;
   D Rho 1 Re_ 3 2 Rho 1 2 3 Re_ false; D Rho 1 Im_ 3 2 Rho 1 2 3 Im_ false; D Rho 1 Re_ 3 3 Rho 1 3 3 Re_ false; D Rho 1 Im_ 3 3 Rho 1 3 3 Im_ false] |}.
(** cuda_methods.py:751-1290 deposit_J_gpu_cubic: lines 838-948, 1008-1114, 1142-1290 *)
Definition deposit_J_gpu_cubic : kernel := {|
  k_shape := Cubic; k_two := true;
  k_init := [
   N Jr 0 0 0; N Jt 0 0 0; N Jz 0 0 0; N Jr 1 0 0; N Jt 1 0 0; N Jz 1 0 0; N Jr 0 0 1; N Jt 0 0 1; N Jz 0 0 1; N Jr 1 0 1; N Jt 1 0 1; N Jz 1 0 1;
   N Jr 0 0 2; N Jt 0 0 2; N Jz 0 0 2; N Jr 1 0 2; N Jt 1 0 2; N Jz 1 0 2; N Jr 0 0 3; N Jt 0 0 3; N Jz 0 0 3; N Jr 1 0 3; N Jt 1 0 3; N Jz 1 0 3;
   N Jr 0 1 0; N Jt 0 1 0; N Jz 0 1 0; N Jr 1 1 0; N Jt 1 1 0; N Jz 1 1 0; N Jr 0 1 1; N Jt 0 1 1; N Jz 0 1 1; N Jr 1 1 1; N Jt 1 1 1; N Jz 1 1 1;
   N Jr 0 1 2; N Jt 0 1 2; N Jz 0 1 2; N Jr 1 1 2; N Jt 1 1 2; N Jz 1 1 2; N Jr 0 1 3; N Jt 0 1 3; N Jz 0 1 3; N Jr 1 1 3; N Jt 1 1 3; N Jz 1 1 3;
   N Jr 0 2 0; N Jt 0 2 0; N Jz 0 2 0; N Jr 1 2 0; N Jt 1 2 0; N Jz 1 2 0; N Jr 0 2 1; N Jt 0 2 1; N Jz 0 2 1; N Jr 1 2 1; N Jt 1 2 1; N Jz 1 2 1;
   N Jr 0 2 2; N Jt 0 2 2; N Jz 0 2 2; N Jr 1 2 2; N Jt 1 2 2; N Jz 1 2 2; N Jr 0 2 3; N Jt 0 2 3; N Jz 0 2 3; N Jr 1 2 3; N Jt 1 2 3; N Jz 1 2 3;
   N Jr 0 3 0; N Jt 0 3 0; N Jz 0 3 0; N Jr 1 3 0; N Jt 1 3 0; N Jz 1 3 0; N Jr 0 3 1; N Jt 0 3 1; N Jz 0 3 1; N Jr 1 3 1; N Jt 1 3 1; N Jz 1 3 1;
   N Jr 0 3 2; N Jt 0 3 2; N Jz 0 3 2; N Jr 1 3 2; N Jt 1 3 2; N Jz 1 3 2; N Jr 0 3 3; N Jt 0 3 3; N Jz 0 3 3; N Jr 1 3 3; N Jt 1 3 3; N Jz 1 3 3];
  k_acc := [
   A Jr 0 0 0 0 (-1) 0 0 Jr 0; A Jr 1 0 0 0 1 1 0 Jr 1; A Jr 0 0 1 0 (-1) 0 1 Jr 0; A Jr 1 0 1 0 1 1 1 Jr 1;
   A Jr 0 0 2 0 (-1) 0 2 Jr 0; A Jr 1 0 2 0 1 1 2 Jr 1; A Jr 0 0 3 0 (-1) 0 3 Jr 0; A Jr 1 0 3 0 1 1 3 Jr 1;
   A Jr 0 1 0 1 (-1) 0 0 Jr 0; A Jr 1 1 0 1 1 1 0 Jr 1; A Jr 0 1 1 1 (-1) 0 1 Jr 0; A Jr 1 1 1 1 1 1 1 Jr 1;
   A Jr 0 1 2 1 (-1) 0 2 Jr 0; A Jr 1 1 2 1 1 1 2 Jr 1; A Jr 0 1 3 1 (-1) 0 3 Jr 0; A Jr 1 1 3 1 1 1 3 Jr 1;
   A Jr 0 2 0 2 (-1) 0 0 Jr 0; A Jr 1 2 0 2 1 1 0 Jr 1; A Jr 0 2 1 2 (-1) 0 1 Jr 0; A Jr 1 2 1 2 1 1 1 Jr 1;
   A Jr 0 2 2 2 (-1) 0 2 Jr 0; A Jr 1 2 2 2 1 1 2 Jr 1; A Jr 0 2 3 2 (-1) 0 3 Jr 0; A Jr 1 2 3 2 1 1 3 Jr 1;
   A Jr 0 3 0 3 (-1) 0 0 Jr 0; A Jr 1 3 0 3 1 1 0 Jr 1; A Jr 0 3 1 3 (-1) 0 1 Jr 0; A Jr 1 3 1 3 1 1 1 Jr 1;
   A Jr 0 3 2 3 (-1) 0 2 Jr 0; A Jr 1 3 2 3 1 1 2 Jr 1; A Jr 0 3 3 3 (-1) 0 3 Jr 0; A Jr 1 3 3 3 1 1 3 Jr 1;
   A Jt 0 0 0 0 (-1) 0 0 Jt 0; A Jt 1 0 0 0 1 1 0 Jt 1; A Jt 0 0 1 0 (-1) 0 1 Jt 0; A Jt 1 0 1 0 1 1 1 Jt 1;
   A Jt 0 0 2 0 (-1) 0 2 Jt 0; A Jt 1 0 2 0 1 1 2 Jt 1; A Jt 0 0 3 0 (-1) 0 3 Jt 0; A Jt 1 0 3 0 1 1 3 Jt 1;
   A Jt 0 1 0 1 (-1) 0 0 Jt 0; A Jt 1 1 0 1 1 1 0 Jt 1; A Jt 0 1 1 1 (-1) 0 1 Jt 0; A Jt 1 1 1 1 1 1 1 Jt 1;
   A Jt 0 1 2 1 (-1) 0 2 Jt 0; A Jt 1 1 2 1 1 1 2 Jt 1; A Jt 0 1 3 1 (-1) 0 3 Jt 0; A Jt 1 1 3 1 1 1 3 Jt 1;
   A Jt 0 2 0 2 (-1) 0 0 Jt 0; A Jt 1 2 0 2 1 1 0 Jt 1; A Jt 0 2 1 2 (-1) 0 1 Jt 0; A Jt 1 2 1 2 1 1 1 Jt 1;
   A Jt 0 2 2 2 (-1) 0 2 Jt 0; A Jt 1 2 2 2 1 1 2 Jt 1; A Jt 0 2 3 2 (-1) 0 3 Jt 0; A Jt 1 2 3 2 1 1 3 Jt 1;
   A Jt 0 3 0 3 (-1) 0 0 Jt 0; A Jt 1 3 0 3 1 1 0 Jt 1; A Jt 0 3 1 3 (-1) 0 1 Jt 0; A Jt 1 3 1 3 1 1 1 Jt 1;
   A Jt 0 3 2 3 (-1) 0 2 Jt 0; A Jt 1 3 2 3 1 1 2 Jt 1; A Jt 0 3 3 3 (-1) 0 3 Jt 0; A Jt 1 3 3 3 1 1 3 Jt 1;
   A Jz 0 0 0 0 1 0 0 Jz 0; A Jz 1 0 0 0 (-1) 1 0 Jz 1; A Jz 0 0 1 0 1 0 1 Jz 0; A Jz 1 0 1 0 (-1) 1 1 Jz 1;
   A Jz 0 0 2 0 1 0 2 Jz 0; A Jz 1 0 2 0 (-1) 1 2 Jz 1; A Jz 0 0 3 0 1 0 3 Jz 0; A Jz 1 0 3 0 (-1) 1 3 Jz 1;
   A Jz 0 1 0 1 1 0 0 Jz 0; A Jz 1 1 0 1 (-1) 1 0 Jz 1; A Jz 0 1 1 1 1 0 1 Jz 0; A Jz 1 1 1 1 (-1) 1 1 Jz 1;
   A Jz 0 1 2 1 1 0 2 Jz 0; A Jz 1 1 2 1 (-1) 1 2 Jz 1; A Jz 0 1 3 1 1 0 3 Jz 0; A Jz 1 1 3 1 (-1) 1 3 Jz 1;
   A Jz 0 2 0 2 1 0 0 Jz 0; A Jz 1 2 0 2 (-1) 1 0 Jz 1; A Jz 0 2 1 2 1 0 1 Jz 0; A Jz 1 2 1 2 (-1) 1 1 Jz 1;
   A Jz 0 2 2 2 1 0 2 Jz 0; A Jz 1 2 2 2 (-1) 1 2 Jz 1; A Jz 0 2 3 2 1 0 3 Jz 0; A Jz 1 2 3 2 (-1) 1 3 Jz 1;
   A Jz 0 3 0 3 1 0 0 Jz 0; A Jz 1 3 0 3 (-1) 1 0 Jz 1; A Jz 0 3 1 3 1 0 1 Jz 0; A Jz 1 3 1 3 (-1) 1 1 Jz 1;
   A Jz 0 3 2 3 1 0 2 Jz 0; A Jz 1 3 2 3 (-1) 1 2 Jz 1; A Jz 0 3 3 3 1 0 3 Jz 0; A Jz 1 3 3 3 (-1) 1 3 Jz 1];
  k_add := [
   D Jr 0 Re_ 0 0 Jr 0 0 0 Re_ false; D Jr 0 Re_ 0 1 Jr 0 1 0 Re_ false; D Jr 0 Re_ 0 2 Jr 0 2 0 Re_ false; D Jr 0 Re_ 0 3 Jr 0 3 0 Re_ false;
   D Jr 0 Re_ 1 0 Jr 0 0 1 Re_ false; D Jr 0 Re_ 1 1 Jr 0 1 1 Re_ false; D Jr 0 Re_ 1 2 Jr 0 2 1 Re_ false; D Jr 0 Re_ 1 3 Jr 0 3 1 Re_ false;
   D Jr 0 Re_ 2 0 Jr 0 0 2 Re_ false; D Jr 0 Re_ 2 1 Jr 0 1 2 Re_ false; D Jr 0 Re_ 2 2 Jr 0 2 2 Re_ false; D Jr 0 Re_ 2 3 Jr 0 3 2 Re_ false;
   D Jr 0 Re_ 3 0 Jr 0 0 3 Re_ false; D Jr 0 Re_ 3 1 Jr 0 1 3 Re_ false; D Jr 0 Re_ 3 2 Jr 0 2 3 Re_ false; D Jr 0 Re_ 3 3 Jr 0 3 3 Re_ false;
   D Jr 1 Re_ 0 0 Jr 1 0 0 Re_ false; D Jr 1 Im_ 0 0 Jr 1 0 0 Im_ false; D Jr 1 Re_ 0 1 Jr 1 1 0 Re_ false; D Jr 1 Im_ 0 1 Jr 1 1 0 Im_ false;
   D Jr 1 Re_ 0 2 Jr 1 2 0 Re_ false; D Jr 1 Im_ 0 2 Jr 1 2 0 Im_ false; D Jr 1 Re_ 0 3 Jr 1 3 0 Re_ false; D Jr 1 Im_ 0 3 Jr 1 3 0 Im_ false;
   D Jr 1 Re_ 1 0 Jr 1 0 1 Re_ false; D Jr 1 Im_ 1 0 Jr 1 0 1 Im_ false; D Jr 1 Re_ 1 1 Jr 1 1 1 Re_ false; D Jr 1 Im_ 1 1 Jr 1 1 1 Im_ false;
   D Jr 1 Re_ 1 2 Jr 1 2 1 Re_ false; D Jr 1 Im_ 1 2 Jr 1 2 1 Im_ false; D Jr 1 Re_ 1 3 Jr 1 3 1 Re_ false; D Jr 1 Im_ 1 3 Jr 1 3 1 Im_ false;
   D Jr 1 Re_ 2 0 Jr 1 0 2 Re_ false; D Jr 1 Im_ 2 0 Jr 1 0 2 Im_ false; D Jr 1 Re_ 2 1 Jr 1 1 2 Re_ false; D Jr 1 Im_ 2 1 Jr 1 1 2 Im_ false;
   D Jr 1 Re_ 2 2 Jr 1 2 2 Re_ false; D Jr 1 Im_ 2 2 Jr 1 2 2 Im_ false; D Jr 1 Re_ 2 3 Jr 1 3 2 Re_ false; D Jr 1 Im_ 2 3 Jr 1 3 2 Im_ false;
   D Jr 1 Re_ 3 0 Jr 1 0 3 Re_ false; D Jr 1 Im_ 3 0 Jr 1 0 3 Im_ false; D Jr 1 Re_ 3 1 Jr 1 1 3 Re_ false; D Jr 1 Im_ 3 1 Jr 1 1 3 Im_ false;
   D Jr 1 Re_ 3 2 Jr 1 2 3 Re_ false; D Jr 1 Im_ 3 2 Jr 1 2 3 Im_ false; D Jr 1 Re_ 3 3 Jr 1 3 3 Re_ false; D Jr 1 Im_ 3 3 Jr 1 3 3 Im_ false;
   D Jt 0 Re_ 0 0 Jt 0 0 0 Re_ false; D Jt 0 Re_ 0 1 Jt 0 1 0 Re_ false; D Jt 0 Re_ 0 2 Jt 0 2 0 Re_ false; D Jt 0 Re_ 0 3 Jt 0 3 0 Re_ false;
   D Jt 0 Re_ 1 0 Jt 0 0 1 Re_ false; D Jt 0 Re_ 1 1 Jt 0 1 1 Re_ false; D Jt 0 Re_ 1 2 Jt 0 2 1 Re_ false; D Jt 0 Re_ 1 3 Jt 0 3 1 Re_ false;
   D Jt 0 Re_ 2 0 Jt 0 0 2 Re_ false; D Jt 0 Re_ 2 1 Jt 0 1 2 Re_ false; D Jt 0 Re_ 2 2 Jt 0 2 2 Re_ false; D Jt 0 Re_ 2 3 Jt 0 3 2 Re_ false;
   D Jt 0 Re_ 3 0 Jt 0 0 3 Re_ false; D Jt 0 Re_ 3 1 Jt 0 1 3 Re_ false; D Jt 0 Re_ 3 2 Jt 0 2 3 Re_ false; D Jt 0 Re_ 3 3 Jt 0 3 3 Re_ false;
   D Jt 1 Re_ 0 0 Jt 1 0 0 Re_ false; D Jt 1 Im_ 0 0 Jt 1 0 0 Im_ false; D Jt 1 Re_ 0 1 Jt 1 1 0 Re_ false; D Jt 1 Im_ 0 1 Jt 1 1 0 Im_ false;
   D Jt 1 Re_ 0 2 Jt 1 2 0 Re_ false; D Jt 1 Im_ 0 2 Jt 1 2 0 Im_ false; D Jt 1 Re_ 0 3 Jt 1 3 0 Re_ false; D Jt 1 Im_ 0 3 Jt 1 3 0 Im_ false;
   D Jt 1 Re_ 1 0 Jt 1 0 1 Re_ false; D Jt 1 Im_ 1 0 Jt 1 0 1 Im_ false; D Jt 1 Re_ 1 1 Jt 1 1 1 Re_ false; D Jt 1 Im_ 1 1 Jt 1 1 1 Im_ false;
   D Jt 1 Re_ 1 2 Jt 1 2 1 Re_ false; D Jt 1 Im_ 1 2 Jt 1 2 1 Im_ false; D Jt 1 Re_ 1 3 Jt 1 3 1 Re_ false; D Jt 1 Im_ 1 3 Jt 1 3 1 Im_ false;
   D Jt 1 Re_ 2 0 Jt 1 0 2 Re_ false; D Jt 1 Im_ 2 0 Jt 1 0 2 Im_ false; D Jt 1 Re_ 2 1 Jt 1 1 2 Re_ false; D Jt 1 Im_ 2 1 Jt 1 1 2 Im_ false;
   D Jt 1 Re_ 2 2 Jt 1 2 2 Re_ false; D Jt 1 Im_ 2 2 Jt 1 2 2 Im_ false; D Jt 1 Re_ 2 3 Jt 1 3 2 Re_ false; D Jt 1 Im_ 2 3 Jt 1 3 2 Im_ false;
   D Jt 1 Re_ 3 0 Jt 1 0 3 Re_ false; D Jt 1 Im_ 3 0 Jt 1 0 3 Im_ false; D Jt 1 Re_ 3 1 Jt 1 1 3 Re_ false; D Jt 1 Im_ 3 1 Jt 1 1 3 Im_ false;
   D Jt 1 Re_ 3 2 Jt 1 2 3 Re_ false; D Jt 1 Im_ 3 2 Jt 1 2 3 Im_ false; D Jt 1 Re_ 3 3 Jt 1 3 3 Re_ false; D Jt 1 Im_ 3 3 Jt 1 3 3 Im_ false;
   D Jz 0 Re_ 0 0 Jz 0 0 0 Re_ false; D Jz 0 Re_ 0 1 Jz 0 1 0 Re_ false; D Jz 0 Re_ 0 2 Jz 0 2 0 Re_ false; D Jz 0 Re_ 0 3 Jz 0 3 0 Re_ false;
   D Jz 0 Re_ 1 0 Jz 0 0 1 Re_ false; D Jz 0 Re_ 1 1 Jz 0 1 1 Re_ false; D Jz 0 Re_ 1 2 Jz 0 2 1 Re_ false; D Jz 0 Re_ 1 3 Jz 0 3 1 Re_ false;
   D Jz 0 Re_ 2 0 Jz 0 0 2 Re_ false; D Jz 0 Re_ 2 1 Jz 0 1 2 Re_ false; D Jz 0 Re_ 2 2 Jz 0 2 2 Re_ false; D Jz 0 Re_ 2 3 Jz 0 3 2 Re_ false;
   D Jz 0 Re_ 3 0 Jz 0 0 3 Re_ false; D Jz 0 Re_ 3 1 Jz 0 1 3 Re_ false; D Jz 0 Re_ 3 2 Jz 0 2 3 Re_ false; D Jz 0 Re_ 3 3 Jz 0 3 3 Re_ false;
   D Jz 1 Re_ 0 0 Jz 1 0 0 Re_ false; D Jz 1 Im_ 0 0 Jz 1 0 0 Im_ false; D Jz 1 Re_ 0 1 Jz 1 1 0 Re_ false; D Jz 1 Im_ 0 1 Jz 1 1 0 Im_ false;
   D Jz 1 Re_ 0 2 Jz 1 2 0 Re_ false; D Jz 1 Im_ 0 2 Jz 1 2 0 Im_ false; D Jz 1 Re_ 0 3 Jz 1 3 0 Re_ false; D Jz 1 Im_ 0 3 Jz 1 3 0 Im_ false;
   D Jz 1 Re_ 1 0 Jz 1 0 1 Re_ false; D Jz 1 Im_ 1 0 Jz 1 0 1 Im_ false; D Jz 1 Re_ 1 1 Jz 1 1 1 Re_ false; D Jz 1 Im_ 1 1 Jz 1 1 1 Im_ false;
   D Jz 1 Re_ 1 2 Jz 1 2 1 Re_ false; D Jz 1 Im_ 1 2 Jz 1 2 1 Im_ false; D Jz 1 Re_ 1 3 Jz 1 3 1 Re_ false; D Jz 1 Im_ 1 3 Jz 1 3 1 Im_ false;
   D Jz 1 Re_ 2 0 Jz 1 0 2 Re_ false; D Jz 1 Im_ 2 0 Jz 1 0 2 Im_ false; D Jz 1 Re_ 2 1 Jz 1 1 2 Re_ false; D Jz 1 Im_ 2 1 Jz 1 1 2 Im_ false;
   D Jz 1 Re_ 2 2 Jz 1 2 2 Re_ false; D Jz 1 Im_ 2 2 Jz 1 2 2 Im_ false; D Jz 1 Re_ 2 3 Jz 1 3 2 Re_ false; D Jz 1 Im_ 2 3 Jz 1 3 2 Im_ false;
   D Jz 1 Re_ 3 0 Jz 1 0 3 Re_ false; D Jz 1 Im_ 3 0 Jz 1 0 3 Im_ false; D Jz 1 Re_ 3 1 Jz 1 1 3 Re_ false; D Jz 1 Im_ 3 1 Jz 1 1 3 Im_ false;
   D Jz 1 Re_ 3 2 Jz 1 2 3 Re_ false; D Jz 1 Im_ 3 2 Jz 1 2 3 Im_ false; D Jz 1 Re_ 3 3 Jz 1 3 3 Re_ false; D Jz 1 Im_ 3 3 Jz 1 3 3 Im_ false] |}.
(** cuda_methods_one_mode.py:28-185 deposit_rho_gpu_linear_one_mode: lines 107-110, 157-160, 176-185 *)
Definition deposit_rho_gpu_linear_one_mode : kernel := {|
  k_shape := Linear; k_two := false;
  k_init := [
   N Rho 0 0 0; N Rho 0 0 1; N Rho 0 1 0; N Rho 0 1 1];
  k_acc := [
   A Rho 0 0 0 0 1 0 0 Rho 0; A Rho 0 0 1 0 1 0 1 Rho 0; A Rho 0 1 0 1 1 0 0 Rho 0; A Rho 0 1 1 1 1 0 1 Rho 0];
  k_add := [
   D Rho 0 Re_ 0 0 Rho 0 0 0 Re_ false; D Rho 0 Re_ 0 1 Rho 0 1 0 Re_ false; D Rho 0 Re_ 1 0 Rho 0 0 1 Re_ false; D Rho 0 Re_ 1 1 Rho 0 1 1 Re_ false;
   D Rho 0 Im_ 0 0 Rho 0 0 0 Im_ true; D Rho 0 Im_ 0 1 Rho 0 1 0 Im_ true; D Rho 0 Im_ 1 0 Rho 0 0 1 Im_ true; D Rho 0 Im_ 1 1 Rho 0 1 1 Im_ true] |}.
(** cuda_methods_one_mode.py:193-409 deposit_J_gpu_linear_one_mode: lines 282-293, 352-364, 381-409 *)
Definition deposit_J_gpu_linear_one_mode : kernel := {|
  k_shape := Linear; k_two := false;
  k_init := [
   N Jr 0 0 0; N Jt 0 0 0; N Jz 0 0 0; N Jr 0 0 1; N Jt 0 0 1; N Jz 0 0 1; N Jr 0 1 0; N Jt 0 1 0; N Jz 0 1 0; N Jr 0 1 1; N Jt 0 1 1; N Jz 0 1 1];
  k_acc := [
   A Jr 0 0 0 0 (-1) 0 0 Jr 0; A Jt 0 0 0 0 (-1) 0 0 Jt 0; A Jz 0 0 0 0 1 0 0 Jz 0; A Jr 0 0 1 0 (-1) 0 1 Jr 0;
   A Jt 0 0 1 0 (-1) 0 1 Jt 0; A Jz 0 0 1 0 1 0 1 Jz 0; A Jr 0 1 0 1 (-1) 0 0 Jr 0; A Jt 0 1 0 1 (-1) 0 0 Jt 0;
   A Jz 0 1 0 1 1 0 0 Jz 0; A Jr 0 1 1 1 (-1) 0 1 Jr 0; A Jt 0 1 1 1 (-1) 0 1 Jt 0; A Jz 0 1 1 1 1 0 1 Jz 0];
  k_add := [
   D Jr 0 Re_ 0 0 Jr 0 0 0 Re_ false; D Jr 0 Re_ 0 1 Jr 0 1 0 Re_ false; D Jr 0 Re_ 1 0 Jr 0 0 1 Re_ false; D Jr 0 Re_ 1 1 Jr 0 1 1 Re_ false;
   D Jr 0 Im_ 0 0 Jr 0 0 0 Im_ true; D Jr 0 Im_ 0 1 Jr 0 1 0 Im_ true; D Jr 0 Im_ 1 0 Jr 0 0 1 Im_ true; D Jr 0 Im_ 1 1 Jr 0 1 1 Im_ true;
   D Jt 0 Re_ 0 0 Jt 0 0 0 Re_ false; D Jt 0 Re_ 0 1 Jt 0 1 0 Re_ false; D Jt 0 Re_ 1 0 Jt 0 0 1 Re_ false; D Jt 0 Re_ 1 1 Jt 0 1 1 Re_ false;
   D Jt 0 Im_ 0 0 Jt 0 0 0 Im_ true; D Jt 0 Im_ 0 1 Jt 0 1 0 Im_ true; D Jt 0 Im_ 1 0 Jt 0 0 1 Im_ true; D Jt 0 Im_ 1 1 Jt 0 1 1 Im_ true;
   D Jz 0 Re_ 0 0 Jz 0 0 0 Re_ false; D Jz 0 Re_ 0 1 Jz 0 1 0 Re_ false; D Jz 0 Re_ 1 0 Jz 0 0 1 Re_ false; D Jz 0 Re_ 1 1 Jz 0 1 1 Re_ false;
   D Jz 0 Im_ 0 0 Jz 0 0 0 Im_ true; D Jz 0 Im_ 0 1 Jz 0 1 0 Im_ true; D Jz 0 Im_ 1 0 Jz 0 0 1 Im_ true; D Jz 0 Im_ 1 1 Jz 0 1 1 Im_ true] |}.
(** cuda_methods_one_mode.py:416-634 deposit_rho_gpu_cubic_one_mode: lines 494-509, 557-575, 602-634 *)
Definition deposit_rho_gpu_cubic_one_mode : kernel := {|
  k_shape := Cubic; k_two := false;
  k_init := [
   N Rho 0 0 0; N Rho 0 0 1; N Rho 0 0 2; N Rho 0 0 3; N Rho 0 1 0; N Rho 0 1 1; N Rho 0 1 2; N Rho 0 1 3; N Rho 0 2 0; N Rho 0 2 1; N Rho 0 2 2; N Rho 0 2 3;
   N Rho 0 3 0; N Rho 0 3 1; N Rho 0 3 2; N Rho 0 3 3];
  k_acc := [
   A Rho 0 0 0 0 1 0 0 Rho 0; A Rho 0 0 1 0 1 0 1 Rho 0; A Rho 0 0 2 0 1 0 2 Rho 0; A Rho 0 0 3 0 1 0 3 Rho 0;
   A Rho 0 1 0 1 1 0 0 Rho 0; A Rho 0 1 1 1 1 0 1 Rho 0; A Rho 0 1 2 1 1 0 2 Rho 0; A Rho 0 1 3 1 1 0 3 Rho 0;
   A Rho 0 2 0 2 1 0 0 Rho 0; A Rho 0 2 1 2 1 0 1 Rho 0; A Rho 0 2 2 2 1 0 2 Rho 0; A Rho 0 2 3 2 1 0 3 Rho 0;
   A Rho 0 3 0 3 1 0 0 Rho 0; A Rho 0 3 1 3 1 0 1 Rho 0; A Rho 0 3 2 3 1 0 2 Rho 0; A Rho 0 3 3 3 1 0 3 Rho 0];
  k_add := [
   D Rho 0 Re_ 0 0 Rho 0 0 0 Re_ false; D Rho 0 Re_ 0 1 Rho 0 1 0 Re_ false; D Rho 0 Re_ 0 2 Rho 0 2 0 Re_ false; D Rho 0 Re_ 0 3 Rho 0 3 0 Re_ false;
   D Rho 0 Re_ 1 0 Rho 0 0 1 Re_ false; D Rho 0 Re_ 1 1 Rho 0 1 1 Re_ false; D Rho 0 Re_ 1 2 Rho 0 2 1 Re_ false; D Rho 0 Re_ 1 3 Rho 0 3 1 Re_ false;
   D Rho 0 Re_ 2 0 Rho 0 0 2 Re_ false; D Rho 0 Re_ 2 1 Rho 0 1 2 Re_ false; D Rho 0 Re_ 2 2 Rho 0 2 2 Re_ false; D Rho 0 Re_ 2 3 Rho 0 3 2 Re_ false;
   D Rho 0 Re_ 3 0 Rho 0 0 3 Re_ false; D Rho 0 Re_ 3 1 Rho 0 1 3 Re_ false; D Rho 0 Re_ 3 2 Rho 0 2 3 Re_ false; D Rho 0 Re_ 3 3 Rho 0 3 3 Re_ false;
   D Rho 0 Im_ 0 0 Rho 0 0 0 Im_ true; D Rho 0 Im_ 0 1 Rho 0 1 0 Im_ true; D Rho 0 Im_ 0 2 Rho 0 2 0 Im_ true; D Rho 0 Im_ 0 3 Rho 0 3 0 Im_ true;
   D Rho 0 Im_ 1 0 Rho 0 0 1 Im_ true; D Rho 0 Im_ 1 1 Rho 0 1 1 Im_ true; D Rho 0 Im_ 1 2 Rho 0 2 1 Im_ true; D Rho 0 Im_ 1 3 Rho 0 3 1 Im_ true;
   D Rho 0 Im_ 2 0 Rho 0 0 2 Im_ true; D Rho 0 Im_ 2 1 Rho 0 1 2 Im_ true; D Rho 0 Im_ 2 2 Rho 0 2 2 Im_ true; D Rho 0 Im_ 2 3 Rho 0 3 2 Im_ true;
   D Rho 0 Im_ 3 0 Rho 0 0 3 Im_ true; D Rho 0 Im_ 3 1 Rho 0 1 3 Im_ true; D Rho 0 Im_ 3 2 Rho 0 2 3 Im_ true; D Rho 0 Im_ 3 3 Rho 0 3 3 Im_ true] |}.
(** cuda_methods_one_mode.py:642-1039 deposit_J_gpu_cubic_one_mode: lines 730-792, 853-911, 939-1039 *)
Definition deposit_J_gpu_cubic_one_mode : kernel := {|
  k_shape := Cubic; k_two := false;
  k_init := [
   N Jr 0 0 0; N Jt 0 0 0; N Jz 0 0 0; N Jr 0 0 1; N Jt 0 0 1; N Jz 0 0 1; N Jr 0 0 2; N Jt 0 0 2; N Jz 0 0 2; N Jr 0 0 3; N Jt 0 0 3; N Jz 0 0 3;
   N Jr 0 1 0; N Jt 0 1 0; N Jz 0 1 0; N Jr 0 1 1; N Jt 0 1 1; N Jz 0 1 1; N Jr 0 1 2; N Jt 0 1 2; N Jz 0 1 2; N Jr 0 1 3; N Jt 0 1 3; N Jz 0 1 3;
   N Jr 0 2 0; N Jt 0 2 0; N Jz 0 2 0; N Jr 0 2 1; N Jt 0 2 1; N Jz 0 2 1; N Jr 0 2 2; N Jt 0 2 2; N Jz 0 2 2; N Jr 0 2 3; N Jt 0 2 3; N Jz 0 2 3;
   N Jr 0 3 0; N Jt 0 3 0; N Jz 0 3 0; N Jr 0 3 1; N Jt 0 3 1; N Jz 0 3 1; N Jr 0 3 2; N Jt 0 3 2; N Jz 0 3 2; N Jr 0 3 3; N Jt 0 3 3; N Jz 0 3 3];
  k_acc := [
   A Jr 0 0 0 0 (-1) 0 0 Jr 0; A Jr 0 0 1 0 (-1) 0 1 Jr 0; A Jr 0 0 2 0 (-1) 0 2 Jr 0; A Jr 0 0 3 0 (-1) 0 3 Jr 0;
   A Jr 0 1 0 1 (-1) 0 0 Jr 0; A Jr 0 1 1 1 (-1) 0 1 Jr 0; A Jr 0 1 2 1 (-1) 0 2 Jr 0; A Jr 0 1 3 1 (-1) 0 3 Jr 0;
   A Jr 0 2 0 2 (-1) 0 0 Jr 0; A Jr 0 2 1 2 (-1) 0 1 Jr 0; A Jr 0 2 2 2 (-1) 0 2 Jr 0; A Jr 0 2 3 2 (-1) 0 3 Jr 0;
   A Jr 0 3 0 3 (-1) 0 0 Jr 0; A Jr 0 3 1 3 (-1) 0 1 Jr 0; A Jr 0 3 2 3 (-1) 0 2 Jr 0; A Jr 0 3 3 3 (-1) 0 3 Jr 0;
   A Jt 0 0 0 0 (-1) 0 0 Jt 0; A Jt 0 0 1 0 (-1) 0 1 Jt 0; A Jt 0 0 2 0 (-1) 0 2 Jt 0; A Jt 0 0 3 0 (-1) 0 3 Jt 0;
   A Jt 0 1 0 1 (-1) 0 0 Jt 0; A Jt 0 1 1 1 (-1) 0 1 Jt 0; A Jt 0 1 2 1 (-1) 0 2 Jt 0; A Jt 0 1 3 1 (-1) 0 3 Jt 0;
   A Jt 0 2 0 2 (-1) 0 0 Jt 0; A Jt 0 2 1 2 (-1) 0 1 Jt 0; A Jt 0 2 2 2 (-1) 0 2 Jt 0; A Jt 0 2 3 2 (-1) 0 3 Jt 0;
   A Jt 0 3 0 3 (-1) 0 0 Jt 0; A Jt 0 3 1 3 (-1) 0 1 Jt 0; A Jt 0 3 2 3 (-1) 0 2 Jt 0; A Jt 0 3 3 3 (-1) 0 3 Jt 0;
   A Jz 0 0 0 0 1 0 0 Jz 0; A Jz 0 0 1 0 1 0 1 Jz 0; A Jz 0 0 2 0 1 0 2 Jz 0; A Jz 0 0 3 0 1 0 3 Jz 0;
   A Jz 0 1 0 1 1 0 0 Jz 0; A Jz 0 1 1 1 1 0 1 Jz 0; A Jz 0 1 2 1 1 0 2 Jz 0; A Jz 0 1 3 1 1 0 3 Jz 0;
   A Jz 0 2 0 2 1 0 0 Jz 0; A Jz 0 2 1 2 1 0 1 Jz 0; A Jz 0 2 2 2 1 0 2 Jz 0; A Jz 0 2 3 2 1 0 3 Jz 0;
   A Jz 0 3 0 3 1 0 0 Jz 0; A Jz 0 3 1 3 1 0 1 Jz 0; A Jz 0 3 2 3 1 0 2 Jz 0; A Jz 0 3 3 3 1 0 3 Jz 0];
  k_add := [
   D Jr 0 Re_ 0 0 Jr 0 0 0 Re_ false; D Jr 0 Re_ 0 1 Jr 0 1 0 Re_ false; D Jr 0 Re_ 0 2 Jr 0 2 0 Re_ false; D Jr 0 Re_ 0 3 Jr 0 3 0 Re_ false;
   D Jr 0 Re_ 1 0 Jr 0 0 1 Re_ false; D Jr 0 Re_ 1 1 Jr 0 1 1 Re_ false; D Jr 0 Re_ 1 2 Jr 0 2 1 Re_ false; D Jr 0 Re_ 1 3 Jr 0 3 1 Re_ false;
   D Jr 0 Re_ 2 0 Jr 0 0 2 Re_ false; D Jr 0 Re_ 2 1 Jr 0 1 2 Re_ false; D Jr 0 Re_ 2 2 Jr 0 2 2 Re_ false; D Jr 0 Re_ 2 3 Jr 0 3 2 Re_ false;
   D Jr 0 Re_ 3 0 Jr 0 0 3 Re_ false; D Jr 0 Re_ 3 1 Jr 0 1 3 Re_ false; D Jr 0 Re_ 3 2 Jr 0 2 3 Re_ false; D Jr 0 Re_ 3 3 Jr 0 3 3 Re_ false;
   D Jr 0 Im_ 0 0 Jr 0 0 0 Im_ true; D Jr 0 Im_ 0 1 Jr 0 1 0 Im_ true; D Jr 0 Im_ 0 2 Jr 0 2 0 Im_ true; D Jr 0 Im_ 0 3 Jr 0 3 0 Im_ true;
   D Jr 0 Im_ 1 0 Jr 0 0 1 Im_ true; D Jr 0 Im_ 1 1 Jr 0 1 1 Im_ true; D Jr 0 Im_ 1 2 Jr 0 2 1 Im_ true; D Jr 0 Im_ 1 3 Jr 0 3 1 Im_ true;
   D Jr 0 Im_ 2 0 Jr 0 0 2 Im_ true; D Jr 0 Im_ 2 1 Jr 0 1 2 Im_ true; D Jr 0 Im_ 2 2 Jr 0 2 2 Im_ true; D Jr 0 Im_ 2 3 Jr 0 3 2 Im_ true;
   D Jr 0 Im_ 3 0 Jr 0 0 3 Im_ true; D Jr 0 Im_ 3 1 Jr 0 1 3 Im_ true; D Jr 0 Im_ 3 2 Jr 0 2 3 Im_ true; D Jr 0 Im_ 3 3 Jr 0 3 3 Im_ true;
   D Jt 0 Re_ 0 0 Jt 0 0 0 Re_ false; D Jt 0 Re_ 0 1 Jt 0 1 0 Re_ false; D Jt 0 Re_ 0 2 Jt 0 2 0 Re_ false; D Jt 0 Re_ 0 3 Jt 0 3 0 Re_ false;
   D Jt 0 Re_ 1 0 Jt 0 0 1 Re_ false; D Jt 0 Re_ 1 1 Jt 0 1 1 Re_ false; D Jt 0 Re_ 1 2 Jt 0 2 1 Re_ false; D Jt 0 Re_ 1 3 Jt 0 3 1 Re_ false;
   D Jt 0 Re_ 2 0 Jt 0 0 2 Re_ false; D Jt 0 Re_ 2 1 Jt 0 1 2 Re_ false; D Jt 0 Re_ 2 2 Jt 0 2 2 Re_ false; D Jt 0 Re_ 2 3 Jt 0 3 2 Re_ false;
   D Jt 0 Re_ 3 0 Jt 0 0 3 Re_ false; D Jt 0 Re_ 3 1 Jt 0 1 3 Re_ false; D Jt 0 Re_ 3 2 Jt 0 2 3 Re_ false; D Jt 0 Re_ 3 3 Jt 0 3 3 Re_ false;
   D Jt 0 Im_ 0 0 Jt 0 0 0 Im_ true; D Jt 0 Im_ 0 1 Jt 0 1 0 Im_ true; D Jt 0 Im_ 0 2 Jt 0 2 0 Im_ true; D Jt 0 Im_ 0 3 Jt 0 3 0 Im_ true;
   D Jt 0 Im_ 1 0 Jt 0 0 1 Im_ true; D Jt 0 Im_ 1 1 Jt 0 1 1 Im_ true; D Jt 0 Im_ 1 2 Jt 0 2 1 Im_ true; D Jt 0 Im_ 1 3 Jt 0 3 1 Im_ true;
   D Jt 0 Im_ 2 0 Jt 0 0 2 Im_ true; D Jt 0 Im_ 2 1 Jt 0 1 2 Im_ true; D Jt 0 Im_ 2 2 Jt 0 2 2 Im_ true; D Jt 0 Im_ 2 3 Jt 0 3 2 Im_ true;
   D Jt 0 Im_ 3 0 Jt 0 0 3 Im_ true; D Jt 0 Im_ 3 1 Jt 0 1 3 Im_ true; D Jt 0 Im_ 3 2 Jt 0 2 3 Im_ true; D Jt 0 Im_ 3 3 Jt 0 3 3 Im_ true;
   D Jz 0 Re_ 0 0 Jz 0 0 0 Re_ false; D Jz 0 Re_ 0 1 Jz 0 1 0 Re_ false; D Jz 0 Re_ 0 2 Jz 0 2 0 Re_ false; D Jz 0 Re_ 0 3 Jz 0 3 0 Re_ false;
   D Jz 0 Re_ 1 0 Jz 0 0 1 Re_ false; D Jz 0 Re_ 1 1 Jz 0 1 1 Re_ false; D Jz 0 Re_ 1 2 Jz 0 2 1 Re_ false; D Jz 0 Re_ 1 3 Jz 0 3 1 Re_ false;
   D Jz 0 Re_ 2 0 Jz 0 0 2 Re_ false; D Jz 0 Re_ 2 1 Jz 0 1 2 Re_ false; D Jz 0 Re_ 2 2 Jz 0 2 2 Re_ false; D Jz 0 Re_ 2 3 Jz 0 3 2 Re_ false;
   D Jz 0 Re_ 3 0 Jz 0 0 3 Re_ false; D Jz 0 Re_ 3 1 Jz 0 1 3 Re_ false; D Jz 0 Re_ 3 2 Jz 0 2 3 Re_ false; D Jz 0 Re_ 3 3 Jz 0 3 3 Re_ false;
   D Jz 0 Im_ 0 0 Jz 0 0 0 Im_ true; D Jz 0 Im_ 0 1 Jz 0 1 0 Im_ true; D Jz 0 Im_ 0 2 Jz 0 2 0 Im_ true; D Jz 0 Im_ 0 3 Jz 0 3 0 Im_ true;
   D Jz 0 Im_ 1 0 Jz 0 0 1 Im_ true; D Jz 0 Im_ 1 1 Jz 0 1 1 Im_ true; D Jz 0 Im_ 1 2 Jz 0 2 1 Im_ true; D Jz 0 Im_ 1 3 Jz 0 3 1 Im_ true;
   D Jz 0 Im_ 2 0 Jz 0 0 2 Im_ true; D Jz 0 Im_ 2 1 Jz 0 1 2 Im_ true; D Jz 0 Im_ 2 2 Jz 0 2 2 Im_ true; D Jz 0 Im_ 2 3 Jz 0 3 2 Im_ true;
   D Jz 0 Im_ 3 0 Jz 0 0 3 Im_ true; D Jz 0 Im_ 3 1 Jz 0 1 3 Im_ true; D Jz 0 Im_ 3 2 Jz 0 2 3 Im_ true; D Jz 0 Im_ 3 3 Jz 0 3 3 Im_ true] |}.

(** threading_methods.py:28-146 deposit_rho_numba_linear: lines 143-146 *)
Definition deposit_rho_numba_linear : list cpu_row := [
   P Rho 0 0 0 0 1 Rho; P Rho 0 1 0 1 1 Rho; P Rho 1 0 1 0 1 Rho; P Rho 1 1 1 1 1 Rho].
(** threading_methods.py:155-302 deposit_J_numba_linear: lines 289-302 *)
Definition deposit_J_numba_linear : list cpu_row := [
   P Jr 0 0 0 0 (-1) Jr; P Jr 0 1 0 1 (-1) Jr; P Jr 1 0 1 0 (-1) Jr; P Jr 1 1 1 1 (-1) Jr; P Jt 0 0 0 0 (-1) Jt; P Jt 0 1 0 1 (-1) Jt;
   P Jt 1 0 1 0 (-1) Jt; P Jt 1 1 1 1 (-1) Jt; P Jz 0 0 0 0 1 Jz; P Jz 0 1 0 1 1 Jz; P Jz 1 0 1 0 1 Jz; P Jz 1 1 1 1 1 Jz].
(** threading_methods.py:313-446 deposit_rho_numba_cubic: lines 428-446 *)
Definition deposit_rho_numba_cubic : list cpu_row := [
   P Rho 0 0 0 0 1 Rho; P Rho 0 1 0 1 1 Rho; P Rho 0 2 0 2 1 Rho; P Rho 0 3 0 3 1 Rho; P Rho 1 0 1 0 1 Rho; P Rho 1 1 1 1 1 Rho;
   P Rho 1 2 1 2 1 Rho; P Rho 1 3 1 3 1 Rho; P Rho 2 0 2 0 1 Rho; P Rho 2 1 2 1 1 Rho; P Rho 2 2 2 2 1 Rho; P Rho 2 3 2 3 1 Rho;
   P Rho 3 0 3 0 1 Rho; P Rho 3 1 3 1 1 Rho; P Rho 3 2 3 2 1 Rho; P Rho 3 3 3 3 1 Rho].
(** threading_methods.py:455-648 deposit_J_numba_cubic: lines 590-648 *)
Definition deposit_J_numba_cubic : list cpu_row := [
   P Jr 0 0 0 0 (-1) Jr; P Jr 0 1 0 1 (-1) Jr; P Jr 0 2 0 2 (-1) Jr; P Jr 0 3 0 3 (-1) Jr; P Jr 1 0 1 0 (-1) Jr; P Jr 1 1 1 1 (-1) Jr;
   P Jr 1 2 1 2 (-1) Jr; P Jr 1 3 1 3 (-1) Jr; P Jr 2 0 2 0 (-1) Jr; P Jr 2 1 2 1 (-1) Jr; P Jr 2 2 2 2 (-1) Jr; P Jr 2 3 2 3 (-1) Jr;
   P Jr 3 0 3 0 (-1) Jr; P Jr 3 1 3 1 (-1) Jr; P Jr 3 2 3 2 (-1) Jr; P Jr 3 3 3 3 (-1) Jr; P Jt 0 0 0 0 (-1) Jt; P Jt 0 1 0 1 (-1) Jt;
   P Jt 0 2 0 2 (-1) Jt; P Jt 0 3 0 3 (-1) Jt; P Jt 1 0 1 0 (-1) Jt; P Jt 1 1 1 1 (-1) Jt; P Jt 1 2 1 2 (-1) Jt; P Jt 1 3 1 3 (-1) Jt;
   P Jt 2 0 2 0 (-1) Jt; P Jt 2 1 2 1 (-1) Jt; P Jt 2 2 2 2 (-1) Jt; P Jt 2 3 2 3 (-1) Jt; P Jt 3 0 3 0 (-1) Jt; P Jt 3 1 3 1 (-1) Jt;
   P Jt 3 2 3 2 (-1) Jt; P Jt 3 3 3 3 (-1) Jt; P Jz 0 0 0 0 1 Jz; P Jz 0 1 0 1 1 Jz; P Jz 0 2 0 2 1 Jz; P Jz 0 3 0 3 1 Jz;
   P Jz 1 0 1 0 1 Jz; P Jz 1 1 1 1 1 Jz; P Jz 1 2 1 2 1 Jz; P Jz 1 3 1 3 1 Jz; P Jz 2 0 2 0 1 Jz; P Jz 2 1 2 1 1 Jz;
   P Jz 2 2 2 2 1 Jz; P Jz 2 3 2 3 1 Jz; P Jz 3 0 3 0 1 Jz; P Jz 3 1 3 1 1 Jz; P Jz 3 2 3 2 1 Jz; P Jz 3 3 3 3 1 Jz].

(** particles.py:887-980: the choice of the kernel. *)
Definition gpu_kernel (Nm : nat) (ft : fieldtype) (sh : shape) : kernel :=
  match ft, sh with
  | FRho, Linear => if (Nm =? 2)%nat then deposit_rho_gpu_linear else deposit_rho_gpu_linear_one_mode
  | FRho, Cubic => if (Nm =? 2)%nat then deposit_rho_gpu_cubic else deposit_rho_gpu_cubic_one_mode
  | FJ, Linear => if (Nm =? 2)%nat then deposit_J_gpu_linear else deposit_J_gpu_linear_one_mode
  | FJ, Cubic => if (Nm =? 2)%nat then deposit_J_gpu_cubic else deposit_J_gpu_cubic_one_mode
  end.
(** particles.py:998-1046. *)
Definition cpu_kernel (ft : fieldtype) (sh : shape) : list cpu_row :=
  match ft, sh with
  | FRho, Linear => deposit_rho_numba_linear
  | FRho, Cubic => deposit_rho_numba_cubic
  | FJ, Linear => deposit_J_numba_linear
  | FJ, Cubic => deposit_J_numba_cubic
  end.

(** Equality of the names of components and of registers (of the source's variable names). *)
Definition comp_eqb (k k' : comp) : bool :=
  match k, k' with Rho, Rho | Jr, Jr | Jt, Jt | Jz, Jz => true | _, _ => false end.
Definition rname_eqb (n n' : rname) : bool :=
  comp_eqb (n_comp n) (n_comp n') && (n_mode n =? n_mode n')%nat && (n_a n =? n_a n') && (n_b n =? n_b n').

(** An addition to one element of one of the arrays (component, mode), and its effect. *)
Definition wadd : Type := (comp * nat) * ((Z * Z) * C).
Definition add_all (A : comp -> nat -> Z -> Z -> C) (w : wadd) : comp -> nat -> Z -> Z -> C :=
  fun k m => if comp_eqb k (fst (fst w)) && (m =? snd (fst w))%nat then add_at (A k m) (snd w) else A k m.

Section Light.
Context (c : R).   (* speed of light *)

(** cuda_methods.py:104-111 ...: the registers before the loop; one that is not set to 0 has an
    arbitrary value [junk]. *)
Definition regs0 (K : kernel) (junk : rname -> C) : rname -> C :=
  fun n => if existsb (rname_eqb n) (k_init K) then RtoC 0 else junk n.
(** cuda_methods.py:113-165 ...: one statement of the loop, for the particle [p]. In a function for one
    mode [m] is its argument; f = (-1)**m (cuda_methods_one_mode.py:113). The last factor: [gpu_scal]. *)
Definition run_acc (g : grid) (K : kernel) (Nm m : nat) (wj : R) (p : ptcl) (regs : rname -> C) (r : acc_row)
  : rname -> C :=
  let actual mu := if k_two K then mu else m in
  let ir := Z.min (Zceil (r_cell g p)) (g_Nr g) in
  let bn := g_beta g (k_shape K) (actual (c_bn r)) ir in
  let fl := (if k_two K then IZR (c_flip r) else if c_flip r =? 1 then (-1) ^ m else - (-1) ^ m)%R in
  fun n => if rname_eqb n (c_reg r)
           then Cplus (regs n) (Cmult (RtoC (Sr (k_shape K) (r_cell g p) (c_sr r) fl bn *
                                             Sz (k_shape K) (z_cell g p) (c_sz r))%R)
                                      (gpu_scal c Nm (c_comp r) wj p (actual (c_mode r))))
           else regs n.
(** cuda_methods.py:83-194 ...: the additions of thread [i] to the arrays, in the order of the source
    (indices iz0 ... ir3: [gpu_iz], [gpu_ir], the same text in the kernels of one shape). *)
Definition written_thread (g : grid) (K : kernel) (Nm m : nat) (q : R) (ionizable : bool) (junk : rname -> C)
  (s : gspecies) (i : Z) : list wadd :=
  if i <? g_Nz g * (g_Nr g + 1) then
    let iz_upper := Ztrunc (rnd64 (IZR i / IZR (g_Nr g + 1))) in
    let ir_upper := i - iz_upper * (g_Nr g + 1) in
    let incl_offset := int32 (s_prefix s i) in
    let frequency_per_cell := if i =? 0 then int32 incl_offset else int32 (incl_offset - s_prefix s (i - 1)) in
    if frequency_per_cell >? 0 then
      let regs := fold_left (fun regs j =>
                    let p := gptcl_at ionizable s (incl_offset - 1 - j) in
                    fold_left (run_acc g K Nm m (q * eff_weight ionizable p)%R p) (k_acc K) regs)
                  (range frequency_per_cell) (regs0 K junk) in
      flat_map (fun d =>
        if d_high d && (m =? 0)%nat then []
        else
          let v := regs (d_reg d) in
          let x := match d_from d with Re_ => fst v | Im_ => snd v end in
          [((d_comp d, if k_two K then d_mode d else m),
            ((gpu_iz (k_shape K) (g_Nz g) iz_upper (d_iz d), gpu_ir (k_shape K) (g_Nr g) ir_upper (d_ir d)),
             match d_part d with Re_ => (x, 0%R) | Im_ => (0%R, x) end))])
      (k_add K)
    else []
  else [].

(** A launch: the atomic additions of all the threads, in any order. *)
Definition written_launch (n tpb : Z) (body : Z -> list wadd) (A A' : comp -> nat -> Z -> Z -> C) : Prop :=
  exists ws, Permutation ws (flat_map body (threads_1d (cuda_tpb_bpg_1d n tpb))) /\ A' = fold_left add_all ws A.
(** particles.py:903-911 (and the others): for m in range(Nm): one launch. *)
Fixpoint written_modes (launch : nat -> (comp -> nat -> Z -> Z -> C) -> (comp -> nat -> Z -> Z -> C) -> Prop)
  (ms : list nat) (A A' : comp -> nat -> Z -> Z -> C) : Prop :=
  match ms with [] => A' = A | m :: ms => exists A1, launch m A A1 /\ written_modes launch ms A1 A' end.
(** particles.py:856-980 Particles.deposit, GPU branch, as GDeposit_Model.gpu_species_deposit but with the
    kernels as written. *)
Definition written_gpu_species_deposit (v100 : bool) (g : grid) (Nm : nat) (ft : fieldtype) (sp sp' : gsp)
  (A A' : comp -> nat -> Z -> Z -> C) : Prop :=
  if Req_EM_T (gs_q sp) 0 then sp' = sp /\ A' = A else
  gs_q sp' = gs_q sp /\ gs_tracer sp' = gs_tracer sp /\ gs_ionizable sp' = gs_ionizable sp /\
  gs_shape sp' = gs_shape sp /\ gs_sorted sp' = true /\
  (if gs_sorted sp then gs_arr sp' = gs_arr sp else sort_particles (sgrid_of g) (gs_arr sp) (gs_arr sp')) /\
  exists junk,
  let launch m := written_launch (g_Nz g * (g_Nr g + 1)) (deposit_tpb v100 (gs_shape sp))
    (written_thread g (gpu_kernel Nm ft (gs_shape sp)) Nm m (gs_q sp) (gs_ionizable sp) junk (gs_arr sp')) in
  if (Nm =? 2)%nat then launch 0%nat A A' else written_modes launch (seq 0 Nm) A A'.
(** main.py:619-655: the loop over the species. *)
Inductive written_gpu_species_loop (v100 : bool) (g : grid) (Nm : nat) (ft : fieldtype) :
  list gsp -> list gsp -> (comp -> nat -> Z -> Z -> C) -> (comp -> nat -> Z -> Z -> C) -> Prop :=
| wgsl_nil A : written_gpu_species_loop v100 g Nm ft [] [] A A
| wgsl_cons sp sp' l l' A A1 A' :
    written_gpu_species_deposit v100 g Nm ft sp sp' A A1 -> written_gpu_species_loop v100 g Nm ft l l' A1 A' ->
    written_gpu_species_loop v100 g Nm ft (sp :: l) (sp' :: l') A A'.
(** main.py:588-655 on GPU, as GDeposit_Model.gpu_deposit. *)
Definition written_gpu_deposit (v100 : bool) (g : grid) (vol : nat -> Z -> R) (Nm : nat) (ft : fieldtype) (l l' : list gsp)
  (A A' : comp -> nat -> Z -> Z -> C) : Prop :=
  exists A1,
    written_gpu_species_loop v100 g Nm ft (filter (fun s => negb (gs_tracer s)) l) l'
      (fun k m => if deposited ft k then zero2 else A k m) A1 /\
    forall k m, (m < Nm)%nat -> A' k m =
      if deposited ft k then divide_by_volume (mode_grid g vol m) (A1 k m) else A1 k m.

(** threading_methods.py:96-146 ...: the additions of one particle to the arrays of its thread. *)
Definition written_particle (g : grid) (sh : shape) (ft : fieldtype) (Nm : nat) (q : R) (ionizable : bool) (p : ptcl)
  : list wadd :=
  flat_map (fun m => map (fun r =>
      ((r_comp r, m),
       ((iz_cell g sh p + r_iz r, ir_cell g sh p + r_ir r),
        Cmult (RtoC (Sz sh (z_cell g p) (r_sz r) *
                     Sr sh (r_cell g p) (r_sr r) (if r_flip r =? 1 then (-1) ^ m else - (-1) ^ m) (bn g sh m p))%R)
              (scal c (r_scal r) (q * eff_weight ionizable p)%R p m))))
    (cpu_kernel ft sh)) (seq 0 Nm).
(** threading_methods.py:93-146 ...: thread [t] on its own arrays. *)
Definition written_deposit_numba (g : grid) (ft : fieldtype) (Nm : nat) (nthreads : Z) (sp : species)
  (G : Z -> comp -> nat -> Z -> Z -> C) : Z -> comp -> nat -> Z -> Z -> C :=
  let idx := get_chunk_indices (Z.of_nat (length (sp_ptcl sp))) nthreads in
  fun t => fold_left add_all
    (flat_map (fun i => written_particle g (sp_shape sp) ft Nm (sp_q sp) (sp_ionizable sp)
                          (nth (Z.to_nat i) (sp_ptcl sp) no_ptcl))
              (chunk_of idx t)) (G t).
(** particles.py:856-1046, CPU branch. *)
Definition written_species_deposit (g : grid) (ft : fieldtype) (Nm : nat) (nthreads : Z)
  (G : Z -> comp -> nat -> Z -> Z -> C) (sp : species) : Z -> comp -> nat -> Z -> Z -> C :=
  if Req_EM_T (sp_q sp) 0 then G else written_deposit_numba g ft Nm nthreads sp G.
(** main.py:588-670, as Deposit_Model.deposit, species_list=None: the values of component k, mode m. *)
Definition written_deposit (g : grid) (vol : nat -> Z -> R) (ft : fieldtype) (Nm : nat) (nthreads : Z) (ptcl : list species)
  : comp -> nat -> Z -> Z -> C :=
  let G := fold_left (written_species_deposit g ft Nm nthreads) (filter (fun s => negb (sp_tracer s)) ptcl)
             (fun _ _ _ => zero2) in
  fun k m => divide_by_volume (mode_grid g vol m)
               (fold_left add_at (sum_reduce_2d_array nthreads (g_Nz g) (g_Nr g) (fun t => G t k m)) zero2).
End Light.
