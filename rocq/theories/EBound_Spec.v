(** Vocabulary of C92. *)
From Coq Require Import Reals.
From Coquelicot Require Import Complex.
From Verif Require Import Base Decomp_Model Deposit_Spec Hankel_Model Hankel_Spec Guard_Model Mirror_Model Damp_Model EBound_Model.
Import ListNotations.
Open Scope Z_scope.

(** The run is set up consistently: every neighbour is a rank, the exchanged rows exist, the transforms of a mode use the same
    matrices on every rank, the loops go once through each cell. *)
Record consistent (u : setup) : Prop := {
  cs_left : forall r l, 0 <= r < u_size u -> u_left u r = Some l -> 0 <= l < u_size u;
  cs_right : forall r s, 0 <= r < u_size u -> u_right u r = Some s -> 0 <= s < u_size u;
  cs_guard : 0 <= u_nguard u;
  cs_Nz : forall r, 0 <= r < u_size u -> 0 < u_Nz u r /\ 2 * u_nguard u <= u_Nz u r;
  cs_tNz : forall r m, t_Nz (u_trans u r m) = u_Nz u r;
  cs_tNr : forall r m, t_Nr (u_trans u r m) = u_Nr u;
  cs_M : forall r s m, t_invM0 (u_trans u r m) = t_invM0 (u_trans u s m) /\ t_invMp (u_trans u r m) = t_invMp (u_trans u s m) /\
                       t_invMm (u_trans u r m) = t_invMm (u_trans u s m);
  cs_cells : forall r, 0 <= r < u_size u -> all_cells (u_Nz u r) (u_Nr u) (u_cells u r) }.
(** The grids of the ranks at the start: Nm modes each, without PML arrays. *)
Definition grids_ok (u : setup) (Nm : nat) (I : Z -> list (@igrid C)) : Prop :=
  forall r, 0 <= r < u_size u -> length (I r) = Nm /\ Forall (fun g => ig_pml g = false) (I r).
(** The arrays of E and B, and those of J. *)
Definition is_J (f : fname) : bool := match f with Other 0 | Other 1 | Other 2 => true | _ => false end.
(** The fields in space that a spectrum stands for: full inverse transforms. *)
Definition in_space (u : setup) (vs : list vfield) (S : Z -> spectrum) (I : Z -> list (@igrid C)) : Z -> list (@igrid C) :=
  fun r => fold_left (fun l v => spect2interp (u_trans u r) (u_cells u r) v (S r) l) vs (I r).
(** The two grids agree on the arrays [which], in the cells of the grid. *)
Definition agree (Nz Nr : Z) (which : fname -> bool) (l l' : list (@igrid C)) : Prop :=
  length l = length l' /\ forall m f iz ir, 0 <= m < Z.of_nat (length l) -> which f = true -> 0 <= iz < Nz -> 0 <= ir < Nr ->
  arr_of l m f iz ir = arr_of l' m f iz ir.
(** M and then invM leave every row of Nr values unchanged (what an exact matrix inverse does). *)
Definition undone (Nr : Z) (M invM : Z -> Z -> R) : Prop :=
  forall i k, 0 <= i < Nr -> 0 <= k < Nr -> rsum (fun j => (M i j * invM j k)%R) (range Nr) = delta_R i k.
(** The run is the one of the communicators that the constructor builds from the arguments in [c], with boundary [b]. *)
Record built (b : zbound) (c : comm) (u : setup) : Prop := {
  bt_size : u_size u = c_size c;
  bt_left : u_left u = fun r => left_proc b r (c_size c);
  bt_right : u_right u = fun r => right_proc b r (c_size c);
  bt_guard : u_nguard u = c_nguard c;
  bt_comm : u_comm u = with_rank b c }.
