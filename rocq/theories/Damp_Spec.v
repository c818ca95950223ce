(** Vocabulary of C51. *)
From Verif Require Import Base Decomp_Model Mirror_Model.
From Coq Require Import Reals.
From Coquelicot Require Import Complex.
Open Scope R_scope.
(** A damping profile counted from the end of the box: [dead] cells at 0, 1 from cell [dead + width] on. *)
Definition damping_profile (dead width : Z) (phi : Z -> R) : Prop :=
  (forall i, 0 <= phi i <= 1) /\ (forall i, (i < dead)%Z -> phi i = 0) /\ (forall i, (dead + width <= i)%Z -> phi i = 1) /\
  (forall i j, (i <= j)%Z -> phi i <= phi j).
(** The fields E and B (all of the arrays but the densities and currents). *)
Definition EB (f : fname) (pml : bool) : Prop :=
  match f with Er | Et | Ez | Br | Bt | Bz => True | Other _ => False | _ => pml = true end.
(** Energy of E and B (up to the cell volumes [w iz ir] >= 0 and the constants [ke], [kb]) in a set of cells. *)
Definition cell_energy (ke kb : R) (g : @igrid C) (iz ir : Z) : R :=
  ke * (Cmod (ig_arr g Er iz ir) ^ 2 + Cmod (ig_arr g Et iz ir) ^ 2 + Cmod (ig_arr g Ez iz ir) ^ 2) +
  kb * (Cmod (ig_arr g Br iz ir) ^ 2 + Cmod (ig_arr g Bt iz ir) ^ 2 + Cmod (ig_arr g Bz iz ir) ^ 2).
Definition energy (ke kb : R) (w : Z -> Z -> R) (g : @igrid C) (cells : list (Z * Z)) : R :=
  fold_right (fun '(iz, ir) s => w iz ir * cell_energy ke kb g iz ir + s) 0 cells.
