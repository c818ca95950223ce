(** What C108 says: a species that is written by one simulation and loaded as a bunch by another one. *)
From Coq Require Import ZArith Reals List String.
From Verif Require Import Base Decomp_Model Boost_Model Bunch_Model Pdiag_Model Pdiag_Spec Pfile_Model Pfile_Spec.
Import ListNotations.
Open Scope R_scope.

(** What a reader of the file returns: positions in meters, momenta in units of m c, weights; the mass is that of the file. [cl]: speed of light *)
Definition in_file (t : tree) (cl : R) (l : list beam) : Prop :=
  reads t ("position", Some "x")%string (map b_x l) /\ reads t ("position", Some "y")%string (map b_y l) /\ reads t ("position", Some "z")%string (map b_z l) /\
  reads t ("weighting", None)%string (map b_w l) /\
  exists m, reads t ("mass", None)%string [m] /\
  reads t ("momentum", Some "x")%string (map (fun a => m * cl * b_ux a) l) /\ reads t ("momentum", Some "y")%string (map (fun a => m * cl * b_uy a) l) /\
  reads t ("momentum", Some "z")%string (map (fun a => m * cl * b_uz a) l).
(** The macroparticle of the second simulation that stands for [p]: moved by [s] along z, the rest unchanged. *)
Definition copy_of (s : R) (p : pt) : macro :=
  {| m_p := {| px := x p; py := y p; pz := z p + s; pux := ux p; puy := uy p; puz := uz p; pinv_gamma := inv_gamma p |}; m_wt := w p |}.
(** The same macroparticle in the frame of the second simulation; boost_particle is the Lorentz transformation of C41. *)
Definition in_frame (cl : R) (boost : option converter) (a : macro) : macro :=
  {| m_p := match boost with None => m_p a | Some b => boost_particle cl b (m_p a) end; m_wt := m_wt a |}.
(** The relation between momentum and Lorentz factor (C25) *)
Definition consistent (p : pt) : Prop := inv_gamma p = 1 / sqrt (1 + ux p ^ 2 + uy p ^ 2 + uz p ^ 2).
Definition total (f : pt -> R) (l : list pt) : R := fold_right Rplus 0 (map f l).
(** The mean position of the particles *)
Definition centroid (l : list pt) : R := total (fun p => z p * w p) l / total w l.
