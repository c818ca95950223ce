(** Reading the arrays of a SpectralGrid at one mode. *)
From Verif Require Import Base Psatd_Model Pml_Model Cuda_Model GSpect_Model.
From Coq Require Import Reals.
From Coquelicot Require Import Complex.

(** The values of the regular and of the PML arrays at (iz, ir). *)
Definition mode_at (M : @mem (sname * Z * Z) C) (iz ir : Z) : mode :=
  {| Ep := M (AEp, iz, ir); Em := M (AEm, iz, ir); Ez := M (AEz, iz, ir); Bp := M (ABp, iz, ir); Bm := M (ABm, iz, ir); Bz := M (ABz, iz, ir);
     Jp := M (AJp, iz, ir); Jm := M (AJm, iz, ir); Jz := M (AJz, iz, ir); rho_prev := M (ARho_prev, iz, ir); rho_next := M (ARho_next, iz, ir);
     rho_next_z := M (ARho_next_z, iz, ir); rho_next_xy := M (ARho_next_xy, iz, ir) |}.
Definition pml_at (M : @mem (sname * Z * Z) C) (iz ir : Z) : pml :=
  {| Ep_pml := M (AEp_pml, iz, ir); Em_pml := M (AEm_pml, iz, ir); Bp_pml := M (ABp_pml, iz, ir); Bm_pml := M (ABm_pml, iz, ir) |}.
(** All executions of a list of launches on those arrays. *)
Definition outcome (ks : list (list (prog (sname * Z * Z) C))) (M M' : @mem (sname * Z * Z) C) : Prop := stream (cloc_dec sname_dec) ks M M'.
