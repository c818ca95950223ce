(** Vocabulary of C80. *)
From Coq Require Import Reals.
From Verif Require Import Base Decomp_Model Deposit_Model Antenna_Model GAntenna_Model.
Open Scope R_scope.

(** The antenna held by the GPU is the antenna held by the CPU: same settings, and each particle has on the device
    (and for what is kept there, on the host) the values it has in the CPU simulation. *)
Definition same_particle (p : vptcl) (q : gvptcl) : Prop :=
  (d_bx q = a_bx p /\ d_by q = a_by p /\ d_bz q = a_bz p /\ d_ex q = a_ex p /\ d_ey q = a_ey p /\
   d_vx q = a_vx p /\ d_vy q = a_vy p /\ d_vz q = a_vz p /\ d_w q = a_w p) /\
  (h_bx q = a_bx p /\ h_by q = a_by p /\ h_bz q = a_bz p /\ h_vz q = a_vz p).
Definition same_antenna (a : antenna) (ga : gantenna) : Prop :=
  ga_mob ga = a_mob a /\ ga_boost ga = a_boost a /\ ga_on ga = a_on a /\ Forall2 same_particle (a_ptcl a) (ga_ptcl ga).
(** What can be said of the two runs of the same operations: the same exception, or the same antenna. *)
Definition same_outcome (r : res astate) (gr : res gastate) : Prop :=
  match r, gr with
  | Ok s, Ok gs => same_antenna (s_ant s) (gs_ant gs) /\ s_comm s = gs_comm gs
  | Err e, Err e' => e = e'
  | _, _ => False
  end.
(** An antenna that deposits is between the two z boundaries of the grid, and has less than 2^31 particles. *)
Definition antenna_ok (g : grid) (a : antenna) : Prop :=
  (Z.of_nat (length (a_ptcl a)) < 2 ^ 31)%Z /\
  (a_on a = true -> Forall (fun p => g_zmin g <= a_bz p <= g_zmin g + IZR (g_Nz g) * g_dz g) (a_ptcl a)).
