(** C09: periodic wrap of the particle positions on a single rank. *)
From Verif Require Import Base Wrap_Model Wrap_Proofs.
From Coq Require Import Reals Lra SpecFloat.
Open Scope Z_scope.

(** Full property in exact arithmetic. [wrapped zmin zmax z z'] is spelled out here:
    z' is in [zmin,zmax), differs from z by whole box lengths, and equals z if z is inside.
    Termination: some number of loop tests is enough. *)
Theorem C09_periodic_wrap_partial zmin zmax zs : (zmin < zmax)%R ->
  exists n zs', (forall f, (n <= f)%nat -> shift_periodic_R f zmin zmax zs = Some zs') /\
    Forall2 (fun z z' => (zmin <= z' < zmax)%R /\ (exists k : Z, z' = z + IZR k * (zmax - zmin))%R /\
                         ((zmin <= z < zmax)%R -> z' = z)) zs zs'.
Proof. exact (C09_main zmin zmax zs). Qed.
Print Assumptions C09_periodic_wrap_partial.
Example C09_met : (0 < 1)%R /\ shift_periodic_R 3 0 1 [0.5]%R = Some [0.5]%R.
Proof.
  split; [lra|]. unfold shift_periodic_R. cbn [shift_periodic]. unfold wrap1, while_down, while_up, Rge_b, Rlt_b.
  destruct (Rle_dec 1 0.5); [lra|]. destruct (Rlt_dec 0.5 0); [lra|]. reflexivity.
Qed.

(** In double precision the property is false.  Box [0,1): a particle at -2^-100 is put at
    exactly 1, outside the half-open box. *)
Theorem C09_binary64_edge_refuted :
  exists zmin zmax z, SFltb zmin zmax = true /\
    shift_periodic_64 2 zmin zmax [z] = Some [zmax].
Proof. exact (ex_intro _ f0 (ex_intro _ f1 (ex_intro _ ftiny (conj eq_refl C09_edge)))). Qed.
Print Assumptions C09_binary64_edge_refuted.

(** And a particle far away (2^60 box lengths) makes the loop run forever. *)
Theorem C09_binary64_termination_refuted :
  exists zmin zmax z, SFltb zmin zmax = true /\ forall fuel, shift_periodic_64 fuel zmin zmax [z] = None.
Proof. exact (ex_intro _ f0 (ex_intro _ f1 (ex_intro _ fbig (conj eq_refl C09_hang)))). Qed.
Print Assumptions C09_binary64_termination_refuted.
