(** C25: the push keeps inv_gamma consistent, speeds below c. C26: force-free motion is kept. *)
From Verif Require Import Base Push_Model Push_Spec Push_Proofs.
From Coq Require Import Reals Lra.
Open Scope R_scope.

(** Every pushed particle comes out consistent, whatever was stored before (any fields, charge,
    charge state, mass, time step); the others are untouched. A particle is pushed unless its
    species is neutral, or it is a neutral ion, or it has not reached the ballistic plane. *)
Theorem C25_pushed c e s dt l : push_p c e s dt = Ok l ->
  Forall2 (fun a a' =>
      (q s <> 0 /\ (ionizer s = true -> plevel a <> 0%Z) /\ (forall zp, z_plane s = Some zp -> zp < pz a) ->
         consistent (pm a')) /\
      (~ (q s <> 0 /\ (ionizer s = true -> plevel a <> 0%Z) /\ (forall zp, z_plane s = Some zp -> zp < pz a)) ->
         a' = a)) (ptcls s) l.
Proof. exact (push_p_pushed c e s dt l). Qed.
Print Assumptions C25_pushed.
(** Invariant over the steps, with the resulting bounds. *)
Theorem C25_consistent c e s dt l : 0 < c -> push_p c e s dt = Ok l ->
  Forall (fun a => consistent (pm a)) (ptcls s) -> Forall (fun a => consistent (pm a) /\ subluminal (pm a)) l.
Proof. exact (fun Hc => push_p_consistent c e Hc s dt l). Qed.
Print Assumptions C25_consistent.
(** No electric field: same |u|, same gamma. *)
Theorem C25_magnetic c e s dt l : 0 < c -> push_p c e s dt = Ok l ->
  Forall (fun a => consistent (pm a) /\ no_E (pf a)) (ptcls s) ->
  Forall2 (fun a a' => u2 (pm a') = u2 (pm a) /\ ig (pm a') = ig (pm a)) (ptcls s) l.
Proof. exact (fun Hc => push_p_no_E c e Hc s dt l). Qed.
Print Assumptions C25_magnetic.
(** The position push then moves by less than c dt. *)
Theorem C25_displacement c dt a : 0 < c -> dt <> 0 -> consistent (pm a) ->
  displacement2 a (push_x c dt 1 1 1 a) < (c * dt) ^ 2.
Proof. exact (fun Hc => push_x_distance c Hc dt a). Qed.
Print Assumptions C25_displacement.

Theorem C26_force_free c e s dt l : 0 < c -> push_p c e s dt = Ok l ->
  Forall (fun a => consistent (pm a) /\ force_free c (pm a) (pf a)) (ptcls s) -> l = ptcls s.
Proof. exact (fun Hc => push_p_force_free c e Hc s dt l). Qed.
Print Assumptions C26_force_free.

(** u = (0,0,3/4), gamma = 5/4; B along y, E along x balancing v x B; and a magnetic field only. *)
Definition ex_mom : mom := {| ux := 0; uy := 0; uz := 3 / 4; ig := 4 / 5 |}.
Definition ex_field : field6 := {| Ex := 2 * (4 / 5) * (3 / 4) * 7; Ey := 0; Ez := 0; Bx := 0; By := 7; Bz := 1 |}.
Definition ex_mp (f : field6) : mp := {| px := 0; py := 0; pz := 1; pm := ex_mom; pf := f; plevel := 0 |}.
Definition ex_sp (f : field6) : psp := {| q := -1; m := 1; z_plane := Some 0; ionizer := false; ptcls := [ex_mp f] |}.
Example C25_C26_met :
  (exists l, push_p 2 1 (ex_sp ex_field) (1 / 10) = Ok l) /\ consistent ex_mom /\ force_free 2 ex_mom ex_field /\
  Ex ex_field <> 0 /\ 0 < pz (ex_mp ex_field) /\ no_E {| Ex := 0; Ey := 0; Ez := 0; Bx := 1; By := 7; Bz := 1 |}.
Proof.
  split; [unfold push_p; cbn; destruct (Req_EM_T (-1) 0); eexists; reflexivity|].
  split; [|repeat split; unfold force_free, no_E, ex_mom, ex_field; cbn; lra].
  unfold consistent, u2, ex_mom. cbn [ux uy uz ig].
  replace (1 + (0 ^ 2 + 0 ^ 2 + (3 / 4) ^ 2)) with (Rsqr (5 / 4)) by (unfold Rsqr; field).
  rewrite sqrt_Rsqr by lra. field.
Qed.
