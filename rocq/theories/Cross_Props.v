(** C34: where the particles and the grid are at the four depositions of a step with cross-deposition. *)
From Verif Require Import Base Deposit_Model Cross_Model Cross_Spec.
From Coq Require Import Reals Lra.
Open Scope R_scope.

(** rho_next_xy: transverse positions of the end of the step, axial ones (and grid) of the beginning; rho_next_z: the
    opposite; rho_next: all at the end of the step. *)
Theorem C34_states c v dt s : at_xy c v true dt s = displaced c dt 0 0 s /\
  at_z c v true dt s = displaced c 0 dt (v * dt) s /\ at_next c v true dt s = displaced c dt dt (v * dt) s.
Proof.
  destruct s as [l g]. unfold at_next, at_z, at_xy, at_half, move, displaced, push_x, shift_grid, push_ptcl.
  cbn [pic_l pic_g g_dz g_zmin g_Nz g_dr g_Nr g_vol g_beta].
  repeat split; f_equal; try (f_equal; lra); rewrite !map_map; apply map_ext; intros sp; cbn [sp_q sp_tracer sp_ionizable sp_shape sp_ptcl];
    f_equal; rewrite !map_map; apply map_ext; intros p; cbn [p_x p_y p_z p_ux p_uy p_uz p_ig p_w p_wl]; f_equal; lra.
Qed.
Print Assumptions C34_states.
(** Frozen positions: only the grid moves. *)
Theorem C34_states_frozen c v dt s : at_xy c v false dt s = {| pic_l := pic_l s; pic_g := pic_g (displaced c 0 0 0 s) |} /\
  at_z c v false dt s = {| pic_l := pic_l s; pic_g := pic_g (displaced c 0 0 (v * dt) s) |} /\
  at_next c v false dt s = {| pic_l := pic_l s; pic_g := pic_g (displaced c 0 0 (v * dt) s) |}.
Proof.
  destruct s as [l g]. unfold at_next, at_z, at_xy, at_half, move, displaced, shift_grid. cbn [pic_l pic_g g_dz g_zmin g_Nz g_dr g_Nr g_vol g_beta].
  repeat split; f_equal; f_equal; lra.
Qed.
Print Assumptions C34_states_frozen.
