(** C61: the laser that an antenna emits. *)
From Verif Require Import Base Decomp_Model Deposit_Model Deposit_Spec Boost_Model Antenna_Model Antenna_Spec Antenna_Proofs Antenna_Props
  Emit_Spec Emit_Proofs.
From Coq Require Import Reals Lra Lia.
Open Scope R_scope.

(** C61 in full: the wave radiated by the current of the antenna is the field of the laser profile at the antenna (in a boosted
    frame, its Lorentz transform). Proved for each point of the antenna after each velocity update, for an antenna at
    rest or moving, in the lab or in a boosted frame, whatever happened before: the radiated field is exactly the
    opposite. So the amplitude, shape and timing are right; the sign is missing (see below). *)
Theorem C61_opposite_partial : forall cl r_e e eps0 pd z0 va dr Nr Nm npr ep bo a0 c h E s t dt s' k p Kx Ky fx fy,
  0 < cl -> 0 < r_e -> 0 < e -> 0 < eps0 -> 0 < dr -> 0 < ep -> (1 <= Nm)%Z -> (1 <= npr)%Z ->
  pd = 1 \/ pd = -1 -> - cl < va < cl -> (bo = None \/ exists g, 1 <= g /\ bo = Some (boost_converter g)) ->
  antenna_init cl r_e e eps0 pd z0 va dr Nr Nm npr ep bo = Ok a0 ->
  do_ops cl E h {| s_ant := a0; s_comm := c |} = Ok s -> do_op cl E (OUpdateV t dt) s = Ok s' ->
  a_on (s_ant s') = true -> nth_error (a_ptcl (s_ant s)) k = Some p ->
  radiates eps0 cl (a_vz p) Kx fx -> Kx * area dr Nm npr p = current_x cl k (antenna_deposits cl (s_ant s')) ->
  radiates eps0 cl (a_vz p) Ky fy -> Ky * area dr Nm npr p = current_y cl k (antenna_deposits cl (s_ant s')) ->
  let x := a_bx p + a_vx p * (dt / 2) in let y := a_by p + a_vy p * (dt / 2) in let z := a_bz p + a_vz p * (dt / 2) in
  let '(zlab, tlab, D) := match bo with
    | None => (z, t, 1)
    | Some b => (gamma0 b * (z + cl * beta0 b * t), gamma0 b * (t + beta0 b * z / cl), gamma0 b * (1 - pd * beta0 b)) end in
  towards pd fx = - (D * fst (E x y zlab tlab)) /\ towards pd fy = - (D * snd (E x y zlab tlab)).
Proof. exact emitted. Qed.
Print Assumptions C61_opposite_partial.

(** A profile equal to 1 everywhere: the antenna radiates -1. *)
Theorem C61_sign_refuted : exists a0 s s' p Kx fx,
  antenna_init 1 1 1 1 1 5 0 1 2 1 1 1 None = Ok a0 /\
  do_ops 1 ex_E [OUpdateRank] {| s_ant := a0; s_comm := seen_by ex_box 0 |} = Ok s /\ do_op 1 ex_E (OUpdateV 0 1) s = Ok s' /\
  a_on (s_ant s') = true /\ nth_error (a_ptcl (s_ant s)) 1 = Some p /\
  radiates 1 1 (a_vz p) Kx fx /\ Kx * area 1 1 1 p = current_x 1 1 (antenna_deposits 1 (s_ant s')) /\
  (forall x y z t, fst (ex_E x y z t) = 1) /\ towards 1 fx = -1.
Proof.
  assert (V : valid_comm ex_box) by (repeat split; cbn; lia).
  assert (I : exists a, antenna_init 1 1 1 1 1 5 0 1 2 1 1 1 None = Ok a) by (eexists; reflexivity). destruct I as (a0 & I).
  pose proof (init_kept 1 1 1 1 1 5 0 1 2 1 1 1 None a0 ltac:(lra) ltac:(lia) I) as K0. cbv zeta in K0.
  assert (L : exists p0 p l, a_ptcl a0 = p0 :: p :: l) by (cbn in I; apply Ok_inj in I; subst a0; cbn; do 3 eexists; reflexivity).
  destruct L as (p0 & p & l & L).
  assert (Bz : a_bz p0 = 5) by (cbn in I; apply Ok_inj in I; subst a0; cbn in L; injection L as <- <- <-; reflexivity).
  set (s := {| s_ant := with_flag true a0; s_comm := seen_by ex_box 0 |}).
  assert (H : do_ops 1 ex_E [OUpdateRank] {| s_ant := a0; s_comm := seen_by ex_box 0 |} = Ok s).
  { cbn [do_ops do_op s_ant s_comm]. unfold update_current_rank. rewrite L. cbn [get_zmin_zmax seen_by ex_box c_rank bind]. cbn.
    rewrite Bz. destruct (Rge_dec _ _); [|lra]. destruct (Rlt_dec _ _); [|lra]. cbn. rewrite <- L. reflexivity. }
  assert (Vz : a_vz p = 0).
  { destruct K0 as (_ & _ & F). rewrite L in F. inversion F as [|? ? _ F2]. inversion F2 as [|? ? X _]. apply X. }
  exists a0, s, {| s_ant := update_v 1 ex_E 0 1 (with_flag true a0); s_comm := seen_by ex_box 0 |}, p, 2.
  exists {| E_front := -1; B_front := -1; E_back := -1; B_back := 1 |}.
  split; [exact I|]. split; [exact H|]. split; [reflexivity|]. split; [reflexivity|].
  split; [cbn [s s_ant with_flag a_ptcl]; rewrite L; reflexivity|].
  split; [unfold radiates; cbn; rewrite Vz; repeat split; lra|].
  split.
  - set (a1 := update_v 1 ex_E 0 1 (with_flag true a0)).
    assert (N1 : nth_error (a_ptcl a1) 1 = Some (update_vp 1 (a_mob a0) (a_boost a0) ex_E 0 1 p)).
    { unfold a1, update_v. cbn [a_ptcl with_flag a_mob a_boost]. apply map_nth_error. rewrite L. reflexivity. }
    destruct (pair_x 1 a1 1 _ ltac:(lra) eq_refl N1) as [P _]. cbn [s_ant]. rewrite P.
    assert (B0 : a_boost a0 = None) by apply K0. rewrite B0. cbn [update_vp ex_E a_w a_vx].
    pose proof (surface_current 1 1 1 1 1 0 1 1 1 1 None ltac:(lra) ltac:(lra) ltac:(lra) ltac:(lra) ltac:(lra) ltac:(lia) ltac:(lia) a0 1 Logic.I K0 p) as SC.
    rewrite SC; [|rewrite L; right; left; reflexivity]. field.
  - split; [reflexivity|]. unfold towards; cbn. destruct (Rlt_dec 0 1); lra.
Qed.
Print Assumptions C61_sign_refuted.
