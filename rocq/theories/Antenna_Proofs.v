From Verif Require Import Base Decomp_Model Decomp_Spec Decomp_Proofs Shape_Model Deposit_Model Deposit_Spec Deposit_Proofs
  Boost_Model Bunch_Model Bunch_Spec Bunch_Proofs Antenna_Model.
From Coq Require Import Reals Lra Lia.
From Coquelicot Require Import Complex.
Open Scope R_scope.

(** ** Neutrality *)
Lemma rsum_app {A} (f : A -> R) l1 l2 : rsum f (l1 ++ l2) = rsum f l1 + rsum f l2.
Proof. unfold rsum. induction l1 as [|a l1 IH]; cbn [app fold_right]; [|rewrite IH]; ring. Qed.
Lemma rsum_map {A B} (g : A -> B) (f : B -> R) l : rsum f (map g l) = rsum (fun a => f (g a)) l.
Proof. unfold rsum. induction l as [|a l IH]; cbn [map fold_right]; [|rewrite IH]; reflexivity. Qed.
Lemma antenna_charge cl a : rsum charge (antenna_deposits cl a) = 0.
Proof.
  unfold antenna_deposits. destruct (a_on a); [|reflexivity]. unfold rsum at 1; cbn [fold_right].
  unfold charge, virtual_species; cbn [sp_q sp_ionizable sp_ptcl]. rewrite !rsum_map. cbn [weight sp_ionizable p_w p_wl]. ring.
Qed.
Lemma antenna_current cl a : rsum (axial_current cl) (antenna_deposits cl a) = 0.
Proof.
  unfold antenna_deposits. destruct (a_on a); [|reflexivity]. unfold rsum at 1; cbn [fold_right].
  unfold axial_current, virtual_species; cbn [sp_q sp_ionizable sp_ptcl]. rewrite !rsum_map. cbn [weight sp_ionizable p_w p_wl p_uz p_ig]. ring.
Qed.
Lemma antennas_zero f cl l : (forall a, rsum f (antenna_deposits cl a) = 0) -> rsum f (flat_map (antenna_deposits cl) l) = 0.
Proof. intros H. induction l as [|a l IH]; [reflexivity|]. cbn [flat_map]. rewrite rsum_app, H, IH. ring. Qed.

(** ** Ranks *)
Section Run.
Context (cl : R) (E : R -> R -> R -> R -> R * R).
Definition start (a : antenna) (c : comm) (r : Z) : astate := {| s_ant := a; s_comm := on_rank c r |}.
Definition with_flag (b : bool) (a : antenna) : antenna :=
  {| a_mob := a_mob a; a_boost := a_boost a; a_on := b; a_ptcl := a_ptcl a |}.
(** All the ranks hold the same antenna but for the flag, and the same box. *)
Definition flags_from (a : antenna) (c : comm) (f : Z -> bool) (s : Z -> astate) : Prop :=
  forall r, (0 <= r < c_size c)%Z -> s r = {| s_ant := with_flag (f r) a; s_comm := on_rank c r |}.

Definition is_update (o : aop) : bool := match o with OUpdateRank => true | _ => false end.
(** the common part *)
Definition op_ant (o : aop) (a : antenna) : antenna :=
  match o with OUpdateV t dt => update_v cl E t dt a | OPush dt x y z => push_antenna dt x y z a | _ => a end.
Definition op_comm (o : aop) (c : comm) : comm := match o with OShift d => shift_global_domain_positions c d | _ => c end.

Lemma op_ant_flag o b a : op_ant o (with_flag b a) = with_flag b (op_ant o a).
Proof. destruct o; reflexivity. Qed.
Lemma op_comm_rank o c r : op_comm o (on_rank c r) = on_rank (op_comm o c) r.
Proof. destruct o; reflexivity. Qed.
Lemma op_size o c : c_size (op_comm o c) = c_size c. Proof. destruct o; reflexivity. Qed.
Lemma op_ptcl o a : a_ptcl a <> [] -> a_ptcl (op_ant o a) <> [].
Proof. destruct o; cbn [op_ant]; try exact (fun H => H); destruct a as [? ? ? [|p l]]; cbn; intros H; try discriminate; contradiction. Qed.
Lemma op_valid o c : valid_comm c -> valid_comm (op_comm o c).
Proof. destruct o; exact (fun H => H). Qed.
Lemma op_dz o c : c_dz (op_comm o c) = c_dz c. Proof. destruct o; reflexivity. Qed.

Lemma step_plain o s : is_update o = false -> do_op cl E o s = Ok {| s_ant := op_ant o (s_ant s); s_comm := op_comm o (s_comm s) |}.
Proof. destruct o, s; cbn; intros H; try discriminate; reflexivity. Qed.

Definition z_of (a : antenna) : R := match a_ptcl a with [] => 0 | p :: _ => a_bz p end.
(** flag that rank [r] of [c] computes for [a] *)
Definition flag_of (c : comm) (a : antenna) (r : Z) : bool :=
  match get_zmin_zmax c true true false (Some r) with
  | Ok (zmin, zmax) => selected zmin zmax (z_of a) | Err _ => false end.
Lemma update_ok c a r b : valid_comm c -> 0 < c_dz c -> (0 <= r < c_size c)%Z -> a_ptcl a <> [] ->
  update_current_rank (on_rank c r) (with_flag b a) = Ok (with_flag (flag_of c a r) a).
Proof.
  intros V D Hr N. destruct (C01_main_R c true V D) as (edg & wh & He & _).
  unfold update_current_rank, flag_of. rewrite on_rank_edges. cbn [on_rank c_rank]. rewrite (He r Hr).
  destruct (edg r) as [zmin zmax]. destruct a as [mob bo on [|p l]]; [contradiction|]. cbn.
  unfold with_flag, selected, z_of; cbn. repeat f_equal. destruct (Rge_dec (a_bz p) zmin), (Rle_dec zmin (a_bz p)); try lra; reflexivity.
Qed.
Lemma flag_spec c a : valid_comm c -> 0 < c_dz c ->
  exists zmin zmax, get_zmin_zmax c false true false None = Ok (zmin, zmax) /\
  (zmin <= z_of a < zmax -> exactly_one (c_size c) (fun r => flag_of c a r = true)) /\
  (~ zmin <= z_of a < zmax -> no_rank (c_size c) (fun r => flag_of c a r = true)).
Proof.
  intros V D. destruct (C01_main_R c true V D) as (edg & wh & He & Hw & [Ti Tu] & _).
  exists (fst wh), (snd wh). split; [rewrite Hw; destruct wh; reflexivity|].
  assert (F : forall r, (0 <= r < c_size c)%Z -> flag_of c a r = true <-> fst (edg r) <= z_of a < snd (edg r)).
  { intros r Hr. unfold flag_of. rewrite (He r Hr). destruct (edg r). apply selected_iff. }
  split.
  - intros Hz. apply Ti in Hz. destruct Hz as (r & Hr & Hz). exists r. split; [assumption|]. split; [apply F; assumption|].
    intros s Hs S. apply (F s Hs) in S. apply (Tu s r (z_of a)); assumption.
  - intros Hz r Hr S. apply (F r Hr) in S. apply Hz, Ti. exists r. split; assumption.
Qed.

(** Common part after a list of operations *)
Fixpoint ops_ant (l : list aop) (a : antenna) : antenna := match l with [] => a | o :: l => ops_ant l (op_ant o a) end.
Fixpoint ops_comm (l : list aop) (c : comm) : comm := match l with [] => c | o :: l => ops_comm l (op_comm o c) end.
Fixpoint ops_flag (l : list aop) (a : antenna) (c : comm) (f : Z -> bool) : Z -> bool :=
  match l with [] => f | o :: l => ops_flag l (op_ant o a) (op_comm o c) (if is_update o then flag_of c a else f) end.
Lemma ops_run l : forall a c f, valid_comm c -> 0 < c_dz c -> a_ptcl a <> [] -> forall r, (0 <= r < c_size c)%Z ->
  do_ops cl E l {| s_ant := with_flag (f r) a; s_comm := on_rank c r |} =
  Ok {| s_ant := with_flag (ops_flag l a c f r) (ops_ant l a); s_comm := on_rank (ops_comm l c) r |}.
Proof.
  induction l as [|o l IH]; intros a c f V D N r Hr; [reflexivity|]. cbn [do_ops ops_ant ops_comm ops_flag].
  destruct (is_update o) eqn:U.
  - destruct o; try discriminate. cbn [do_op s_comm s_ant]. rewrite (update_ok c a r (f r) V D Hr N). cbn [bind op_ant op_comm].
    apply (IH a c (flag_of c a)); assumption.
  - rewrite (step_plain o _ U). cbn [bind s_ant s_comm]. rewrite op_ant_flag, op_comm_rank.
    apply IH; [apply op_valid; assumption|rewrite op_dz; assumption|apply op_ptcl; assumption|rewrite op_size; assumption].
Qed.
Lemma ops_flag_app l1 : forall l2 a c f, ops_flag (l1 ++ l2) a c f = ops_flag l2 (ops_ant l1 a) (ops_comm l1 c) (ops_flag l1 a c f).
Proof. induction l1 as [|o l1 IH]; intros; [reflexivity|]. cbn [app ops_flag ops_ant ops_comm]. apply IH. Qed.
Lemma ops_flag_none l : forall a c f, Forall (fun o => o <> OUpdateRank) l -> ops_flag l a c f = f.
Proof.
  induction l as [|o l IH]; intros a c f H; [reflexivity|]. inversion H; subst. cbn [ops_flag].
  destruct o; cbn [is_update]; try (apply IH; assumption). contradiction.
Qed.
Lemma ops_comm_facts l : forall c, valid_comm c -> valid_comm (ops_comm l c) /\ c_dz (ops_comm l c) = c_dz c /\ c_size (ops_comm l c) = c_size c.
Proof.
  induction l as [|o l IH]; intros c V; [split; [|split]; auto|]. cbn [ops_comm].
  destruct (IH _ (op_valid o c V)) as (A & B & C'). rewrite op_dz in B. rewrite op_size in C'. split; [|split]; assumption.
Qed.

(** ** Displacements *)
Lemma do_ops_app l1 : forall l2 s, do_ops cl E (l1 ++ l2) s = bind (do_ops cl E l1 s) (do_ops cl E l2).
Proof. induction l1 as [|o l1 IH]; intros l2 s; [reflexivity|]. cbn [app do_ops]. destruct (do_op cl E o s); [apply IH|reflexivity]. Qed.

Lemma do_ops_ptcl l : forall s s', do_ops cl E l s = Ok s' ->
  a_ptcl (s_ant s') = a_ptcl (ops_ant l (s_ant s)) /\ a_mob (s_ant s') = a_mob (ops_ant l (s_ant s)) /\
  a_boost (s_ant s') = a_boost (ops_ant l (s_ant s)).
Proof.
  assert (F : forall l a a', a_ptcl a = a_ptcl a' -> a_mob a = a_mob a' -> a_boost a = a_boost a' ->
    a_ptcl (ops_ant l a) = a_ptcl (ops_ant l a') /\ a_mob (ops_ant l a) = a_mob (ops_ant l a') /\ a_boost (ops_ant l a) = a_boost (ops_ant l a')).
  { clear l. induction l as [|o l IH]; intros a a' A B C'; [auto|]. cbn [ops_ant].
    apply IH; destruct o; cbn [op_ant]; auto; cbn [a_ptcl update_v push_antenna]; rewrite ?A, ?B, ?C'; reflexivity. }
  induction l as [|o l IH]; intros s s' H; [injection H as <-; auto|]. cbn [do_ops] in H. cbn [ops_ant].
  destruct (is_update o) eqn:U.
  - destruct o; try discriminate. cbn [do_op] in H. unfold update_current_rank in H.
    destruct (a_ptcl (s_ant s)) as [|p q] eqn:P; [discriminate|].
    destruct (get_zmin_zmax _ _ _ _ _) as [[zmin zmax]|]; [|discriminate]. cbn [bind] in H.
    destruct (IH _ _ H) as (A & B & C'). rewrite A, B, C'. cbn [op_ant]. apply F; cbn; auto.
  - rewrite (step_plain o s U) in H. cbn [bind] in H. exact (IH _ _ H).
Qed.
(** What one iteration does to a virtual particle. *)
Definition iterated (mob : R) (boost : option converter) (time dt : R) (p : vptcl) : vptcl :=
  let v := update_vp cl mob boost E (time + 0.5 * dt) dt p in
  {| a_bx := a_bx p; a_by := a_by p; a_bz := a_bz p + dt * a_vz p; a_ex := a_ex p + dt * a_vx v; a_ey := a_ey p + dt * a_vy v;
     a_vx := a_vx v; a_vy := a_vy v; a_vz := a_vz p; a_w := a_w p |}.
Lemma push_comp h k a b c' d e f p : push_vp k d e f (push_vp h a b c' p) =
  {| a_bx := a_bx p; a_by := a_by p; a_bz := a_bz p + (h * c' + k * f) * a_vz p; a_ex := a_ex p + (h * a + k * d) * a_vx p;
     a_ey := a_ey p + (h * b + k * e) * a_vy p; a_vx := a_vx p; a_vy := a_vy p; a_vz := a_vz p; a_w := a_w p |}.
Proof. unfold push_vp; cbn [a_bx a_by a_bz a_ex a_ey a_vx a_vy a_vz a_w]. f_equal; ring. Qed.
Lemma two_halves h dt p : h + h = dt -> push_vp h 1 1 1 (push_vp h 1 1 1 p) = push_vp dt 1 1 1 p.
Proof. intros <-. rewrite push_comp. unfold push_vp. f_equal; ring. Qed.
Lemma cross_id h dt p : h + h = dt -> push_vp h 1 1 (-1) (push_vp dt (-1) (-1) 1 (push_vp h 1 1 (-1) p)) = p.
Proof. intros <-. rewrite push_comp. destruct p as [q1 q2 q3 q4 q5 q6 q7 q8 q9]. unfold push_vp; cbn [a_bx a_by a_bz a_ex a_ey a_vx a_vy a_vz a_w]. f_equal; ring. Qed.
Lemma push_update mob bo t dt time p : t = time + 0.5 * dt -> push_vp dt 1 1 1 (update_vp cl mob bo E t dt p) = iterated mob bo time dt p.
Proof.
  intros ->. unfold iterated. assert (K : forall t, let q := update_vp cl mob bo E t dt p in a_bx q = a_bx p /\ a_by q = a_by p /\ a_bz q = a_bz p /\
    a_ex q = a_ex p /\ a_ey q = a_ey p /\ a_vz q = a_vz p /\ a_w q = a_w p).
  { intros t. unfold update_vp. destruct bo; destruct (E _ _ _ _); cbn; auto 10. }
  destruct (K (time + 0.5 * dt)) as (K1 & K2 & K3 & K4 & K5 & K6 & K7). unfold push_vp. rewrite K1, K2, K3, K4, K5, K6, K7. cbv zeta. rewrite !Rmult_1_r. reflexivity.
Qed.
Lemma iter_ptcl xchg first cross vg time dt d a :
  a_ptcl (ops_ant (iter_ops xchg first cross vg time dt d) a) = map (iterated (a_mob a) (a_boost a) time dt) (a_ptcl a) /\
  a_mob (ops_ant (iter_ops xchg first cross vg time dt d) a) = a_mob a /\
  a_boost (ops_ant (iter_ops xchg first cross vg time dt d) a) = a_boost a.
Proof.
  assert (H : 0.5 * dt + 0.5 * dt = dt) by lra. unfold iter_ops, cross_ops. remember (0.5 * dt) as h eqn:Eh.
  destruct xchg, first, cross; cbn [app ops_ant op_ant push_antenna update_v a_ptcl a_mob a_boost];
  rewrite !map_map; (split; [|split; reflexivity]); apply map_ext; intros p; rewrite ?(cross_id h dt) by exact H; rewrite (two_halves h dt) by exact H;
  apply push_update; rewrite Eh; reflexivity.
Qed.
Lemma iter_run xchg first cross vg time dt d s s' : do_ops cl E (iter_ops xchg first cross vg time dt d) s = Ok s' ->
  a_ptcl (s_ant s') = map (iterated (a_mob (s_ant s)) (a_boost (s_ant s)) time dt) (a_ptcl (s_ant s)) /\
  a_mob (s_ant s') = a_mob (s_ant s) /\ a_boost (s_ant s') = a_boost (s_ant s).
Proof.
  intros H. apply do_ops_ptcl in H. destruct H as (A & B & C'). rewrite A, B, C'. apply iter_ptcl.
Qed.
End Run.
From Verif Require Import Antenna_Spec.
Open Scope R_scope.
Lemma Ok_inj {A} (x y : A) : Ok x = Ok y -> x = y. Proof. intros H. injection H. auto. Qed.
Lemma range_pos n : (1 <= n)%Z -> range n <> [].
Proof. intros H E. assert (L := length_range n). rewrite E in L. cbn in L. lia. Qed.
Lemma init_plane cl r_e e eps0 pd z0 va dr Nr Nm npr ep bo a : (1 <= Nr)%Z -> (1 <= Nm)%Z -> (1 <= npr)%Z ->
  antenna_init cl r_e e eps0 pd z0 va dr Nr Nm npr ep bo = Ok a ->
  a_on a = false /\ (exists z v, plane_at a z /\ Forall (fun p => a_vz p = v) (a_ptcl a)) /\
  Forall (fun p => a_ex p = 0 /\ a_ey p = 0 /\ a_vx p = 0 /\ a_vy p = 0) (a_ptcl a).
Proof.
  intros H1 H2 H3 H. unfold antenna_init in H. destruct (match bo with Some _ => _ | None => _ end); [discriminate|].
  apply Ok_inj in H. subst a. split; [reflexivity|]. cbn [a_ptcl].
  set (N1 := (2 * Nm)%Z) in *. set (N2 := (Nr * npr)%Z) in *.
  assert (P1 : range N1 <> []) by (apply range_pos; unfold N1; lia). assert (P2 : range N2 <> []) by (apply range_pos; unfold N2; nia).
  split; [exists (match bo with Some b => hd 0 (static_length b [z0]) | None => z0 end), (match bo with Some b => hd 0 (velocity cl b [0]) | None => 0 + va end); split; [split|]|].
  - cbn [a_ptcl]. destruct (range N1); [contradiction|]. destruct (range N2); [contradiction|]. intros Q. apply (f_equal (@length _)) in Q. simpl in Q. discriminate.
  - apply Forall_forall. intros p Hp. cbn [a_ptcl] in Hp. apply in_flat_map in Hp. destruct Hp as (i & _ & Hp). apply in_map_iff in Hp. destruct Hp as (k & <- & _). reflexivity.
  - apply Forall_forall. intros p Hp. apply in_flat_map in Hp. destruct Hp as (i & _ & Hp). apply in_map_iff in Hp. destruct Hp as (k & <- & _). reflexivity.
  - apply Forall_forall. intros p Hp. apply in_flat_map in Hp. destruct Hp as (i & _ & Hp). apply in_map_iff in Hp. destruct Hp as (k & <- & _). cbn. auto.
Qed.
Lemma op_plane cl E o a z v : plane_at a z -> Forall (fun p => a_vz p = v) (a_ptcl a) ->
  exists z', plane_at (op_ant cl E o a) z' /\ Forall (fun p => a_vz p = v) (a_ptcl (op_ant cl E o a)).
Proof.
  intros [N P] V. assert (N' := op_ptcl cl E o a N). destruct o; cbn [op_ant] in *; try (exists z; split; [split|]; assumption).
  - exists z. split; [split; [assumption|]|]; cbn [update_v a_ptcl]; apply Forall_map.
    + revert P. apply Forall_impl. intros p H. unfold update_vp. destruct (a_boost a); destruct (E _ _ _ _); exact H.
    + revert V. apply Forall_impl. intros p H. unfold update_vp. destruct (a_boost a); destruct (E _ _ _ _); exact H.
  - exists (z + dt * zp * v). split; [split; [assumption|]|]; cbn [push_antenna a_ptcl]; apply Forall_map.
    + apply Forall_forall. intros p Hp. rewrite Forall_forall in P, V. cbn [push_vp a_bz]. rewrite (P p Hp), (V p Hp). reflexivity.
    + exact V.
Qed.
Lemma ops_plane cl E l : forall a z v, plane_at a z -> Forall (fun p => a_vz p = v) (a_ptcl a) ->
  exists z', plane_at (ops_ant cl E l a) z'.
Proof.
  induction l as [|o l IH]; intros a z v P V; [exists z; exact P|]. cbn [ops_ant].
  destruct (op_plane cl E o a z v P V) as (z' & P' & V'). exact (IH _ _ _ P' V').
Qed.
(** Position of the plane after a list of operations *)
Fixpoint ops_z (l : list aop) (z v : R) : R :=
  match l with [] => z | OPush dt _ _ zp :: l => ops_z l (z + dt * zp * v) v | _ :: l => ops_z l z v end.
Lemma ops_plane_z cl E l : forall a z v, plane_at a z -> Forall (fun p => a_vz p = v) (a_ptcl a) -> plane_at (ops_ant cl E l a) (ops_z l z v).
Proof.
  induction l as [|o l IH]; intros a z v P V; [exact P|].
  assert (N' := op_ptcl cl E o a (proj1 P)). destruct P as [N P].
  destruct o; cbn [ops_ant ops_z op_ant] in *; try (apply IH; [split|]; assumption); (apply IH; [split; [assumption|]|]); cbn [update_v push_antenna a_ptcl]; apply Forall_map.
  - revert P. apply Forall_impl. intros p H. unfold update_vp. destruct (a_boost a); destruct (E _ _ _ _); exact H.
  - revert V. apply Forall_impl. intros p H. unfold update_vp. destruct (a_boost a); destruct (E _ _ _ _); exact H.
  - apply Forall_forall. intros p Hp. rewrite Forall_forall in P, V. cbn [push_vp a_bz]. rewrite (P p Hp), (V p Hp). reflexivity.
  - exact V.
Qed.
Lemma plane_z a z : plane_at a z -> z_of a = z.
Proof. intros [N P]. unfold z_of. destruct (a_ptcl a); [contradiction|]. inversion P; assumption. Qed.

Lemma rank_main cl E r_e e eps0 pd z0 va dr Nr Nm npr ep bo a c h : (1 <= Nr)%Z -> (1 <= Nm)%Z -> (1 <= npr)%Z ->
  antenna_init cl r_e e eps0 pd z0 va dr Nr Nm npr ep bo = Ok a -> valid_comm c -> 0 < c_dz c ->
  exists z c' zmin zmax st,
  (forall r, (0 <= r < c_size c)%Z -> do_ops cl E h {| s_ant := a; s_comm := seen_by c r |} = Ok (st r) /\
     plane_at (s_ant (st r)) z /\ s_comm (st r) = seen_by c' r) /\
  get_zmin_zmax c' false true false None = Ok (zmin, zmax) /\
  forall h', Forall (fun o => o <> OUpdateRank) h' -> exists st', 
    (forall r, (0 <= r < c_size c)%Z -> do_ops cl E (h ++ OUpdateRank :: h') {| s_ant := a; s_comm := seen_by c r |} = Ok (st' r)) /\
    (zmin <= z < zmax -> exactly_one (c_size c) (fun r => a_on (s_ant (st' r)) = true)) /\
    (~ zmin <= z < zmax -> no_rank (c_size c) (fun r => a_on (s_ant (st' r)) = true)).
Proof.
  intros H1 H2 H3 I V D. destruct (init_plane _ _ _ _ _ _ _ _ _ _ _ _ _ _ H1 H2 H3 I) as (On & (z & v & P & Vz) & _).
  destruct (ops_plane cl E h a z v P Vz) as (z' & P').
  destruct (ops_comm_facts h c V) as (V' & D' & S').
  assert (N := proj1 P). assert (R := fun l r Hr => ops_run cl E l a c (fun _ => false) V D N r Hr).
  assert (A0 : with_flag false a = a) by (destruct a; cbn in On; subst; reflexivity). cbn beta in R. rewrite A0 in R. change on_rank with seen_by in R.
  destruct (flag_spec (ops_comm h c) (ops_ant cl E h a) V' ltac:(rewrite D'; exact D)) as (zmin & zmax & Gl & Y & No).
  rewrite (plane_z _ _ P') in Y, No. rewrite S' in Y, No.
  exists z', (ops_comm h c), zmin, zmax, (fun r => {| s_ant := with_flag (ops_flag cl E h a c (fun _ => false) r) (ops_ant cl E h a);
    s_comm := seen_by (ops_comm h c) r |}). split; [|split; [exact Gl|]].
  - intros r Hr. split; [apply R; assumption|]. split; [exact P'|reflexivity].
  - intros h' Hh'. exists (fun r => {| s_ant := with_flag (flag_of (ops_comm h c) (ops_ant cl E h a) r) (ops_ant cl E (h ++ OUpdateRank :: h') a);
      s_comm := seen_by (ops_comm (h ++ OUpdateRank :: h') c) r |}).
    split; [|split; intros Hz; [apply Y|apply No]; assumption].
    intros r Hr. rewrite (R _ r Hr). rewrite ops_flag_app. cbn [ops_flag is_update op_ant op_comm]. rewrite (ops_flag_none cl E h' _ _ _ Hh'). reflexivity.
Qed.
Lemma rank_none cl E r_e e eps0 pd z0 va dr Nr Nm npr ep bo a c h : (1 <= Nr)%Z -> (1 <= Nm)%Z -> (1 <= npr)%Z ->
  antenna_init cl r_e e eps0 pd z0 va dr Nr Nm npr ep bo = Ok a -> valid_comm c -> 0 < c_dz c -> Forall (fun o => o <> OUpdateRank) h ->
  forall r, (0 <= r < c_size c)%Z -> exists s, do_ops cl E h {| s_ant := a; s_comm := seen_by c r |} = Ok s /\ a_on (s_ant s) = false.
Proof.
  intros H1 H2 H3 I V D Hh r Hr. destruct (init_plane _ _ _ _ _ _ _ _ _ _ _ _ _ _ H1 H2 H3 I) as (On & (z & v & P & Vz) & _).
  assert (R := ops_run cl E h a c (fun _ => false) V D (proj1 P) r Hr).
  assert (A0 : with_flag false a = a) by (destruct a; cbn in On; subst; reflexivity). cbn beta in R. rewrite A0 in R. change on_rank with seen_by in R.
  eexists. split; [exact R|]. cbn. rewrite (ops_flag_none cl E h _ _ _ Hh). reflexivity.
Qed.

(** Displacement after N iterations *)
Lemma loop_snoc period cross vg dt d n : forall first it time, loop_ops period cross vg dt d (S n) first it time =
  loop_ops period cross vg dt d n first it time ++
  iter_ops (((it + Z.of_nat n) mod period =? 0)%Z || match n with O => first | _ => false end) (match n with O => first | _ => false end)
    cross vg (time + INR n * dt) dt (d (it + Z.of_nat n)%Z).
Proof.
  induction n as [|n IH]; intros first it time.
  - cbn [loop_ops app INR]. change (Z.of_nat 0) with 0%Z. rewrite Z.add_0_r, app_nil_r, Rmult_0_l, Rplus_0_r. reflexivity.
  - change (loop_ops period cross vg dt d (S (S n)) first it time) with
      (iter_ops ((it mod period =? 0)%Z || first) first cross vg time dt (d it) ++ loop_ops period cross vg dt d (S n) false (it + 1) (time + dt)).
    rewrite IH. rewrite app_assoc. f_equal. replace (it + 1 + Z.of_nat n)%Z with (it + Z.of_nat (S n))%Z by lia.
    replace (time + dt + INR n * dt) with (time + INR (S n) * dt) by (rewrite S_INR; ring). destruct n; reflexivity.
Qed.
Lemma displacement cl E period cross vg dt d first it time st s0 :
  (forall n, do_ops cl E (loop_ops period cross vg dt d n first it time) s0 = Ok (st n)) ->
  forall (k : nat) p0, nth_error (a_ptcl (s_ant s0)) k = Some p0 ->
  exists p : nat -> vptcl, p 0%nat = p0 /\ (forall n, nth_error (a_ptcl (s_ant (st n))) k = Some (p n)) /\
  forall n, p (S n) = iterated cl E (a_mob (s_ant s0)) (a_boost (s_ant s0)) (time + INR n * dt) dt (p n).
Proof.
  intros H k p0 H0.
  exists (fix p n := match n with O => p0 | S n => iterated cl E (a_mob (s_ant s0)) (a_boost (s_ant s0)) (time + INR n * dt) dt (p n) end).
  split; [reflexivity|]. split; [|reflexivity].
  assert (B : forall n, a_mob (s_ant (st n)) = a_mob (s_ant s0) /\ a_boost (s_ant (st n)) = a_boost (s_ant s0) /\ nth_error (a_ptcl (s_ant (st n))) k =
    Some ((fix p n := match n with O => p0 | S n => iterated cl E (a_mob (s_ant s0)) (a_boost (s_ant s0)) (time + INR n * dt) dt (p n) end) n)); [|intros n; apply B].
  induction n as [|n (M & Bo & IH)].
  - specialize (H 0%nat). cbn in H. injection H as <-. auto.
  - assert (Q := H (S n)). rewrite loop_snoc, do_ops_app, (H n) in Q. cbn [bind] in Q. apply iter_run in Q. destruct Q as (Q1 & Q2 & Q3).
    rewrite Q1, Q2, Q3, M, Bo. split; [reflexivity|]. split; [reflexivity|]. erewrite map_nth_error; [reflexivity|exact IH].
Qed.

Lemma displacement_main : forall cl E r_e e eps0 pd z0 va dr Nr Nm npr ep bo a c r period cross vg dt d first it time,
  (1 <= Nr)%Z -> (1 <= Nm)%Z -> (1 <= npr)%Z -> valid_comm c -> 0 < c_dz c -> (0 <= r < c_size c)%Z ->
  antenna_init cl r_e e eps0 pd z0 va dr Nr Nm npr ep bo = Ok a ->
  exists st, (forall N, do_ops cl E (loop_ops period cross vg dt d N first it time) {| s_ant := a; s_comm := seen_by c r |} = Ok (st N)) /\
  forall k p0, nth_error (a_ptcl a) k = Some p0 -> exists p : nat -> vptcl, (forall N, nth_error (a_ptcl (s_ant (st N))) k = Some (p N)) /\
  forall N, a_ex (p N) = sum_upto N (fun n => dt * a_vx (p (S n))) /\ a_ey (p N) = sum_upto N (fun n => dt * a_vy (p (S n))) /\
    a_bx (p N) = a_bx p0 /\ a_by (p N) = a_by p0 /\ a_w (p N) = a_w p0 /\ a_vz (p N) = a_vz p0 /\
    a_bz (p N) = a_bz p0 + INR N * dt * a_vz p0 /\
    (bo = None -> (a_vx (p (S N)), a_vy (p (S N))) =
       let '(Ex, Ey) := E (a_bx p0 + a_vx (p N) * (dt / 2)) (a_by p0 + a_vy (p N) * (dt / 2))
                          (a_bz p0 + (INR N + 1 / 2) * dt * a_vz p0) (time + (INR N + 1 / 2) * dt) in (a_mob a * Ex, a_mob a * Ey)).
Proof.
  intros cl E r_e e eps0 pd z0 va dr Nr Nm npr ep bo a c r period cross vg dt d first it time H1 H2 H3 V D Hr I.
  destruct (init_plane _ _ _ _ _ _ _ _ _ _ _ _ _ _ H1 H2 H3 I) as (On & (z & v & P & Vz) & Z0).
  assert (Bo : a_boost a = bo).
  { unfold antenna_init in I. destruct (match bo with Some _ => _ | None => _ end); [discriminate|]. apply Ok_inj in I. subst a. reflexivity. }
  assert (A0 : with_flag false a = a) by (destruct a; cbn in On; subst; reflexivity).
  assert (R := fun l => ops_run cl E l a c (fun _ => false) V D (proj1 P) r Hr). cbn beta in R. rewrite A0 in R. change on_rank with seen_by in R.
  set (st := fun N => {| s_ant := with_flag (ops_flag cl E (loop_ops period cross vg dt d N first it time) a c (fun _ => false) r)
    (ops_ant cl E (loop_ops period cross vg dt d N first it time) a); s_comm := seen_by (ops_comm (loop_ops period cross vg dt d N first it time) c) r |}).
  exists st. split; [intros N; apply R|]. assert (St : forall N, do_ops cl E (loop_ops period cross vg dt d N first it time) {| s_ant := a; s_comm := seen_by c r |} = Ok (st N)) by (intros N; apply R).
  intros k p0 K. destruct (displacement cl E period cross vg dt d first it time st _ St k p0 K) as (p & P0 & Pn & Ps).
  exists p. split; [exact Pn|].
  assert (In0 : In p0 (a_ptcl a)) by (eapply nth_error_In; exact K). rewrite Forall_forall in Z0. destruct (Z0 p0 In0) as (X0 & Y0 & _).
  cbn [s_ant] in Ps. rewrite Bo in Ps.
  assert (B : forall N, a_ex (p N) = sum_upto N (fun n => dt * a_vx (p (S n))) /\ a_ey (p N) = sum_upto N (fun n => dt * a_vy (p (S n))) /\
    a_bx (p N) = a_bx p0 /\ a_by (p N) = a_by p0 /\ a_w (p N) = a_w p0 /\ a_vz (p N) = a_vz p0 /\ a_bz (p N) = a_bz p0 + INR N * dt * a_vz p0).
  { induction N as [|N (Q1 & Q2 & Q3 & Q4 & Q5 & Q6 & Q7)].
    - rewrite P0. cbn [sum_upto INR]. repeat split; try assumption. ring.
    - assert (S1 := Ps N). cbn [sum_upto]. rewrite S_INR.
      assert (J : a_ex (p (S N)) = a_ex (p N) + dt * a_vx (p (S N)) /\ a_ey (p (S N)) = a_ey (p N) + dt * a_vy (p (S N)) /\ a_bx (p (S N)) = a_bx (p N) /\
        a_by (p (S N)) = a_by (p N) /\ a_w (p (S N)) = a_w (p N) /\ a_vz (p (S N)) = a_vz (p N) /\ a_bz (p (S N)) = a_bz (p N) + dt * a_vz (p N)).
      { rewrite S1. unfold iterated. cbn. auto 10. }
      destruct J as (J1 & J2 & J3 & J4 & J5 & J6 & J7). rewrite J1, J2, J3, J4, J5, J6, J7, Q1, Q2, Q3, Q4, Q5, Q6, Q7. repeat split. ring. }
  intros N. destruct (B N) as (Q1 & Q2 & Q3 & Q4 & Q5 & Q6 & Q7). do 7 (split; [assumption|]).
  intros ->. rewrite (Ps N). unfold iterated, update_vp. cbn [a_vx a_vy]. rewrite Q3, Q4, Q6, Q7.
  replace (a_vx (p N) * 0.5 * dt) with (a_vx (p N) * (dt / 2)) by lra. replace (a_vy (p N) * 0.5 * dt) with (a_vy (p N) * (dt / 2)) by lra.
  replace (a_bz p0 + INR N * dt * a_vz p0 + a_vz p0 * 0.5 * dt) with (a_bz p0 + (INR N + 1 / 2) * dt * a_vz p0) by lra.
  replace (time + INR N * dt + 0.5 * dt) with (time + (INR N + 1 / 2) * dt) by lra.
  destruct (E _ _ _ _). reflexivity.
Qed.
Lemma ex_init z0 : exists a, antenna_init 1 1 1 1 1 z0 1 1 1 1 1 1 None = Ok a /\ a_on a = false /\
  (exists p q, a_ptcl a = [p; q] /\ a_bz p = z0 /\ a_bz q = z0 /\ a_vz p = 1 /\ a_vz q = 1).
Proof.
  eexists. split; [reflexivity|]. split; [reflexivity|].
  eexists. eexists. split; [reflexivity|]. cbn. repeat split; ring.
Qed.
