(** Proofs of C81. *)
From Verif Require Import Base Boost_Model Push_Model Push_Spec Push_Proofs Plane_Model Plane_Spec.
From Coq Require Import Reals Lra Psatz.
Open Scope R_scope.

Section C.
Context (c e : R).

Lemma plane_iff b zl z t : 0 < c -> boost_ok b ->
  (get_current_plane_position c (ballistic_before_plane zl b) t < z <-> zl < lab_z c b z t).
Proof.
  intros Hc Hb. unfold get_current_plane_position, ballistic_before_plane, lab_z. destruct b as [b|]; cbn; [|lra].
  destruct Hb as (G & B & _). set (g := gamma0 b) in *. set (be := beta0 b) in *.
  split; intros H.
  - apply (Rmult_lt_compat_l g) in H; [|exact G]. replace (g * (1 / g * zl - be * c * t)) with (zl - g * (be * c * t)) in H by (field; lra). lra.
  - apply (Rmult_lt_reg_l g); [exact G|]. replace (g * (1 / g * zl - be * c * t)) with (zl - g * (be * c * t)) by (field; lra). lra.
Qed.

(** One iteration, particle by particle. *)
Definition gathered (f : field6) (a : mp) : mp := {| px := px a; py := py a; pz := pz a; pm := pm a; pf := f; plevel := plevel a |}.
Definition kicked (q m dt : R) (inj : option plane) (t : R) (a : mp) : mp :=
  match inj with
  | None => push_p_numba c q m dt a
  | Some p => push_p_after_plane_numba c (get_current_plane_position c p t) q m dt a
  end.
Definition moved (dt : R) (a : mp) : mp :=
  {| px := px a + vel_x c a * dt; py := py a + vel_y c a * dt; pz := pz a + vel_z c a * dt; pm := pm a; pf := pf a; plevel := plevel a |}.
Lemma mp_eq a b : px a = px b -> py a = py b -> pz a = pz b -> pm a = pm b -> pf a = pf b -> plevel a = plevel b -> a = b.
Proof. destruct a, b. cbn. intros. subst. reflexivity. Qed.
Lemma iter_map cross F time dt s : b_q s <> 0 ->
  bunch_iter c e cross F time dt s = Ok {| b_q := b_q s; b_m := b_m s; b_injector := b_injector s;
    b_ptcl := map (fun a => moved dt (kicked (b_q s) (b_m s) dt (b_injector s) (time + 0.5 * dt) (gathered (F (b_ptcl s) a) a))) (b_ptcl s) |}.
Proof.
  intros Hq. unfold bunch_iter, bunch_push_p, push_p. cbn [bunch_gather b_q b_m b_injector b_ptcl q m z_plane ionizer ptcls].
  destruct (Req_EM_T (b_q s) 0) as [E|_]; [contradiction|].
  assert (X : forall l, map (push_x c (0.5 * dt) 1 1 1) (map (push_x c (0.5 * dt) 1 1 1) l) = map (moved dt) l).
  { intros l. rewrite map_map. apply map_ext. intros a. apply mp_eq; cbn; unfold vel_x, vel_y, vel_z; try reflexivity; lra. }
  assert (Y : forall l, map (push_x c (0.5 * dt) 1 1 1) (map (push_x c (0.5 * dt) 1 1 (-1)) (map (push_x c dt (-1) (-1) 1) (map (push_x c (0.5 * dt) 1 1 (-1)) (map (push_x c (0.5 * dt) 1 1 1) l)))) = map (moved dt) l).
  { intros l. rewrite !map_map. apply map_ext. intros a. apply mp_eq; cbn; unfold vel_x, vel_y, vel_z; try reflexivity; lra. }
  destruct (b_injector s) as [p|]; cbn [bind]; destruct cross; unfold bunch_cross, bunch_push_x; cbn [b_q b_m b_injector b_ptcl]; f_equal; f_equal;
    rewrite ?Y, ?X; rewrite !map_map; reflexivity.
Qed.

(** [N] iterations: the history of the particle number [k]. *)
Lemma run_ok cross F dt : forall N time s, b_q s <> 0 -> exists l,
  bunch_run c e cross F N time dt s = Ok ({| b_q := b_q s; b_m := b_m s; b_injector := b_injector s; b_ptcl := l |}, time + INR N * dt) /\
  length l = length (b_ptcl s).
Proof.
  induction N as [|N IH]; intros time s Hq.
  - exists (b_ptcl s). cbn. split; [|reflexivity]. destruct s; cbn. f_equal. f_equal. lra.
  - destruct (IH time s Hq) as (l & R & L). cbn [bunch_run]. rewrite R. cbn [bind]. rewrite iter_map by exact Hq. cbn [bind b_q b_m b_injector b_ptcl].
    eexists. split; [|rewrite map_length; exact L]. f_equal. f_equal. rewrite S_INR. lra.
Qed.
Lemma history cross F dt time s k a0 : b_q s <> 0 -> nth_error (b_ptcl s) k = Some a0 -> exists (a : nat -> mp) (f : nat -> field6),
  a 0%nat = a0 /\
  (forall N, exists s', bunch_run c e cross F N time dt s = Ok (s', time + INR N * dt) /\ nth_error (b_ptcl s') k = Some (a N) /\ f N = F N (b_ptcl s') (a N)) /\
  (forall N, a (S N) = moved dt (kicked (b_q s) (b_m s) dt (b_injector s) (time + INR N * dt + 0.5 * dt) (gathered (f N) (a N)))).
Proof.
  intros Hq H0.
  assert (Hk : (k < length (b_ptcl s))%nat) by (apply nth_error_Some; congruence).
  set (lst := fun N => match bunch_run c e cross F N time dt s with Ok (s', _) => b_ptcl s' | Err _ => [] end).
  exists (fun N => nth k (lst N) a0), (fun N => F N (lst N) (nth k (lst N) a0)).
  assert (L : forall N, exists s', bunch_run c e cross F N time dt s = Ok (s', time + INR N * dt) /\ b_ptcl s' = lst N /\ length (lst N) = length (b_ptcl s) /\
    b_q s' = b_q s /\ b_m s' = b_m s /\ b_injector s' = b_injector s).
  { intros N. destruct (run_ok cross F dt N time s Hq) as (l & R & Ln). eexists. split; [exact R|]. unfold lst. rewrite R. cbn. tauto. }
  split; [|split].
  - unfold lst. cbn. rewrite (nth_error_nth _ _ _ H0). reflexivity.
  - intros N. destruct (L N) as (s' & R & E & Ln & _). exists s'. split; [exact R|]. rewrite E. split; [|reflexivity].
    apply nth_error_nth'. lia.
  - intros N. destruct (L N) as (s' & R & E & Ln & E1 & E2 & E3). destruct (L (S N)) as (s'' & R' & E' & _).
    cbn [bunch_run] in R'. rewrite R in R'. cbn [bind] in R'. rewrite iter_map in R' by congruence. cbn [bind] in R'.
    injection R' as Es _. rewrite <- E', <- Es. cbn [b_ptcl]. rewrite E, E1, E2, E3.
    set (g := fun a => moved dt (kicked (b_q s) (b_m s) dt (b_injector s) (time + INR N * dt + 0.5 * dt) (gathered (F N (lst N) a) a))).
    rewrite (nth_indep (map g (lst N)) a0 (g a0)) by (rewrite map_length; lia). apply (map_nth g).
Qed.
End C.
