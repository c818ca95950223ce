(** Proofs of C80. *)
From Coq Require Import Reals Lra.
From Flocq Require Import Core.Core.
From Coquelicot Require Import Complex.
From Verif Require Import Base Inject_Proofs Decomp_Model Decomp_Proofs Chunk_Model Chunk_Proofs Shape_Model Sort_Model Sort_Spec Sort_Proofs
  Deposit_Model Deposit_Spec Deposit_Proofs GDeposit_Model GDeposit_Spec GDeposit_Proofs Boost_Model Antenna_Model GAntenna_Model GAntenna_Spec.
Open Scope Z_scope.

(** ** Histories *)
Lemma same_to_device a ga : same_antenna a ga <-> ga = to_device a.
Proof.
  split.
  - destruct a as [mo bo on l], ga as [mo' bo' on' l']. intros (A & B & C & D). cbn in *. subst. unfold to_device. cbn. f_equal.
    induction D as [|p q l l' (H1 & H2) HF IH]; [reflexivity|]. cbn. f_equal; [|exact IH].
    destruct p, q. cbn in *. intuition. subst. reflexivity.
  - intros ->. unfold to_device. repeat split; cbn. induction (a_ptcl a); cbn; constructor; [unfold same_particle; cbn; tauto|assumption].
Qed.
Lemma history cl E h : forall a cm,
  same_outcome (do_ops cl E h {| s_ant := a; s_comm := cm |}) (do_gops cl E h {| gs_ant := to_device a; gs_comm := cm |}).
Proof.
  induction h as [|o h IH]; intros a cm.
  - cbn. split; [apply same_to_device; reflexivity|reflexivity].
  - cbn [do_ops do_gops].
    assert (S1 : match do_op cl E o {| s_ant := a; s_comm := cm |} with
            | Ok s => do_gop cl E o {| gs_ant := to_device a; gs_comm := cm |} = Ok {| gs_ant := to_device (s_ant s); gs_comm := s_comm s |}
            | Err e => do_gop cl E o {| gs_ant := to_device a; gs_comm := cm |} = Err e end).
    { destruct o; cbn [do_op do_gop s_ant s_comm gs_ant gs_comm].
      - unfold update_current_rank, gupdate_current_rank. destruct a as [mo bo on [|p l]]; [reflexivity|].
        cbn [a_ptcl to_device ga_ptcl map]. destruct (get_zmin_zmax cm true true false (Some (c_rank cm))) as [[z1 z2]|e]; reflexivity.
      - f_equal. f_equal. unfold gupdate_v, update_v, to_device. cbn. f_equal. rewrite !map_map. apply map_ext. intros p.
        unfold gupdate_vp, update_vp. cbn. destruct (a_boost a); cbn; (destruct (E _ _ _ _) as [Ex Ey]; reflexivity).
      - f_equal. f_equal. unfold gpush_antenna, push_antenna, to_device. cbn. f_equal. rewrite !map_map. reflexivity.
      - reflexivity.
      - reflexivity. }
    destruct (do_op cl E o _) as [s|e]; rewrite S1; cbn; [|reflexivity]. destruct s. apply IH.
Qed.

(** ** One particle *)
Section P.
Context (c : R) (Hc : c <> 0%R) (g : grid) (k : Deposit_Model.comp) (m : nat) (Hg : Deposit_Spec.grid_ok g) (Hb : beta_ok g) (q : R).
Definition vp (p : vptcl) : Deposit_Model.ptcl :=
  {| p_x := a_bx p + q * a_ex p; p_y := a_by p + q * a_ey p; p_z := a_bz p;
     p_ux := q * a_vx p / c; p_uy := q * a_vy p / c; p_uz := a_vz p / c; p_ig := 1; p_w := a_w p; p_wl := 0 |}%R.
Definition up (p : vptcl) : uptcl :=
  {| u_x := a_bx p + q * a_ex p; u_y := a_by p + q * a_ey p; u_z := a_bz p; u_w := a_w p;
     u_vx := q * a_vx p; u_vy := q * a_vy p; u_vz := a_vz p |}%R.
Lemma args_eq a : kernel_args q (to_device a) = map up (a_ptcl a).
Proof. unfold kernel_args, to_device. cbn. rewrite map_map. reflexivity. Qed.
Lemma exptheta_eq p n : u_exptheta (up p) n = exptheta (vp p) n.
Proof. induction n as [|n IH]; [reflexivity|]. cbn [u_exptheta exptheta]. rewrite IH. reflexivity. Qed.
Lemma scal_eq p : u_scal q k m (up p) = scal c k (q * eff_weight false (vp p))%R (vp p) m.
Proof.
  rewrite <- exptheta_scal. unfold u_scal. rewrite exptheta_eq.
  change (u_cos (up p)) with (cos_j (vp p)). change (u_sin (up p)) with (sin_j (vp p)).
  set (cs := cos_j (vp p)). set (sn := sin_j (vp p)).
  destruct k; unfold scal0; fold cs sn; cbn [eff_weight p_w vp u_w up u_vx u_vy u_vz p_ig p_ux p_uy p_uz]; f_equal; f_equal; field; exact Hc.
Qed.
Lemma value_eq p a b : u_value g q k m (up p) a b =
  Cmult (RtoC (Sz Linear (z_cell g (vp p)) b * Sr Linear (r_cell g (vp p)) a (flip k m) (bn g Linear m (vp p)))%R)
        (scal c k (q * eff_weight false (vp p))%R (vp p) m).
Proof.
  unfold u_value. rewrite scal_eq.
  change (u_rcell g (up p)) with (r_cell g (vp p)). change (u_zcell g (up p)) with (z_cell g (vp p)).
  rewrite (bn_eq g (S m) m Hb (Nat.lt_succ_diag_r m) Linear (vp p)). change (u_flip k m) with (flip k m). cbn [Sz Sr]. f_equal. f_equal. ring.
Qed.
Lemma iz_eq p b : in_grid g (vp p) -> 0 <= b < 2 -> u_iz g (up p) b = fz (g_Nz g) (iz_cell g Linear (vp p) + b).
Proof.
  intros Hp Hbb. rewrite <- (gpu_iz_fold g Hg Linear (vp p) b Hp Hbb). pose proof (zu_bounds g Hg (vp p) Hp) as Hz.
  unfold u_iz, gpu_iz, zup. change (u_zcell g (up p)) with (z_cell g (vp p)). rewrite Z.gtb_ltb, Z.geb_leb.
  destruct (Z.ltb_spec (Zceil (z_cell g (vp p))) 0); [lia|].
  destruct (Z.leb_spec (g_Nz g) (Zceil (z_cell g (vp p)))), (Z.ltb_spec (g_Nz g - 1) (Zceil (z_cell g (vp p)))); try lia; reflexivity.
Qed.
Lemma ir_eq p a : 0 <= a < 2 -> u_ir g (up p) a = fr (g_Nr g) (ir_cell g Linear (vp p) + a).
Proof. intros Ha. rewrite <- (gpu_ir_fold g Hg Linear (vp p) a Ha). reflexivity. Qed.

Lemma split_parts (w v : C) : Cplus (Cmult w (RtoC (fst v))) (Cmult w (0, snd v)%R) = Cmult w v.
Proof. destruct w, v. apply injective_projections; cbn; ring. Qed.
Lemma real_part (w v : C) : snd v = 0%R -> Cmult w (RtoC (fst v)) = Cmult w v.
Proof. destruct v as [x y]. cbn. intros ->. reflexivity. Qed.

Lemma thread_pair_u phi l i : 0 <= i < Z.of_nat (length l) -> in_grid g (vp (nth (Z.to_nat i) l {| a_bx := 0; a_by := 0; a_bz := 0; a_ex := 0; a_ey := 0; a_vx := 0; a_vy := 0; a_vz := 0; a_w := 0 |}%R)) ->
  pair_with phi (unsorted_thread g q k m (map up l) i) =
  pair_with (fun gz gr => phi (fz (g_Nz g) gz) (fr (g_Nr g) gr))
    (contributions c g Linear k m q false (vp (nth (Z.to_nat i) l {| a_bx := 0; a_by := 0; a_bz := 0; a_ex := 0; a_ey := 0; a_vx := 0; a_vy := 0; a_vz := 0; a_w := 0 |}%R))).
Proof.
  intros Hi Hp. set (d := {| a_bx := 0; a_by := 0; a_bz := 0; a_ex := 0; a_ey := 0; a_vx := 0; a_vy := 0; a_vz := 0; a_w := 0 |}%R) in *.
  unfold unsorted_thread. rewrite map_length. destruct (Z.ltb_spec i (Z.of_nat (length l))); [|lia]. cbv zeta.
  assert (En : nth (Z.to_nat i) (map up l) no_uptcl = up (nth (Z.to_nat i) l d)).
  { rewrite (nth_indep _ no_uptcl (up d)) by (rewrite map_length; lia). apply map_nth. }
  rewrite En. set (p := nth (Z.to_nat i) l d) in *.
  transitivity (lsum (fun ab => Cmult (phi (u_iz g (up p) (snd ab)) (u_ir g (up p) (fst ab))) (u_value g q k m (up p) (fst ab) (snd ab)))
    [(0, 0); (1, 0); (0, 1); (1, 1)]).
  - set (v := fun a b => u_value g q k m (up p) a b).
    assert (Hr : m = O -> forall a b, snd (v a b) = 0%R).
    { intros Em a b. unfold v. rewrite value_eq. unfold Cmult. cbn [fst snd RtoC]. rewrite Em. cbn [scal RtoC snd]. lra. }
    unfold pair_with. rewrite lsum_app. destruct m as [|m'].
    + rewrite lsum_nil, lsum_map, Cplus_0_r. apply lsum_ext. intros [a b] _. cbn [fst snd].
      apply (real_part _ (v a b)). apply Hr. reflexivity.
    + rewrite !lsum_map, <- lsum_plus. apply lsum_ext. intros [a b] _. cbn [fst snd]. apply (split_parts _ (v a b)).
  - unfold contributions, pair_with. rewrite lsum_flat_map. 
    change (range (npts Linear)) with [0; 1]. cbn [lsum fold_right map fst snd].
    rewrite !value_eq. rewrite !iz_eq by (assumption || lia). rewrite !ir_eq by lia. ring.
Qed.

Lemma antenna_launch_cell Nm ft a A A' iz ir : (m < Nm)%nat -> deposited ft k = true -> Z.of_nat (length (a_ptcl a)) < 2 ^ 31 ->
  Forall (fun p => in_grid g (vp p)) (a_ptcl a) ->
  gpu_antenna_launch g Nm ft q (to_device a) A A' ->
  A' k m iz ir = Cplus (A k m iz ir) (species_sum c g k m iz ir (virtual_species c q a)).
Proof.
  intros Hm Hk HN Hin H. specialize (H k m Hm). rewrite Hk in H. rewrite args_eq in H.
  assert (EL : length (ga_ptcl (to_device a)) = length (a_ptcl a)) by (unfold to_device; cbn; apply map_length). rewrite EL in H. clear EL.
  destruct H as (ws & Hws & ->). rewrite add_value. f_equal.
  rewrite (lsum_ext _ (fun w => Cmult (delta iz ir (fst (fst w)) (snd (fst w))) (snd w))).
  2:{ intros w _. unfold delta. rewrite (Z.eqb_sym iz), (Z.eqb_sym ir).
      destruct ((fst (fst w) =? iz) && (snd (fst w) =? ir)); ring. }
  rewrite (lsum_perm _ _ _ Hws), lsum_flat_map. set (l := a_ptcl a) in *. set (n := Z.of_nat (length l)) in *.
  assert (Hn0 : 0 <= n) by (unfold n; lia).
  assert (HnB : n < 2 ^ 52) by (change (2 ^ 52) with (2 ^ 31 * 2 ^ 21); lia).
  destruct (bpg_covers n 256 Hn0 ltac:(lia) HnB) as [B1 B2].
  destruct (cuda_tpb_bpg_1d n 256) as [b t] eqn:Et.
  assert (t = 256) as -> by (unfold cuda_tpb_bpg_1d in Et; congruence). cbn [fst] in *.
  rewrite threads_range by lia.
  replace (b * 256) with (n + (b * 256 - n)) by lia.
  rewrite range_add, lsum_app by lia. rewrite lsum_map.
  rewrite (lsum_zero (fun i => lsum _ (unsorted_thread g q k m (map up l) (n + i)))).
  2:{ intros i Hi. apply in_range in Hi. unfold unsorted_thread. rewrite map_length. fold n.
      destruct (Z.ltb_spec (n + i) n); [lia|reflexivity]. }
  rewrite Cplus_0_r. unfold species_sum. cbn [virtual_species sp_ptcl]. fold l. rewrite lsum_map.
  set (d := {| a_bx := 0; a_by := 0; a_bz := 0; a_ex := 0; a_ey := 0; a_vx := 0; a_vy := 0; a_vz := 0; a_w := 0 |}%R).
  transitivity (lsum (fun i => pair_with (fun gz gr => delta iz ir (fz (g_Nz g) gz) (fr (g_Nr g) gr))
    (contributions c g Linear k m q false (vp (nth (Z.to_nat i) l d)))) (range n)).
  - apply lsum_ext. intros i Hi. apply in_range in Hi. apply (thread_pair_u (delta iz ir) l i Hi).
    rewrite Forall_forall in Hin. apply Hin. apply nth_in_list. exact Hi.
  - rewrite <- (lsum_map (fun p => pair_with (fun gz gr => delta iz ir (fz (g_Nz g) gz) (fr (g_Nr g) gr))
       (contributions c g Linear k m q false (vp p))) (fun i => nth (Z.to_nat i) l d)). unfold n. rewrite map_nth_range. reflexivity.
Qed.
End P.

(** ** All the antennas *)
Lemma antenna_cell c g Nm ft a A A' k m iz ir : c <> 0%R -> Deposit_Spec.grid_ok g -> beta_ok g -> antenna_ok g a ->
  (m < Nm)%nat -> deposited ft k = true -> gpu_antenna_deposit g Nm ft (to_device a) A A' ->
  A' k m iz ir = Cplus (A k m iz ir) (lsum (species_sum c g k m iz ir) (antenna_deposits c a)).
Proof.
  intros Hc Hg Hb (HN & Hin) Hm Hk H. unfold gpu_antenna_deposit in H. unfold antenna_deposits.
  change (ga_on (to_device a)) with (a_on a) in H. destruct (a_on a); [|subst; rewrite lsum_nil; ring].
  destruct H as (A1 & H1 & H2). specialize (Hin eq_refl).
  assert (HI : forall q, Forall (fun p => in_grid g (vp c q p)) (a_ptcl a)).
  { intros q. revert Hin. apply Forall_impl. intros p Hp. exact Hp. }
  rewrite (antenna_launch_cell c Hc g k m Hg Hb 1 Nm ft a A1 A' iz ir Hm Hk HN (HI 1%R) H2).
  rewrite (antenna_launch_cell c Hc g k m Hg Hb (-1) Nm ft a A A1 iz ir Hm Hk HN (HI (-1)%R) H1).
  rewrite !lsum_cons, lsum_nil. ring.
Qed.
Lemma antennas_cell c g Nm ft k m iz ir : c <> 0%R -> Deposit_Spec.grid_ok g -> beta_ok g -> (m < Nm)%nat -> deposited ft k = true ->
  forall l A A', Forall (antenna_ok g) l -> gpu_antenna_loop g Nm ft (map to_device l) A A' ->
  A' k m iz ir = Cplus (A k m iz ir) (lsum (species_sum c g k m iz ir) (flat_map (antenna_deposits c) l)).
Proof.
  intros Hc Hg Hb Hm Hk. induction l as [|a l IH]; intros A A' Hok H; inversion H; subst.
  - cbn [flat_map]. rewrite lsum_nil. ring.
  - inversion Hok; subst. cbn [flat_map]. rewrite lsum_app.
    rewrite (IH A1 A') by assumption. rewrite (antenna_cell c g Nm ft a A A1 k m iz ir) by assumption. ring.
Qed.
Lemma antennas_untouched g Nm ft k m : (m < Nm)%nat -> deposited ft k = false ->
  forall l A A', gpu_antenna_loop g Nm ft l A A' -> A' k m = A k m.
Proof.
  intros Hm Hk l A A' H. induction H as [A|a l A A1 A' H1 H2 IH]; [reflexivity|]. rewrite IH.
  unfold gpu_antenna_deposit in H1. destruct (ga_on a); [|subst; reflexivity]. destruct H1 as (B & H1 & H3).
  specialize (H1 k m Hm). specialize (H3 k m Hm). rewrite Hk in *. congruence.
Qed.
Lemma antenna_loop_mode g vol m Nm ft l A A' : gpu_antenna_loop g Nm ft l A A' -> gpu_antenna_loop (mode_grid g vol m) Nm ft l A A'.
Proof. induction 1; [constructor|]. econstructor; [exact H|assumption]. Qed.

Lemma antenna_species c a : Forall (fun s => sp_q s <> 0%R) (antenna_deposits c a).
Proof. unfold antenna_deposits. destruct (a_on a); repeat constructor; cbn; lra. Qed.
Lemma filter_all {A} (f : A -> bool) l : Forall (fun a => f a = true) l -> filter f l = l.
Proof. induction 1 as [|a l H HF IH]; [reflexivity|]. cbn. rewrite H, IH. reflexivity. Qed.

Lemma gpu_cpu_antennas v100 c g vol Nm ft l l' ants gants A A' nthreads :
  c <> 0%R -> (forall m, (m < Nm)%nat -> Deposit_Spec.grid_ok (mode_grid g vol m)) -> beta_ok g ->
  Forall (gsp_ok g) l -> Forall (flag_ok g) l -> Forall (antenna_ok g) ants -> Forall2 same_antenna ants gants ->
  1 <= nthreads <= 2 ^ 32 ->
  gpu_deposit_with_antennas c v100 g vol Nm ft l l' gants A A' ->
  forall k m iz ir, (m < Nm)%nat -> 0 <= iz < g_Nz g -> 0 <= ir < g_Nr g ->
  A' k m iz ir = (if deposited ft k then deposit_with_antennas c (mode_grid g vol m) k m nthreads (map cpu_of l) ants iz ir
                  else A k m iz ir).
Proof.
  intros Hc Hg Hb Hl Hf Hants Hsame Hth (A1 & A2 & Hloop & Hal & HA) k m iz ir Hm Hiz Hir.
  assert (Eg : gants = map to_device ants).
  { clear -Hsame. induction Hsame as [|a ga l l' H HF IH]; [reflexivity|]. cbn. f_equal; [apply same_to_device; exact H|exact IH]. }
  subst gants. rewrite (HA k m Hm). destruct (deposited ft k) eqn:Hk.
  2:{ rewrite (antennas_untouched _ _ _ _ _ Hm Hk _ _ _ Hal), (loop_untouched _ _ _ _ _ _ _ _ _ Hloop k m Hk Hm), Hk. reflexivity. }
  assert (Hok : Forall (gsp_ok g) (filter (fun s => negb (gs_tracer s)) l) /\ Forall (flag_ok g) (filter (fun s => negb (gs_tracer s)) l)).
  { rewrite !Forall_forall in *. split; intros s Hs; apply filter_In in Hs; [apply Hl|apply Hf]; tauto. }
  destruct Hok as [Hok1 Hok2].
  assert (Ed : filter (fun s => negb (sp_tracer s)) (map cpu_of l) = map cpu_of (filter (fun s => negb (gs_tracer s)) l)).
  { clear. induction l as [|s l IH]; [reflexivity|]. cbn [map filter].
    change (sp_tracer (cpu_of s)) with (gs_tracer s). destruct (negb (gs_tracer s)); cbn [map]; rewrite IH; reflexivity. }
  unfold deposit_with_antennas. rewrite Ed. set (sl := map cpu_of (filter (fun s => negb (gs_tracer s)) l)).
  rewrite (deposit_cell c (mode_grid g vol m) k m nthreads [] (Some (sl ++ flat_map (antenna_deposits c) ants)) iz ir (Hg m Hm)).
  - cbn [depositing]. unfold divide_by_volume. f_equal. rewrite filter_app, lsum_app.
    rewrite (filter_all _ (flat_map (antenna_deposits c) ants)).
    2:{ apply Forall_flat_map. apply Forall_forall. intros a _. pose proof (antenna_species c a) as Q. revert Q. apply Forall_impl.
        intros s Hs. destruct (Req_EM_T (sp_q s) 0); [contradiction|reflexivity]. }
    rewrite (antennas_cell c (mode_grid g vol m) Nm ft k m iz ir Hc (Hg m Hm) Hb Hm Hk ants A1 A2); [|exact Hants|apply antenna_loop_mode; exact Hal].
    f_equal.
    pose proof (gpu_loop_cell v100 c (mode_grid g vol m)
      Nm ft _ _ _ _ k m iz ir (Hg m Hm) Hb Hok1 Hok2 (loop_mode_grid _ _ _ _ _ _ _ _ _ _ _ Hloop) Hk Hm) as Q.
    cbv beta in Q. rewrite Hk in Q. rewrite Q. unfold zero2. rewrite Cplus_0_l. reflexivity.
  - split; [lia|]. cbn [depositing]. apply Forall_app. split.
    + apply Forall_forall. intros s Hs. apply in_map_iff in Hs as [s' [<- Hs']]. rewrite Forall_forall in Hok1.
      destruct (Hok1 s' Hs') as (_ & B & _). cbn [cpu_of sp_ptcl]. rewrite map_length, length_range.
      change (2 ^ 53) with (2 ^ 32 + (2 ^ 53 - 2 ^ 32)). lia.
    + apply Forall_flat_map. revert Hants. apply Forall_impl. intros a (B & _). unfold antenna_deposits.
      destruct (a_on a); repeat constructor; cbn [virtual_species sp_ptcl]; rewrite map_length;
      change (2 ^ 53) with (2 ^ 32 + (2 ^ 53 - 2 ^ 32)); lia.
  - cbn [depositing]. unfold all_in_grid. apply Forall_app. split.
    + apply Forall_forall. intros s Hs. apply in_map_iff in Hs as [s' [<- Hs']]. rewrite Forall_forall in Hok1.
      destruct (Hok1 s' Hs') as (_ & _ & _ & B). exact B.
    + apply Forall_flat_map. revert Hants. apply Forall_impl. intros a (_ & B). unfold antenna_deposits.
      destruct (a_on a); [|constructor]. specialize (B eq_refl).
      repeat constructor; cbn [virtual_species sp_ptcl]; apply Forall_map; exact B.
  - exact Hiz.
  - exact Hir.
Qed.

(** ** An example *)
Definition ex_ant : antenna := {| a_mob := 1; a_boost := None; a_on := true;
  a_ptcl := [{| a_bx := 1 / 2; a_by := 0; a_bz := 3; a_ex := 0; a_ey := 0; a_vx := 1; a_vy := 0; a_vz := 0; a_w := 1 |}] |}%R.
Definition ex_launch (g : grid) (ft : fieldtype) (q : R) (a : gantenna) (A : Deposit_Model.comp -> nat -> Z -> Z -> C) : Deposit_Model.comp -> nat -> Z -> Z -> C :=
  fun k m => if deposited ft k then fold_left add_at (flat_map (unsorted_thread g q k m (kernel_args q a))
     (threads_1d (cuda_tpb_bpg_1d (Z.of_nat (length (ga_ptcl a))) 256))) (A k m) else A k m.
Lemma ex_launch_ok g Nm ft q a A : gpu_antenna_launch g Nm ft q a A (ex_launch g ft q a A).
Proof. intros k m Hm. unfold ex_launch. destruct (deposited ft k); [|reflexivity]. eexists. split; reflexivity. Qed.

Lemma antenna_met : exists A',
  (forall m, (m < 2)%nat -> Deposit_Spec.grid_ok (mode_grid (wg 0) (fun _ _ => 1%R) m)) /\ beta_ok (wg 0) /\
  antenna_ok (wg 0) ex_ant /\ same_antenna ex_ant (to_device ex_ant) /\
  gpu_deposit_with_antennas 1 false (wg 0) (fun _ _ => 1%R) 2 FJ [] [] [to_device ex_ant] (fun _ _ => zero2) A' /\
  A' Jr 0%nat 2 0 <> RtoC 0.
Proof.
  set (g := wg 0). set (vol := fun (_ : nat) (_ : Z) => 1%R).
  assert (Hg : forall m, (m < 2)%nat -> Deposit_Spec.grid_ok (mode_grid g vol m)).
  { intros m _. unfold Deposit_Spec.grid_ok, g, wg; cbn. repeat split; try lra; try lia. intros. unfold vol. lra. }
  assert (Hb : beta_ok g) by (intros sh m x _; reflexivity).
  assert (Hok : antenna_ok g ex_ant).
  { split; [cbn; lia|]. intros _. cbn [ex_ant a_ptcl]. constructor; [|constructor]. cbn. lra. }
  set (A0 := fun (k : Deposit_Model.comp) (m : nat) => if deposited FJ k then zero2 else zero2).
  set (A2 := ex_launch g FJ 1 (to_device ex_ant) (ex_launch g FJ (-1) (to_device ex_ant) A0)).
  assert (L : gpu_antenna_loop g 2 FJ (map to_device [ex_ant]) A0 A2).
  { econstructor; [|constructor]. unfold gpu_antenna_deposit. change (ga_on (to_device ex_ant)) with true. cbv iota.
    eexists. split; apply ex_launch_ok. }
  exists (fun k m => if deposited FJ k then divide_by_volume (mode_grid g vol m) (A2 k m) else A2 k m).
  split; [exact Hg|]. split; [exact Hb|]. split; [exact Hok|]. split; [apply same_to_device; reflexivity|]. split.
  { exists A0, A2. split; [constructor|]. split; [exact L|]. reflexivity. }
  cbn [deposited]. unfold divide_by_volume.
  rewrite (antennas_cell 1 (mode_grid g vol 0) 2 FJ Jr 0 2 0 ltac:(lra) (Hg 0%nat ltac:(lia)) Hb ltac:(lia) eq_refl [ex_ant] A0 A2 (Forall_cons _ Hok (Forall_nil _)) (antenna_loop_mode _ _ _ _ _ _ _ _ L)).
  cbn [flat_map app]. unfold antenna_deposits. change (a_on ex_ant) with true. cbv iota. cbn [app].
  rewrite !lsum_cons, !lsum_nil. unfold species_sum. cbn [virtual_species sp_ptcl map ex_ant a_ptcl]. rewrite !lsum_cons, !lsum_nil.
  unfold contrib, pair_with, contributions. cbn [virtual_species sp_shape sp_q sp_ionizable].
  set (p1 := {| p_x := _; p_y := _; p_z := _; p_ux := (-1 * _ / 1)%R; p_uy := _; p_uz := _; p_ig := _; p_w := _; p_wl := _ |}).
  set (p2 := {| p_x := _; p_y := _; p_z := _; p_ux := (1 * _ / 1)%R; p_uy := _; p_uz := _; p_ig := _; p_w := _; p_wl := _ |}).
  assert (R1 : rj p1 = (1/2)%R).
  { unfold rj. cbn. replace (_ + _)%R with (Rsqr (1/2)) by (unfold Rsqr; lra). apply sqrt_Rsqr. lra. }
  assert (R2 : rj p2 = (1/2)%R).
  { unfold rj. cbn. replace (_ + _)%R with (Rsqr (1/2)) by (unfold Rsqr; lra). apply sqrt_Rsqr. lra. }
  assert (C1 : cos_j p1 = 1%R) by (unfold cos_j; rewrite R1; destruct (Req_EM_T (1/2) 0); [reflexivity|cbn; lra]).
  assert (C2 : cos_j p2 = 1%R) by (unfold cos_j; rewrite R2; destruct (Req_EM_T (1/2) 0); [reflexivity|cbn; lra]).
  assert (S1 : sin_j p1 = 0%R) by (unfold sin_j; rewrite R1; destruct (Req_EM_T (1/2) 0); [reflexivity|cbn; lra]).
  assert (S2 : sin_j p2 = 0%R) by (unfold sin_j; rewrite R2; destruct (Req_EM_T (1/2) 0); [reflexivity|cbn; lra]).
  assert (Rc1 : r_cell (mode_grid g vol 0) p1 = 0%R) by (unfold r_cell; rewrite R1; cbn; lra).
  assert (Rc2 : r_cell (mode_grid g vol 0) p2 = 0%R) by (unfold r_cell; rewrite R2; cbn; lra).
  assert (Zc1 : z_cell (mode_grid g vol 0) p1 = (5 / 2)%R) by (unfold z_cell; cbn; lra).
  assert (Zc2 : z_cell (mode_grid g vol 0) p2 = (5 / 2)%R) by (unfold z_cell; cbn; lra).
  assert (Zz : Zceil (5 / 2) = 3) by (apply Zceil_val; lra). assert (Zr : Zceil 0 = 0) by (apply Zceil_val; lra).
  cbn [npts]. change (range 2) with [0; 1]. cbn [flat_map map app]. rewrite !lsum_cons, !lsum_nil. cbn [fst snd iz_cell ir_cell Sz Sr].
  rewrite Rc1, Rc2, Zc1, Zc2, Zr, Zz. change (Z.min (0 + 1) (g_Nr (mode_grid g vol 0) + 2)) with 1.
  change (g_Nz (mode_grid g vol 0)) with 8. change (g_Nr (mode_grid g vol 0)) with 4.
  change (delta 2 0 (fz 8 (3 + 1 + 0)) (fr 4 (1 + 0))) with (RtoC 1).
  change (delta 2 0 (fz 8 (3 + 1 + 0)) (fr 4 (1 + 1))) with (RtoC 1).
  change (delta 2 0 (fz 8 (3 + 1 + 1)) (fr 4 (1 + 0))) with (RtoC 0).
  change (delta 2 0 (fz 8 (3 + 1 + 1)) (fr 4 (1 + 1))) with (RtoC 0).
  unfold Sz_linear, Sr_linear. rewrite Zz, Zr. cbn [Z.eqb Z.ltb Z.add Z.sub Z.opp Z.pos_sub Z.compare Pos.add].
  unfold scal, scal0. rewrite C1, C2, S1, S2.
  intros X. apply (f_equal fst) in X. revert X. unfold A0. cbn. unfold vol. lra.
Qed.
