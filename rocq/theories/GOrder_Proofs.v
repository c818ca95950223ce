(** Proofs of C96. *)
From Coq Require Import Reals Lra.
From Flocq Require Import Core.Core.
From Coquelicot Require Import Complex.
From Verif Require Import Base Decomp_Proofs Chunk_Model Chunk_Proofs Wrap_Model Shape_Model Sort_Model Sort_Spec Sort_Proofs Deposit_Model Deposit_Spec Deposit_Proofs
  GDeposit_Model GDeposit_Spec GDeposit_Proofs GOrder_Model GOrder_Spec.
Open Scope Z_scope.

(** ** One deposition *)
Lemma sorted_order g s0 sp : Deposit_Spec.grid_ok g -> sizes_ok (sgrid_of g) s0 -> near_box (sgrid_of g) s0 ->
  sort_particles (sgrid_of g) s0 (gs_arr sp) -> order_ok g sp.
Proof.
  intros Hg H1 H2 H3 _. destruct (prefix_facts g s0 _ Hg H1 H2 H3) as (F0 & F1 & F2 & F3).
  destruct (sorted_ranges _ _ _ (sgrid_ok g Hg) H1 H2 H3) as ([pi Hpi] & _).
  split; [|split; [exact F1|split; [exact F2|exact F3]]].
  intros j Hj. rewrite F0 in Hj. destruct Hpi as (P & _ & _ & _ & Ez & _).
  rewrite (Ez j Hj). apply H2. apply perm_index; assumption.
Qed.

Lemma gsp_near g sp : Deposit_Spec.grid_ok g -> gsp_ok g sp -> sizes_ok (sgrid_of g) (gs_arr sp) /\ near_box (sgrid_of g) (gs_arr sp).
Proof.
  intros Hg (Hlen & HN & Hn & Hin).
  assert (Hin2 : forall i, 0 <= i < s_N (gs_arr sp) -> in_grid g (gptcl_at (gs_ionizable sp) (gs_arr sp) i)).
  { intros i Hi. rewrite Forall_forall in Hin. apply Hin. cbn [cpu_of sp_ptcl]. apply in_map, in_range. exact Hi. }
  split; [split; [split; [lia|]|]; change (2 ^ 52) with (2 ^ 31 * 2 ^ 21); lia|].
  exact (in_grid_near g _ _ Hg Hin2).
Qed.

Lemma species_cell v100 c g Nm ft sp sp' A A' k m iz ir : Deposit_Spec.grid_ok g -> beta_ok g ->
  gsp_ok g sp -> order_ok g sp -> gpu_species_deposit c v100 g Nm ft sp sp' A A' -> deposited ft k = true -> (m < Nm)%nat ->
  A' k m iz ir = Cplus (A k m iz ir) (if Req_EM_T (gs_q sp) 0 then RtoC 0 else species_sum c g k m iz ir (cpu_of sp)).
Proof.
  intros Hg Hb Hok Hflag H Hk Hm. destruct (gsp_near g sp Hg Hok) as [Hsz Hnear]. destruct Hok as (Hlen & HN & Hn & Hin).
  unfold gpu_species_deposit in H.
  destruct (Req_EM_T (gs_q sp) 0) as [E|E]; [destruct H as [_ ->]; ring|].
  destruct H as (_ & _ & _ & _ & _ & Hsort & Hl). specialize (Hl k m Hm). rewrite Hk in Hl.
  assert (Hin2 : forall i, 0 <= i < s_N (gs_arr sp) -> in_grid g (gptcl_at (gs_ionizable sp) (gs_arr sp) i)).
  { intros i Hi. rewrite Forall_forall in Hin. apply Hin. cbn [cpu_of sp_ptcl]. apply in_map, in_range. exact Hi. }
  assert (Htpb : 1 <= deposit_tpb v100 (gs_shape sp)) by (destruct (gs_shape sp), v100; cbn; lia).
  assert (X : exists pi, 
     (forall i, 0 <= i < s_N (gs_arr sp) -> gptcl_at (gs_ionizable sp) (gs_arr sp') i = gptcl_at (gs_ionizable sp) (gs_arr sp) (pi i)) /\
     Permutation (map pi (range (s_N (gs_arr sp)))) (range (s_N (gs_arr sp))) /\
     s_N (gs_arr sp') = s_N (gs_arr sp) /\
     (forall x, 0 <= x < ncells (sgrid_of g) -> 0 <= prev (s_prefix (gs_arr sp')) x <= s_prefix (gs_arr sp') x /\ s_prefix (gs_arr sp') x <= s_N (gs_arr sp')) /\
     prev (s_prefix (gs_arr sp')) (ncells (sgrid_of g)) = s_N (gs_arr sp') /\
     (forall x i, 0 <= x < ncells (sgrid_of g) -> prev (s_prefix (gs_arr sp')) x <= i < s_prefix (gs_arr sp') x -> cell (sgrid_of g) (gs_arr sp') i = x)).
  { destruct (gs_sorted sp) eqn:Es.
    - rewrite Hsort. destruct (Hflag Es) as (_ & F1 & F2 & F3).
      exists (fun i => i). split; [reflexivity|]. rewrite map_id.
      split; [reflexivity|]. split; [reflexivity|]. split; [exact F1|]. split; [exact F2|exact F3].
    - destruct (prefix_facts g _ _ Hg Hsz Hnear Hsort) as (F0 & F1 & F2 & F3).
      destruct (sorted_ranges _ _ _ (sgrid_ok g Hg) Hsz Hnear Hsort) as ([pi Hpi] & _).
      exists pi. split; [|split; [apply Hpi|repeat split; try assumption; apply F1; assumption]].
      intros i Hi. apply permuted_ptcl; assumption. }
  destruct X as (pi & X1 & X2 & X3 & X4 & X5 & X6).
  rewrite (atomic_cell c g Nm k m Hg Hb Hm sp (gs_arr sp') ltac:(lia) Hn) with (tpb := deposit_tpb v100 (gs_shape sp)) (A := A k m); try assumption.
  2:{ intros i Hi. rewrite X3 in Hi. rewrite X1 by exact Hi. apply Hin2.
      apply perm_index; assumption. }
  f_equal. unfold species_sum. cbn [cpu_of sp_ptcl]. rewrite lsum_map. rewrite X3.
  rewrite (lsum_ext _ (fun i => pair_with (fun gz gr => delta iz ir (fz (g_Nz g) gz) (fr (g_Nr g) gr))
       (contributions c g (gs_shape sp) k m (gs_q sp) (gs_ionizable sp) (gptcl_at (gs_ionizable sp) (gs_arr sp) (pi i))))).
  2:{ intros i Hi. apply in_range in Hi. rewrite X1 by exact Hi. reflexivity. }
  rewrite <- (lsum_map (fun i => pair_with (fun gz gr => delta iz ir (fz (g_Nz g) gz) (fr (g_Nr g) gr))
       (contributions c g (gs_shape sp) k m (gs_q sp) (gs_ionizable sp) (gptcl_at (gs_ionizable sp) (gs_arr sp) i))) pi).
  rewrite (lsum_perm _ _ _ X2). reflexivity.
Qed.

Lemma loop_cell v100 c g Nm ft l l' A A' k m iz ir : Deposit_Spec.grid_ok g -> beta_ok g ->
  Forall (gsp_ok g) l -> Forall (order_ok g) l -> gpu_species_loop c v100 g Nm ft l l' A A' -> deposited ft k = true -> (m < Nm)%nat ->
  A' k m iz ir = Cplus (A k m iz ir)
    (lsum (species_sum c g k m iz ir) (filter (fun sp => if Req_EM_T (sp_q sp) 0 then false else true) (map cpu_of l))).
Proof.
  intros Hg Hb Hl Hf H Hk Hm. induction H as [A|sp sp' l l' A A1 A' H1 H2 IH].
  - cbn [map filter]. rewrite lsum_nil. ring.
  - inversion Hl; inversion Hf; subst. rewrite IH by assumption.
    rewrite (species_cell _ _ _ _ _ _ _ _ _ k m iz ir Hg Hb ltac:(eassumption) ltac:(eassumption) H1 Hk Hm).
    cbn [map filter]. change (sp_q (cpu_of sp)) with (gs_q sp).
    destruct (Req_EM_T (gs_q sp) 0); [ring|]. rewrite lsum_cons. ring.
Qed.

Lemma filter_idem {A} (f : A -> bool) l : filter f (filter f l) = filter f l.
Proof. induction l as [|a l IH]; [reflexivity|]. cbn [filter]. destruct (f a) eqn:E; [cbn [filter]; rewrite E, IH; reflexivity|exact IH]. Qed.

Lemma deposit_as_cpu k d g ft l l1 A A' : grids_ok k g ->
  Forall (gsp_ok g) (depositing_gpu l) -> Forall (order_ok g) (depositing_gpu l) ->
  gpu_deposit (l_c k) (l_v100 k) g (l_vol k) (l_Nm k) ft l l1 A A' ->
  as_on_cpu k {| e_diag := d; e_g := g; e_ft := ft; e_sp := depositing_gpu l; e_A := A; e_A' := A' |}.
Proof.
  intros (HNm & Hb & Hgs) Hl Hf H nthreads q m iz ir Hth Hm Hiz Hir. cbn [e_g e_ft e_sp e_A e_A'] in *.
  destruct H as (A1 & Hloop & HA).
  destruct (deposited ft q) eqn:Ek.
  2:{ rewrite (HA q m Hm), Ek. rewrite (loop_untouched _ _ _ _ _ _ _ _ _ Hloop q m Ek Hm), Ek. reflexivity. }
  rewrite (HA q m Hm), Ek. fold (depositing_gpu l) in Hloop.
  pose proof (Hgs m Hm) as Hg.
  assert (Ed : depositing (map cpu_of (depositing_gpu l)) None = map cpu_of (depositing_gpu l)).
  { cbn [depositing]. clear. unfold depositing_gpu. induction l as [|s l IH]; [reflexivity|]. cbn [filter].
    destruct (negb (gs_tracer s)) eqn:E; [|exact IH]. cbn [map filter].
    change (sp_tracer (cpu_of s)) with (gs_tracer s). rewrite E, IH. reflexivity. }
  rewrite (deposit_cell (l_c k) (mode_grid g (l_vol k) m) q m nthreads (map cpu_of (depositing_gpu l)) None iz ir Hg).
  - unfold divide_by_volume. f_equal.
    transitivity (Cplus (RtoC 0) (lsum (species_sum (l_c k) g q m iz ir)
       (filter (fun sp => if Req_EM_T (sp_q sp) 0 then false else true) (map cpu_of (depositing_gpu l))))).
    2:{ rewrite Ed, Cplus_0_l. reflexivity. }
    pose proof (loop_cell (l_v100 k) (l_c k) (mode_grid g (l_vol k) m)
      (l_Nm k) ft _ _ _ _ q m iz ir Hg Hb Hl Hf (loop_mode_grid _ _ _ _ _ _ _ _ _ _ _ Hloop) Ek Hm) as Q.
    cbv beta in Q. rewrite Ek in Q. exact Q.
  - split; [lia|]. rewrite Ed. rewrite Forall_forall in *. intros s Hs. apply in_map_iff in Hs as [s' [<- Hs']].
    destruct (Hl s' Hs') as (_ & B & _). cbn [cpu_of sp_ptcl]. rewrite map_length, length_range.
    change (2 ^ 53) with (2 ^ 32 + (2 ^ 53 - 2 ^ 32)). lia.
  - rewrite Ed. unfold all_in_grid. rewrite Forall_forall in *. intros s Hs. apply in_map_iff in Hs as [s' [<- Hs']].
    destruct (Hl s' Hs') as (_ & _ & _ & B). exact B.
  - exact Hiz.
  - exact Hir.
Qed.

Lemma species_order v100 c g Nm ft sp sp' A A' : Deposit_Spec.grid_ok g -> gsp_ok g sp -> order_ok g sp ->
  gpu_species_deposit c v100 g Nm ft sp sp' A A' -> order_ok g sp'.
Proof.
  intros Hg Hok Hf H. unfold gpu_species_deposit in H.
  destruct (Req_EM_T (gs_q sp) 0) as [E|E]; [destruct H as [-> _]; exact Hf|].
  destruct H as (_ & _ & _ & _ & E5 & Hsort & _). destruct (gs_sorted sp) eqn:Es.
  - intros _. rewrite Hsort. exact (Hf Es).
  - destruct (gsp_near g sp Hg Hok) as [Hsz Hnear]. eapply sorted_order; eassumption.
Qed.
Lemma loop_order v100 c g Nm ft l l' A A' : Deposit_Spec.grid_ok g -> Forall (gsp_ok g) l -> Forall (order_ok g) l ->
  gpu_species_loop c v100 g Nm ft l l' A A' -> Forall (order_ok g) l'.
Proof.
  intros Hg Hl Hf H. induction H as [A|sp sp' l l' A A1 A' H1 H2 IH]; [constructor|].
  inversion Hl; inversion Hf; subst. constructor; [eapply species_order; eassumption|apply IH; assumption].
Qed.
Lemma merged_order g l : forall l1, Forall (order_ok g) l -> Forall (order_ok g) l1 -> Forall (order_ok g) (merged l l1).
Proof.
  induction l as [|s l IH]; intros l1 H H1; [constructor|]. inversion H; subst. cbn [merged].
  destruct (gs_tracer s); [constructor; [assumption|apply IH; assumption]|].
  destruct l1 as [|s1 l1]; [constructor; [assumption|apply IH; assumption]|].
  inversion H1; subst. constructor; [assumption|apply IH; assumption].
Qed.

Lemma grid_of k g : grids_ok k g -> Deposit_Spec.grid_ok (mode_grid g (l_vol k) 0).
Proof. intros (H & _ & G). apply G. lia. Qed.
(** ** Operations and the order *)
Definition cleared (l : list gsp) : Prop := Forall created l.
Definition ordered (g : grid) (l : list gsp) : Prop := Forall (order_ok g) l.
Lemma cleared_ordered g l : cleared l -> ordered g l.
Proof. intros H. eapply Forall_impl; [|exact H]. intros s E E'. unfold created in E. congruence. Qed.

(** Positions that differ by whole box lengths are in the same cell. *)
Lemma Zceil_shift x n : Zceil (x + IZR n) = Zceil x + n.
Proof. apply Zceil_imp. rewrite minus_IZR, plus_IZR. pose proof (Zceil_ub x). pose proof (Zceil_lb x). lra. Qed.
Lemma zmod_two a b n m : 0 < n -> 0 <= a < n -> 0 <= b < n -> a = b + m * n -> a = b.
Proof. intros Hn Ha Hb E. assert (m = 0) by nia. lia. Qed.
Lemma cell_of_period g x y z j : Deposit_Spec.grid_ok g ->
  let s := sgrid_of g in
  (Sort_Model.g_zmin s - IZR (Sort_Model.g_Nz s) * Sort_Model.g_dz s <= z <= Sort_Model.g_zmin s + 2 * IZR (Sort_Model.g_Nz s) * Sort_Model.g_dz s - Sort_Model.g_dz s)%R ->
  (Sort_Model.g_zmin s <= z + IZR j * (IZR (Sort_Model.g_Nz s) * Sort_Model.g_dz s) < Sort_Model.g_zmin s + IZR (Sort_Model.g_Nz s) * Sort_Model.g_dz s)%R ->
  cell_of s x y (z + IZR j * (IZR (Sort_Model.g_Nz s) * Sort_Model.g_dz s)) = cell_of s x y z.
Proof.
  intros (Hd & _ & HN & _) s H1 H2. unfold cell_of. unfold s, sgrid_of in *. cbn [Sort_Model.g_zmin Sort_Model.g_dz Sort_Model.g_Nz Sort_Model.g_dr Sort_Model.g_Nr] in *.
  set (d := g_dz g) in *. set (N := g_Nz g) in *. set (z0 := g_zmin g) in *.
  f_equal. f_equal.
  replace (/ d * (z + IZR j * (IZR N * d) - z0) - / 2)%R with ((/ d * (z - z0) - / 2) + IZR (j * N))%R by (rewrite mult_IZR; field; lra).
  rewrite Zceil_shift. set (u := (/ d * (z - z0) - / 2)%R).
  assert (U1 : (IZR (- N) - 1 < u <= IZR (2 * N - 1))%R).
  { unfold u. rewrite opp_IZR, minus_IZR, mult_IZR.
    assert (E : (/ d * (z - z0))%R = ((z - z0) / d)%R) by (field; lra). rewrite E.
    assert ((z - z0) / d * d = z - z0)%R by (field; lra). split; nra. }
  assert (U2 : (-1 < u + IZR (j * N) <= IZR N)%R).
  { unfold u. rewrite mult_IZR.
    assert (E : (/ d * (z - z0))%R = ((z - z0) / d)%R) by (field; lra). rewrite E.
    assert ((z - z0) / d * d = z - z0)%R by (field; lra). split; nra. }
  assert (C1 : - N <= Zceil u <= 2 * N - 1).
  { pose proof (Zceil_ub u). pose proof (Zceil_lb u). split.
    - apply Z.lt_succ_r. apply lt_IZR. rewrite succ_IZR. rewrite minus_IZR, ?mult_IZR in *. lra.
    - apply Z.lt_succ_r. apply lt_IZR. rewrite succ_IZR. lra. }
  assert (C2 : 0 <= Zceil u + j * N <= N).
  { rewrite <- Zceil_shift. set (v := (u + IZR (j * N))%R) in *. pose proof (Zceil_ub v). pose proof (Zceil_lb v). split.
    - apply Z.lt_succ_r. apply lt_IZR. rewrite succ_IZR. lra.
    - apply Z.lt_succ_r. apply lt_IZR. rewrite succ_IZR. lra. }
  destruct (Z.ltb_spec (Zceil u) 0) as [Ha|Ha]; [|destruct (Z.gtb_spec (Zceil u) (N - 1)) as [Hb|Hb]];
  (destruct (Z.ltb_spec (Zceil u + j * N) 0) as [Hc|Hc]; [lia|]);
  destruct (Z.gtb_spec (Zceil u + j * N) (N - 1)) as [He|He]; try lia.
  all: clear U1 U2.
  - apply (zmod_two _ _ N (j - 2)); lia.
  - apply (zmod_two _ _ N (j - 1)); lia.
  - apply (zmod_two _ _ N j); lia.
  - apply (zmod_two _ _ N (j + 1)); lia.
  - apply (zmod_two _ _ N (j - 1)); lia.
  - apply (zmod_two _ _ N j); lia.
Qed.

Lemma wrap_facts fuel zmin zmax z z' : (zmin < zmax)%R -> wrap1 R Rge_b Rlt_b Rminus Rplus fuel zmin zmax z = Some z' ->
  (zmin <= z' < zmax)%R /\ exists j : Z, (z' = z + IZR j * (zmax - zmin))%R.
Proof.
  intros Hz H. unfold wrap1 in H. set (l := (zmax - zmin)%R) in *.
  destruct (while_down R Rge_b Rminus fuel zmax l z) as [u|] eqn:Ed; [|discriminate].
  assert (D : (u < zmax)%R /\ exists j : Z, (u = z + IZR j * l)%R).
  { clear H. revert z Ed. induction fuel as [|n IH]; intros z E; [discriminate|]. cbn [while_down] in E. unfold Rge_b in E at 1.
    destruct (Rle_dec zmax z); [|injection E as <-; split; [lra|exists 0; lra]].
    destruct (IH _ E) as [B [j Hj]]. split; [exact B|]. exists (j - 1). rewrite minus_IZR. lra. }
  assert (Up : forall u, (u < zmax)%R -> while_up R Rlt_b Rplus fuel zmin l u = Some z' ->
     (zmin <= z' < zmax)%R /\ exists j : Z, (z' = u + IZR j * l)%R).
  { clear. induction fuel as [|n IH]; intros u Hu E; [discriminate|]. cbn [while_up] in E. unfold Rlt_b in E at 1.
    destruct (Rlt_dec u zmin); [|injection E as <-; split; [lra|exists 0; lra]].
    destruct (IH (u + l)%R ltac:(unfold l; lra) E) as [B [j Hj]]. split; [exact B|]. exists (j + 1). rewrite plus_IZR. lra. }
  destruct D as [D [j Hj]]. destruct (Up u D H) as [B [j2 Hj2]]. split; [exact B|]. exists (j + j2). rewrite plus_IZR. lra.
Qed.

Lemma wrapped_order g sp sp' : Deposit_Spec.grid_ok g -> order_ok g sp -> wrapped g sp sp' -> order_ok g sp'.
Proof.
  intros Hg H (z' & -> & Hz) Es. cbn [with_arr gs_sorted] in Es. destruct (H Es) as (F0 & F1 & F2 & F3).
  pose proof Hg as (Hd & _ & HN & _).
  assert (Hn : (2 <= IZR (g_Nz g))%R) by (apply (IZR_le 2); lia).
  assert (Hl : (0 < IZR (g_Nz g) * g_dz g)%R) by nra.
  assert (W : forall i, 0 <= i < s_N (gs_arr sp) ->
    (g_zmin g <= z' i < g_zmin g + IZR (g_Nz g) * g_dz g)%R /\ exists j : Z, (z' i = s_z (gs_arr sp) i + IZR j * (IZR (g_Nz g) * g_dz g))%R).
  { intros i Hi. specialize (Hz i). replace (0 <=? i) with true in Hz by (symmetry; apply Z.leb_le; lia).
    replace (i <? s_N (gs_arr sp)) with true in Hz by (symmetry; apply Z.ltb_lt; lia). cbn [andb] in Hz. destruct Hz as [fuel Hf].
    apply wrap_facts in Hf; [|lra]. destruct Hf as [B [j Hj]]. split; [exact B|]. exists j. rewrite Hj. ring. }
  cbn [with_arr gs_arr with_xyz s_N s_z s_prefix].
  split; [|split; [exact F1|split; [exact F2|]]].
  - intros i Hi. cbn [with_xyz s_N s_z] in *. destruct (W i Hi) as [B _]. cbn. nra.
  - intros x i Hx Hi. rewrite <- (F3 x i Hx Hi). unfold cell. cbn [with_xyz s_x s_y s_z].
    assert (Hi2 : 0 <= i < s_N (gs_arr sp)) by (destruct (F1 x Hx); lia).
    destruct (W i Hi2) as [B [j Hj]]. rewrite Hj.
    apply (cell_of_period g _ _ _ j Hg); [exact (F0 i Hi2)|]. cbn. rewrite <- Hj. exact B.
Qed.

(** ** Sequences of operations *)
Definition geometry (g g' : grid) : Prop :=
  g_dz g' = g_dz g /\ g_Nz g' = g_Nz g /\ g_dr g' = g_dr g /\ g_Nr g' = g_Nr g /\ g_vol g' = g_vol g /\ g_beta g' = g_beta g.
Lemma geometry_ok k g g' : geometry g g' -> grids_ok k g -> grids_ok k g'.
Proof.
  intros (E1 & E2 & E3 & E4 & E5 & E6) (HN & Hb & H). split; [exact HN|]. split.
  - unfold beta_ok. rewrite E6. exact Hb.
  - intros m Hm. specialize (H m Hm). unfold Deposit_Spec.grid_ok, mode_grid in *. cbn in *. rewrite E1, E2, E3, E4, ?E6. exact H.
Qed.
Definition cond := grid -> list gsp -> Prop.
Definition any : cond := fun _ _ => True.
Definition clr : cond := fun _ l => cleared l.
Definition ordr : cond := ordered.
(** [strict]: also the depositions made by the diagnostics. *)
Definition good (strict : bool) (k : loop_cfg) (e : event) : Prop := strict = true \/ e_diag e = false -> as_on_cpu k e.
Definition triple (strict : bool) (k : loop_cfg) (P : cond) (ops : list op) (Q : cond) : Prop :=
  forall st tr st', grids_ok k (st_g st) -> P (st_g st) (st_sp st) -> execs k ops st tr st' -> Forall fits tr ->
  Forall (good strict k) tr /\ grids_ok k (st_g st') /\ Q (st_g st') (st_sp st').

Lemma t_nil s k (P : cond) : triple s k P [] P.
Proof. intros st tr st' Hg HP H _. inversion H; subst. auto. Qed.
Lemma t_one s k (P Q : cond) o :
  (forall st tr st', grids_ok k (st_g st) -> P (st_g st) (st_sp st) -> exec k o st tr st' -> Forall fits tr ->
     Forall (good s k) tr /\ grids_ok k (st_g st') /\ Q (st_g st') (st_sp st')) -> triple s k P [o] Q.
Proof.
  intros H st tr st' Hg HP He Hf. inversion He as [|? ? ? tr1 st1 tr2 ? H1 H2]; subst. inversion H2; subst. rewrite app_nil_r in *.
  eapply H; eassumption.
Qed.
Lemma execs_app k a b st tr st' : execs k (a ++ b) st tr st' ->
  exists tr1 st1 tr2, execs k a st tr1 st1 /\ execs k b st1 tr2 st' /\ tr = tr1 ++ tr2.
Proof.
  revert st tr. induction a as [|o a IH]; intros st tr H.
  - exists [], st, tr. split; [constructor|]. split; [exact H|reflexivity].
  - cbn [app] in H. inversion H as [|? ? ? t1 s1 t2 ? H1 H2]; subst. destruct (IH _ _ H2) as (u1 & s2 & u2 & A & B & ->).
    exists (t1 ++ u1), s2, u2. split; [econstructor; eassumption|]. split; [exact B|]. apply app_assoc.
Qed.
Lemma t_seq s k P Q T a b : triple s k P a Q -> triple s k Q b T -> triple s k P (a ++ b) T.
Proof.
  intros Ha Hb st tr st' Hg HP H Hf. destruct (execs_app _ _ _ _ _ _ H) as (t1 & s1 & t2 & A & B & ->).
  apply Forall_app in Hf as [F1 F2]. destruct (Ha _ _ _ Hg HP A F1) as (G1 & Hg1 & Q1).
  destruct (Hb _ _ _ Hg1 Q1 B F2) as (G2 & Hg2 & Q2). split; [apply Forall_app; split; assumption|]. split; assumption.
Qed.
Lemma t_weak s k (P P' Q Q' : cond) a : (forall g l, P' g l -> P g l) -> (forall g l, Q g l -> Q' g l) -> triple s k P a Q -> triple s k P' a Q'.
Proof. intros H1 H2 H st tr st' Hg HP He Hf. destruct (H st tr st' Hg (H1 _ _ HP) He Hf) as (A & B & D). split; [exact A|]. split; [exact B|apply H2; exact D]. Qed.

Lemma ordered_filter g l : ordered g l -> Forall (order_ok g) (depositing_gpu l).
Proof. intros H. unfold ordered in H. rewrite Forall_forall in *. intros s Hs. apply H. apply filter_In in Hs. tauto. Qed.
Lemma t_deposit s k ft : triple s k ordr [ODeposit ft] ordr.
Proof.
  apply t_one. intros st tr st' Hg HP (l1 & Hd & Eg & Es & ->) Hf. inversion Hf as [|? ? F _]; subst. cbn in F.
  split.
  - constructor; [|constructor]. intros _. eapply deposit_as_cpu; [exact Hg|exact F|apply ordered_filter; exact HP|exact Hd].
  - rewrite Eg. split; [exact Hg|]. rewrite Es. apply merged_order; [exact HP|].
    destruct Hd as (A1 & Hl & _). eapply (loop_order (l_v100 k) (l_c k) (mode_grid (st_g st) (l_vol k) 0)).
    + apply grid_of, Hg.
    + exact F.
    + apply ordered_filter, HP.
    + apply loop_mode_grid. exact Hl.
Qed.

Lemma Forall2_right {A B} (R : A -> B -> Prop) (P : A -> Prop) (Q : B -> Prop) l l' :
  (forall a b, P a -> R a b -> Q b) -> Forall P l -> Forall2 R l l' -> Forall Q l'.
Proof. intros H HP H2. induction H2; constructor; inversion HP; subst; eauto. Qed.
Lemma Forall_true {A} (l : list A) : Forall (fun _ => True) l.
Proof. induction l; constructor; auto. Qed.

Lemma attributes_order g a b : order_ok g a -> attributes_changed a b -> order_ok g b.
Proof. intros H (fl & ints & _ & ->) Es. exact (H Es). Qed.
Lemma t_attributes s k : triple s k ordr [OAttributes] ordr.
Proof.
  apply t_one. intros st tr st' Hg HP (-> & Eg & _ & F) _. rewrite Eg. split; [constructor|]. split; [exact Hg|].
  exact (Forall2_right _ _ _ _ _ (attributes_order (st_g st)) HP F).
Qed.
Lemma t_attributes_any s k : triple s k any [OAttributes] any.
Proof. apply t_one. intros st tr st' Hg HP (-> & Eg & _ & F) _. rewrite Eg. split; [constructor|]. split; [exact Hg|exact I]. Qed.
Lemma t_exchange_wrap s k : l_wrap k = true -> triple s k ordr [OExchange] ordr.
Proof.
  intros E. apply t_one. intros st tr st' Hg HP (-> & Eg & _ & F) _. rewrite E in F. rewrite Eg. split; [constructor|]. split; [exact Hg|].
  refine (Forall2_right _ _ _ _ _ _ HP F). intros a b Ha Hb.
  exact (wrapped_order (mode_grid (st_g st) (l_vol k) 0) a b (grid_of k _ Hg) Ha Hb).
Qed.
Lemma t_exchange s k : l_wrap k = false -> triple s k any [OExchange] ordr.
Proof.
  intros E. apply t_one. intros st tr st' Hg HP (-> & Eg & _ & F) _. rewrite E in F. rewrite Eg. split; [constructor|]. split; [exact Hg|].
  apply cleared_ordered. refine (Forall2_right _ (fun _ => True) _ _ _ _ (Forall_true _) F). intros a b _ (x & ->). reflexivity.
Qed.
Lemma t_push s k f x y z : triple s k any [OPushX f x y z] clr.
Proof.
  apply t_one. intros st tr st' Hg HP (-> & Eg & _ & F) _. rewrite Eg. split; [constructor|]. split; [exact Hg|]. rewrite F.
  unfold clr, cleared. apply Forall_forall. intros b Hb. apply in_map_iff in Hb as [a [<- _]]. reflexivity.
Qed.
Lemma shifted_geometry d g : geometry g (grid_shifted d g).
Proof. repeat split. Qed.
Lemma t_galilean s k f : triple s k clr [OGalilean f] clr.
Proof.
  apply t_one. intros st tr st' Hg HP (-> & Eg & _ & F) _. rewrite Eg, F. split; [constructor|].
  split; [eapply geometry_ok; [apply shifted_geometry|exact Hg]|exact HP].
Qed.
Lemma t_processes s k : triple s k clr [OProcesses] clr.
Proof.
  apply t_one. intros st tr st' Hg HP (-> & Eg & _ & F) _. rewrite Eg. split; [constructor|]. split; [exact Hg|].
  refine (Forall2_right _ _ _ _ _ _ HP F). intros a b Ha [(fl & ints & _ & ->)|(x & ->)]; [exact Ha|reflexivity].
Qed.
Lemma t_window s k : triple s k any [OWindow] any.
Proof.
  apply t_one. intros st tr st' Hg HP (n & -> & Eg & _ & F) _. rewrite Eg. split; [constructor|].
  split; [|exact I]. eapply geometry_ok; [|exact Hg]. repeat split.
Qed.

(** The diagnostics, from a state in order. *)
Lemma diagnosed_order g a b : Deposit_Spec.grid_ok g -> order_ok g a -> diagnosed g a b -> order_ok g b.
Proof.
  intros Hg H [->|(_ & H1 & H2 & x & H3 & ->)]; [exact H|]. eapply sorted_order; [exact Hg|exact H1|exact H2|exact H3].
Qed.
Lemma untracer_order g a : order_ok g a -> order_ok g (untracer a).
Proof. intros H E. exact (H E). Qed.
Lemma diags_order k st tr st' : diags k st tr st' -> grids_ok k (st_g st) -> ordered (st_g st) (st_sp st) -> Forall fits tr ->
  Forall (good true k) tr /\ st_g st' = st_g st /\ ordered (st_g st') (st_sp st').
Proof.
  induction 1 as [st|st l st' tr F Hd IH|st l1 sp l2 sp' A' st' tr E Hdep Et Hd IH]; intros Hg HP Hf.
  - auto.
  - apply IH; [exact Hg| |exact Hf]. refine (Forall2_right _ _ _ _ _ _ HP F). intros a b Ha Hb.
    exact (diagnosed_order (mode_grid (st_g st) (l_vol k) 0) a b (grid_of k _ Hg) Ha Hb).
  - inversion Hf as [|? ? F1 F2]; subst. unfold fits in F1. cbn [e_g e_sp] in F1.
    assert (Hsp : order_ok (st_g st) sp).
    { unfold ordered in HP. rewrite E in HP. apply Forall_app in HP as [_ HP]. inversion HP; subst; assumption. }
    assert (Ho : Forall (order_ok (st_g st)) [untracer sp]) by (constructor; [apply untracer_order; exact Hsp|constructor]).
    assert (Hsp' : order_ok (st_g st) (untracer sp')).
    { destruct Hdep as (A1 & Hl & _).
      pose proof (loop_order (l_v100 k) (l_c k) (mode_grid (st_g st) (l_vol k) 0) _ _ _ _ _ _ (grid_of k _ Hg) F1 Ho (loop_mode_grid _ _ _ _ _ _ _ _ _ _ _ Hl)) as Q.
      inversion Q; subst; assumption. }
    destruct IH as (G & Eg & HQ); [exact Hg| |exact F2|].
    + cbn [st_sp st_g]. unfold ordered in *. rewrite E in HP. apply Forall_app in HP as [P1 P2]. apply Forall_app. split; [exact P1|].
      inversion P2; subst. constructor; [intros E'; exact (Hsp' E')|assumption].
    + split; [|split; assumption]. constructor; [|exact G]. intros _.
      exact (deposit_as_cpu k true (st_g st) FRho [untracer sp] _ _ _ Hg F1 Ho Hdep).
Qed.
Lemma diags_any k st tr st' : diags k st tr st' -> grids_ok k (st_g st) ->
  Forall (fun e => e_diag e = true) tr /\ st_g st' = st_g st.
Proof.
  induction 1 as [st|st l st' tr F Hd IH|st l1 sp l2 sp' A' st' tr E Hdep Et Hd IH]; intros Hg; [auto|apply IH; exact Hg|].
  destruct (IH Hg) as [G Eg]. split; [constructor; [reflexivity|exact G]|exact Eg].
Qed.
Lemma t_diags s k : triple s k ordr [ODiags] ordr.
Proof.
  apply t_one. intros st tr st' Hg HP H Hf. destruct (diags_order k st tr st' H Hg HP Hf) as (G & Eg & HQ).
  split; [|rewrite Eg in *; split; assumption]. eapply Forall_impl; [|exact G]. intros e He _. apply He. left. reflexivity.
Qed.
Lemma t_diags_any k : triple false k any [ODiags] any.
Proof.
  apply t_one. intros st tr st' Hg HP H Hf. destruct (diags_any k st tr st' H Hg) as [G Eg]. rewrite Eg. split; [|split; [exact Hg|exact I]].
  eapply Forall_impl; [|exact G]. intros e He [Hx|Hx]; congruence.
Qed.

(** ** The loop *)
Lemma clr_ord s k a Q : triple s k ordr a Q -> triple s k clr a Q.
Proof. apply t_weak; [|auto]. intros g l. apply cleared_ordered. Qed.
Lemma any_pre s k P a Q : triple s k any a Q -> triple s k P a Q.
Proof. apply t_weak; [intros; exact I|auto]. Qed.
Lemma t_galilean_if s k f : triple s k clr (if l_galilean k then [OGalilean f] else []) clr.
Proof. destruct (l_galilean k); [apply t_galilean|apply t_nil]. Qed.

Lemma t_cross s k : l_move_positions k = true -> triple s k ordr (cross_deposit k) clr.
Proof.
  intros Em. unfold cross_deposit. rewrite Em.
  eapply t_seq; [apply any_pre, t_push|]. eapply t_seq; [apply t_galilean_if|]. eapply t_seq; [apply clr_ord, t_deposit|].
  eapply t_seq; [apply any_pre, t_push|]. eapply t_seq; [apply t_galilean_if|]. eapply t_seq; [apply clr_ord, t_deposit|].
  eapply t_seq; [apply any_pre, t_push|]. apply t_galilean_if.
Qed.

Definition rest_of (k : loop_cfg) : list op :=
  let galilean := if l_galilean k then [OGalilean (/2)%R] else [] in
  let push := if l_move_positions k then [OPushX (/2)%R 1%R 1%R 1%R] else [] in
  push ++ galilean ++ [OProcesses; ODeposit FJ] ++
  (if l_correct_currents k && l_cross k then cross_deposit k else []) ++
  push ++ galilean ++ [ODeposit FRho] ++ (if l_window k then [OWindow] else []).
Lemma iteration_split k it i : iteration k it i =
  ((if (it mod l_period k =? 0) || (i =? 0) then [OExchange; ODeposit FRho] else []) ++ (if i =? 0 then [ODeposit FJ] else [])) ++
  [OAttributes; ODiags; OAttributes] ++ rest_of k.
Proof. unfold iteration, rest_of. rewrite <- !app_assoc. reflexivity. Qed.

Lemma t_rest s k : l_move_positions k = true -> triple s k any (rest_of k) (if l_window k then any else ordr).
Proof.
  intros Em. unfold rest_of. rewrite Em.
  eapply t_seq; [apply t_push|]. eapply t_seq; [apply t_galilean_if|].
  eapply (t_seq s k clr ordr).
  { change [OProcesses; ODeposit FJ] with ([OProcesses] ++ [ODeposit FJ]). eapply t_seq; [apply t_processes|]. apply clr_ord, t_deposit. }
  eapply (t_seq s k ordr any).
  { destruct (l_correct_currents k && l_cross k).
    - eapply t_weak; [| |apply (t_cross s k Em)]; [auto|intros; exact I].
    - eapply t_weak; [| |apply (t_nil s k ordr)]; [auto|intros; exact I]. }
  eapply t_seq; [apply t_push|]. eapply t_seq; [apply t_galilean_if|]. eapply t_seq; [apply clr_ord, t_deposit|].
  destruct (l_window k); [apply any_pre, t_window|apply t_nil].
Qed.

(** Without a moving window. *)
Lemma t_iteration k it i : l_move_positions k = true -> l_window k = false -> triple true k ordr (iteration k it i) ordr.
Proof.
  intros Em Ew. rewrite iteration_split. eapply (t_seq true k ordr ordr).
  - eapply (t_seq true k ordr ordr).
    + destruct ((it mod l_period k =? 0) || (i =? 0)); [|apply t_nil].
      change [OExchange; ODeposit FRho] with ([OExchange] ++ [ODeposit FRho]). eapply (t_seq true k ordr ordr); [|apply t_deposit].
      destruct (l_wrap k) eqn:E; [apply t_exchange_wrap; exact E|apply any_pre, t_exchange; exact E].
    + destruct (i =? 0); [apply t_deposit|apply t_nil].
  - eapply (t_seq true k ordr ordr).
    + change [OAttributes; ODiags; OAttributes] with ([OAttributes] ++ [ODiags] ++ [OAttributes]).
      eapply t_seq; [apply t_attributes|]. eapply t_seq; [apply t_diags|apply t_attributes].
    + pose proof (t_rest true k Em) as H. rewrite Ew in H. apply any_pre. exact H.
Qed.
(** With guard cells. *)
Lemma t_iteration_any k it i : l_move_positions k = true -> l_wrap k = false -> triple false k any (iteration k it i) any.
Proof.
  intros Em Ew. rewrite iteration_split. eapply (t_seq false k any any).
  - destruct (i =? 0) eqn:Ei.
    + rewrite orb_true_r. eapply (t_seq false k any ordr).
      * change [OExchange; ODeposit FRho] with ([OExchange] ++ [ODeposit FRho]). eapply t_seq; [apply t_exchange; exact Ew|apply t_deposit].
      * eapply t_weak; [| |apply (t_deposit false k FJ)]; [auto|intros; exact I].
    + rewrite orb_false_r, app_nil_r. destruct (it mod l_period k =? 0); [|apply t_nil].
      change [OExchange; ODeposit FRho] with ([OExchange] ++ [ODeposit FRho]). eapply t_seq; [apply t_exchange; exact Ew|].
      eapply t_weak; [| |apply (t_deposit false k FRho)]; [auto|intros; exact I].
  - eapply (t_seq false k any any).
    + change [OAttributes; ODiags; OAttributes] with ([OAttributes] ++ [ODiags] ++ [OAttributes]).
      eapply t_seq; [apply t_attributes_any|]. eapply t_seq; [apply t_diags_any|apply t_attributes_any].
    + eapply t_weak; [| |apply (t_rest false k Em)]; [auto|intros; exact I].
Qed.
Lemma t_flat s k P (f : Z -> list op) l : (forall i, triple s k P (f i) P) -> triple s k P (flat_map f l) P.
Proof. intros H. induction l as [|i l IH]; [apply t_nil|]. cbn [flat_map]. eapply t_seq; [apply H|exact IH]. Qed.
Lemma t_calls s k P Ns : (forall it i, triple s k P (iteration k it i) P) -> forall it, triple s k P (calls_ops k it Ns) P.
Proof.
  intros H. induction Ns as [|N Ns IH]; intros it; [apply t_nil|]. cbn [calls_ops]. eapply t_seq; [|apply IH].
  apply t_flat. intros i. apply H.
Qed.

Lemma loop_no_window k it Ns st tr st' : l_move_positions k = true -> l_window k = false -> grids_ok k (st_g st) ->
  Forall (order_ok (st_g st)) (st_sp st) -> execs k (calls_ops k it Ns) st tr st' -> Forall fits tr -> Forall (as_on_cpu k) tr.
Proof.
  intros Em Ew Hg HP H Hf. destruct (t_calls true k ordr Ns (fun it i => t_iteration k it i Em Ew) it st tr st' Hg HP H Hf) as [G _].
  eapply Forall_impl; [|exact G]. intros e He. apply He. left. reflexivity.
Qed.
Lemma loop_guarded k it Ns st tr st' : l_move_positions k = true -> l_wrap k = false -> grids_ok k (st_g st) ->
  execs k (calls_ops k it Ns) st tr st' -> Forall fits tr -> Forall (fun e => e_diag e = false -> as_on_cpu k e) tr.
Proof.
  intros Em Ew Hg H Hf. destruct (t_calls false k any Ns (fun it i => t_iteration_any k it i Em Ew) it st tr st' Hg I H Hf) as [G _].
  eapply Forall_impl; [|exact G]. intros e He E. apply He. right. exact E.
Qed.
(** With guard cells and an exchange at each iteration. *)
Lemma t_iteration_one k it i : l_move_positions k = true -> l_wrap k = false -> l_period k = 1 -> triple true k any (iteration k it i) any.
Proof.
  intros Em Ew Ep. rewrite iteration_split. rewrite Ep, Z.mod_1_r. cbn [Z.eqb orb]. eapply (t_seq true k any ordr).
  - eapply (t_seq true k any ordr).
    + change [OExchange; ODeposit FRho] with ([OExchange] ++ [ODeposit FRho]). eapply t_seq; [apply t_exchange; exact Ew|apply t_deposit].
    + destruct (i =? 0); [apply t_deposit|apply t_nil].
  - eapply (t_seq true k ordr ordr).
    + change [OAttributes; ODiags; OAttributes] with ([OAttributes] ++ [ODiags] ++ [OAttributes]).
      eapply t_seq; [apply t_attributes|]. eapply t_seq; [apply t_diags|apply t_attributes].
    + eapply t_weak; [| |apply (t_rest true k Em)]; intros; exact I.
Qed.
Lemma loop_period_one k it Ns st tr st' : l_move_positions k = true -> l_wrap k = false -> l_period k = 1 -> grids_ok k (st_g st) ->
  execs k (calls_ops k it Ns) st tr st' -> Forall fits tr -> Forall (as_on_cpu k) tr.
Proof.
  intros Em Ew Ep Hg H Hf. destruct (t_calls true k any Ns (fun it i => t_iteration_one k it i Em Ew Ep) it st tr st' Hg I H Hf) as [G _].
  eapply Forall_impl; [|exact G]. intros e He. apply He. left. reflexivity.
Qed.

(** ** Out of order: one particle at rest, and a window that moves by one cell *)
Definition at_rest (s : gspecies) : Prop := s_N s = 1 /\ length (s_fl s) = 5%nat /\ gptcl_at false s 0 = gptcl_at false (ws 3) 0.
Lemma rest_sorted g s s' : Deposit_Spec.grid_ok g -> ncells (sgrid_of g) < 2 ^ 52 -> near_box (sgrid_of g) s -> at_rest s -> sort_particles (sgrid_of g) s s' -> at_rest s'.
Proof.
  intros Hg Hc Hnear (HN & Hl & Hp) Hs.
  assert (Hsz : sizes_ok (sgrid_of g) s) by (unfold sizes_ok; rewrite HN; split; [lia|exact Hc]).
  destruct (sorted_ranges _ _ _ (sgrid_ok g Hg) Hsz Hnear Hs) as ([pi Hpi] & _).
  destruct (prefix_facts g _ _ Hg Hsz Hnear Hs) as (EN & _).
  rewrite HN in EN.
  assert (Hpi0 : pi 0 = 0).
  { destruct Hpi as [P _]. rewrite HN in P. pose proof (perm_index 1 pi 0 P ltac:(lia)). lia. }
  split; [exact EN|]. split.
  - destruct Hpi as (_ & _ & _ & _ & _ & F & _). rewrite <- Hl. clear -F. induction F; cbn [length]; congruence.
  - rewrite (permuted_ptcl pi s s' false 0 Hpi) by lia. rewrite Hpi0. exact Hp.
Qed.
Lemma rest_z s : at_rest s -> s_z s 0 = 3%R.
Proof. intros (_ & _ & H). apply (f_equal p_z) in H. exact H. Qed.
Lemma rest_near zmin s : at_rest s -> (zmin <= 3 <= zmin + 8)%R -> near_box (sgrid_of (wg zmin)) s.
Proof. intros H Hz j Hj. destruct H as (HN & H). assert (j = 0) by lia. subst j. rewrite (rest_z s (conj HN H)). cbn. lra. Qed.

Definition g1 : grid := grid_moved 1 (wg 0).
Definition vol1 : nat -> Z -> R := fun _ _ => 1%R.
Lemma stale c s0 s' s2 A2 : at_rest s0 -> sort_particles (sgrid_of (wg 0)) s0 s' -> at_rest s2 -> s_prefix s2 = s_prefix s' ->
  divided g1 vol1 FRho (run c g1 s2 2 FRho (zeroed FRho A2)) Rho 0%nat 1 0 <>
  deposit c (mode_grid g1 vol1 0) Rho 0 1 (map cpu_of [wsp true s2]) None 1 0.
Proof.
  intros H0 Hs H2 Epre. set (g := wg 0). set (vol := vol1).
  assert (Hg : Deposit_Spec.grid_ok g) by apply wg_ok.
  pose proof (rest_near 0 s0 H0 ltac:(lra)) as Hnear.
  assert (Hsz : sizes_ok (sgrid_of g) s0) by (unfold sizes_ok, ncells; rewrite (proj1 H0); cbn; lia).
  assert (Hrest : at_rest s') by (apply (rest_sorted g s0 s' Hg); [unfold ncells; cbn; lia|exact Hnear|exact H0|exact Hs]).
  destruct (prefix_facts g _ _ Hg Hsz Hnear Hs) as (EN & F1 & F2 & F3). rewrite (proj1 H0) in EN.
  assert (EP : gptcl_at false s' 0 = gptcl_at false (ws 3) 0) by apply Hrest.
  set (A3 := divided g1 vol FRho (run c g1 s2 2 FRho (zeroed FRho A2))).
  assert (Hok1 : gsp_ok g1 (wsp true s2)).
  { assert (X : gsp_ok (wg 1) (wsp true s2)) by (apply wsp_ok; [apply H2|apply H2|rewrite (rest_z s2 H2); lra]).
    destruct X as (X1 & X2 & X3 & X4). split; [exact X1|]. split; [exact X2|]. split; [exact X3|].
    eapply Forall_impl; [|exact X4]. intros p. unfold in_grid. cbn. intros; lra. }
  (* GPU: nothing in row 1 *)
  assert (G : A3 Rho 0%nat 1 0 = RtoC 0).
  { unfold A3, divided, run, zeroed. cbn [deposited]. unfold divide_by_volume.
    rewrite add_value. rewrite (lsum_zero (fun w => if (1 =? fst (fst w)) && (0 =? snd (fst w)) then snd w else RtoC 0)); [unfold zero2; ring|].
    intros w Hw. destruct (Z.eqb_spec 1 (fst (fst w))) as [E|]; [exfalso|reflexivity].
    apply in_flat_map in Hw as [i [Hi Hw]]. unfold deposit_thread in Hw.
    destruct (Z.ltb_spec i (g_Nz g1 * (g_Nr g1 + 1))) as [Hi2|]; [|destruct Hw]. cbn in Hi2.
    assert (Hi0 : 0 <= i).
    { destruct (cuda_tpb_bpg_1d (g_Nz g1 * (g_Nr g1 + 1)) (deposit_tpb false Linear)) as [bb tt] eqn:Eb.
      destruct (bpg_covers (g_Nz g1 * (g_Nr g1 + 1)) (deposit_tpb false Linear)) as [B1 _]; [cbn; lia..|].
      rewrite Eb in B1. cbn [fst] in B1. assert (tt = 8) as -> by (unfold cuda_tpb_bpg_1d in Eb; cbn in Eb; congruence).
      rewrite threads_range in Hi by lia. apply in_range in Hi. lia. }
    assert (Hi3 : 0 <= i < ncells (sgrid_of g1)) by (unfold ncells; cbn; lia).
    rewrite (iz_upper_div g1 i Hi3) in Hw by (unfold ncells; cbn; lia).
    rewrite Epre in Hw. cbv zeta in Hw.
    destruct (F1 i Hi3) as [[P0 P1] P2]. rewrite EN in P2.
    rewrite (int32_id (s_prefix s' i)) in Hw by lia.
    assert (Efr : (if i =? 0 then int32 (s_prefix s' i) else int32 (s_prefix s' i - s_prefix s' (i - 1))) = s_prefix s' i - prev (s_prefix s') i).
    { unfold prev in *. destruct (Z.eqb_spec i 0); rewrite int32_id by lia; lia. }
    rewrite Efr in Hw. destruct (Z.gtb_spec (s_prefix s' i - prev (s_prefix s') i) 0) as [Hpos|]; [|destruct Hw].
    assert (Ec : cell (sgrid_of g) s' 0 = i) by (apply F3; [exact Hi3|lia]).
    unfold cell in Ec.
    destruct (cell_points g Hg (gptcl_at false s' 0)) as [C1 _].
    { rewrite EP. unfold in_grid. cbn. lra. }
    cbn [gptcl_at p_x p_y p_z] in C1. rewrite Ec in C1.
    assert (Zu : zup g (gptcl_at false s' 0) = 3).
    { rewrite EP. unfold zup. assert (Zceil (z_cell g (gptcl_at false (ws 3) 0)) = 3) as ->; [|reflexivity].
      apply Zceil_val. unfold z_cell. cbn. lra. }
    rewrite Zu in C1. change (g_Nr g1) with 4 in Hw. change (g_Nr g) with 4 in C1. change (4 + 1) with 5 in C1, Hw. rewrite C1 in Hw.
    apply in_flat_map in Hw as [b [Hb2 Hw]]. apply in_flat_map in Hw as [a [Ha Hw]]. cbn [In] in Hw.
    destruct Hw as [Hw|[]]. rewrite <- Hw in E. cbn [fst] in E. apply in_range in Hb2. cbn [npts] in Hb2.
    unfold gpu_iz in E. change (g_Nz g1) with 8 in E.
    assert (b = 0 \/ b = 1) as [Eb|Eb] by lia; subst b; cbn in E; lia. }
  rewrite G. intros X. symmetry in X. revert X.
  rewrite (deposit_cell c (mode_grid g1 vol 0) Rho 0 1 _ None 1 0).
  2:{ unfold Deposit_Spec.grid_ok; cbn. repeat split; try lra; try lia. intros. unfold vol, vol1. lra. }
  2:{ split; [lia|]. cbn [map depositing filter cpu_of sp_tracer wsp gs_tracer negb sp_ptcl gs_arr].
      constructor; [|constructor]. cbn [cpu_of wsp sp_ptcl gs_arr]. rewrite map_length, length_range. rewrite (proj1 H2). change (2 ^ 53) with 9007199254740992. lia. }
  2:{ cbn [map depositing filter cpu_of sp_tracer wsp gs_tracer negb].
      constructor; [|constructor]. apply Hok1. }
  2,3: cbn; lia.
  cbn [map depositing filter cpu_of sp_tracer wsp gs_tracer gs_q negb sp_q].
  destruct (Req_EM_T 1 0) as [E|_]; [lra|]. rewrite lsum_cons, lsum_nil.
  cbn [cpu_of wsp sp_ptcl gs_ionizable gs_arr]. rewrite (proj1 H2).
  change (range 1) with [0]. cbn [map]. rewrite lsum_cons, lsum_nil.
  assert (EP1 : gptcl_at false s2 0 = gptcl_at false (ws 3) 0) by apply H2.
  rewrite EP1. unfold contrib, pair_with, contributions. cbn [cpu_of  sp_shape sp_q sp_ionizable gs_shape wsp gs_q gs_ionizable].
  set (p := gptcl_at false (ws 3) 0).
  assert (Zc : Zceil (z_cell (mode_grid g1 vol 0) p) = 2) by (apply Zceil_val; unfold z_cell; cbn; lra).
  assert (Rj : rj p = 0%R). { unfold rj. cbn. replace (0 * (0 * 1) + 0 * (0 * 1))%R with 0%R by ring. apply sqrt_0. }
  assert (Rc : r_cell (mode_grid g1 vol 0) p = (- (1 / 2))%R) by (unfold r_cell; rewrite Rj; cbn; lra).
  assert (Rcc : Zceil (- (1 / 2))%R = 0) by (apply Zceil_val; lra).
  assert (Zcv : z_cell (mode_grid g1 vol 0) p = (3 / 2)%R) by (unfold z_cell; cbn; lra).
  cbn [npts]. change (range 2) with [0; 1]. cbn [flat_map map app]. rewrite !lsum_cons, lsum_nil. cbn [fst snd iz_cell ir_cell Sz Sr].
  rewrite Zc, Rc, Rcc. change (Z.min (0 + 1) (g_Nr (mode_grid g1 vol 0) + 2)) with 1.
  change (g_Nz (mode_grid g1 vol 0)) with 8. change (g_Nr (mode_grid g1 vol 0)) with 4.
  change (delta 1 0 (fz 8 (2 + 1 + 0)) (fr 4 (1 + 0))) with (RtoC 1).
  change (delta 1 0 (fz 8 (2 + 1 + 0)) (fr 4 (1 + 1))) with (RtoC 1).
  change (delta 1 0 (fz 8 (2 + 1 + 1)) (fr 4 (1 + 0))) with (RtoC 0).
  change (delta 1 0 (fz 8 (2 + 1 + 1)) (fr 4 (1 + 1))) with (RtoC 0).
  rewrite Zcv. unfold Sz_linear, Sr_linear. rewrite Rcc.
  assert (Zc2 : Zceil (3 / 2) = 2) by (apply Zceil_val; lra). rewrite Zc2.
  cbn [Z.eqb Z.ltb Z.add Z.sub Z.opp Z.pos_sub Z.compare Pos.add].
  intros X. apply (f_equal fst) in X. revert X. cbn. unfold vol, vol1. lra.
Qed.
Definition kk (wrap window : bool) (period : Z) : loop_cfg :=
  {| l_c := 1; l_dt := 1; l_vcom := 0; l_v100 := false; l_Nm := 2; l_vol := vol1; l_wrap := wrap; l_window := window;
     l_galilean := false; l_cross := false; l_period := period; l_move_positions := true; l_correct_currents := true |}%R.
Definition fine (g : grid) : Prop := geometry (wg 0) g /\ (g_zmin g <= 3 < g_zmin g + 8)%R.
Lemma fine_grid g : fine g -> Deposit_Spec.grid_ok g.
Proof. intros [(E1 & E2 & E3 & E4 & E5 & E6) _]. unfold Deposit_Spec.grid_ok. rewrite E1, E2, E3, E4, E5. cbn. repeat split; try lra; try lia. intros; lra. Qed.
Lemma fine_near g s : fine g -> at_rest s -> near_box (sgrid_of g) s.
Proof.
  intros [(E1 & E2 & E3 & E4 & E5 & E6) Hz] H j Hj. destruct H as (HN & H). assert (j = 0) by lia. subst j.
  rewrite (rest_z s (conj HN H)). cbn. rewrite E1, E2. cbn. lra.
Qed.
Lemma fine_ncells g : fine g -> ncells (sgrid_of g) = 40.
Proof. intros [(E1 & E2 & E3 & E4 & E5 & E6) _]. unfold ncells. cbn. rewrite E2, E4. reflexivity. Qed.
Lemma fine_ok g b s : fine g -> at_rest s -> gsp_ok g (wsp b s).
Proof.
  intros Hf H. pose proof (wsp_ok (g_zmin g) s b (proj1 H) (proj1 (proj2 H))) as X. rewrite (rest_z s H) in X. destruct Hf as [Hgeo Hz].
  destruct X as (X1 & X2 & X3 & X4); [lra|]. split; [exact X1|]. split; [exact X2|]. split; [rewrite (fine_ncells g (conj Hgeo Hz)); lia|].
  eapply Forall_impl; [|exact X4]. intros p. unfold in_grid. cbn. destruct Hgeo as (E1 & E2 & _). rewrite E1, E2. cbn. intros; lra.
Qed.
Lemma push_rest k f x y z b s : at_rest s -> exists s', push_x (l_c k) (f * l_dt k) x y z (wsp b s) = wsp false s' /\ at_rest s'.
Proof.
  intros (HN & Hl & Hp). eexists. split; [reflexivity|]. split; [exact HN|]. split; [exact Hl|].
  assert (E0 : attr 0 s 0 = 0%R) by exact (f_equal p_ux Hp). assert (E1 : attr 1 s 0 = 0%R) by exact (f_equal p_uy Hp).
  assert (E2 : attr 2 s 0 = 0%R) by exact (f_equal p_uz Hp).
  rewrite <- Hp. unfold gptcl_at. cbn [with_xyz s_x s_y s_z s_fl gs_arr wsp s_N]. unfold each. rewrite HN. cbn [Z.leb Z.ltb Z.compare andb].
  f_equal; try reflexivity; rewrite ?E0, ?E1, ?E2; ring.
Qed.
Definition tidy (st : pic) : Prop := fine (st_g st) /\ exists b s, st_sp st = [wsp b s] /\ at_rest s.
Lemma deposit_run k ft g b s A : l_c k = 1%R -> l_v100 k = false -> l_vol k = vol1 -> l_Nm k = 2%nat -> fine g -> at_rest s ->
  exists s', (if b : bool then s' = s else sort_particles (sgrid_of g) s s') /\ at_rest s' /\
    exec k (ODeposit ft) {| st_g := g; st_sp := [wsp b s]; st_A := A |}
      [{| e_diag := false; e_g := g; e_ft := ft; e_sp := [wsp b s]; e_A := A; e_A' := divided g vol1 ft (run 1 g s' 2 ft (zeroed ft A)) |}]
      {| st_g := g; st_sp := [wsp true s']; st_A := divided g vol1 ft (run 1 g s' 2 ft (zeroed ft A)) |}.
Proof.
  intros Ec Ev El En Hf Hr.
  assert (X : exists s', (if b : bool then s' = s else sort_particles (sgrid_of g) s s') /\ at_rest s').
  { destruct b; [exists s; auto|]. destruct (one_sorted (sgrid_of g) s (proj1 Hr)) as [s' Hs]. exists s'. split; [exact Hs|].
    apply (rest_sorted g s s'); [apply fine_grid, Hf|rewrite fine_ncells by exact Hf; lia|apply fine_near; assumption|exact Hr|exact Hs]. }
  destruct X as (s' & Hs & Hr'). exists s'. split; [exact Hs|]. split; [exact Hr'|]. cbn [exec st_g st_sp st_A]. rewrite Ec, Ev, El, En.
  exists [wsp true s']. split; [apply run_sim; exact Hs|]. repeat split.
Qed.
Lemma wrap_rest g s : fine g -> at_rest s -> wrapped g (wsp true s) (wsp true (with_xyz s (s_x s) (s_y s) (s_z s))) /\
  wrapped g (wsp false s) (wsp false (with_xyz s (s_x s) (s_y s) (s_z s))).
Proof.
  intros [(E1 & E2 & _) Hz] H.
  assert (X : forall i, if (0 <=? i) && (i <? s_N s) then exists fuel, wrap1 R Rge_b Rlt_b Rminus Rplus fuel (g_zmin g) (g_zmin g + IZR (g_Nz g) * g_dz g)%R (s_z s i) = Some (s_z s i) else s_z s i = s_z s i).
  { intros i. destruct ((0 <=? i) && (i <? s_N s)) eqn:E; [|reflexivity]. apply andb_prop in E as [Ea Eb].
    apply Z.leb_le in Ea. apply Z.ltb_lt in Eb. rewrite (proj1 H) in Eb. assert (i = 0) by lia. subst i. rewrite (rest_z s H), E1, E2.
    exists 1%nat. unfold wrap1. cbn [while_down while_up]. unfold Rge_b, Rlt_b.
    destruct (Rle_dec _ _) as [B|_]; [cbn in B; lra|]. destruct (Rlt_dec _ _) as [B|_]; [lra|reflexivity]. }
  split; exists (s_z s); split; try reflexivity; exact X.
Qed.
Lemma rest_xyz s : at_rest s -> at_rest (with_xyz s (s_x s) (s_y s) (s_z s)).
Proof. intros H. exact H. Qed.

Lemma op_runs w v p o st : tidy st -> match o with OGalilean _ => False | _ => True end ->
  exists tr st', exec (kk w v p) o st tr st' /\ Forall fits tr /\ tidy st'.
Proof.
  intros (Hf & b & s & Es & Hr) Ho. destruct st as [g l A]. cbn [st_g st_sp] in *. subst l. destruct o.
  - destruct w.
    + exists [], {| st_g := g; st_sp := [wsp b (with_xyz s (s_x s) (s_y s) (s_z s))]; st_A := A |}. split; [|split; [constructor|]].
      * split; [reflexivity|]. split; [reflexivity|]. split; [reflexivity|]. cbn [l_wrap kk st_sp st_g]. constructor; [|constructor].
        destruct (wrap_rest g s Hf Hr). destruct b; assumption.
      * split; [exact Hf|]. exists b, (with_xyz s (s_x s) (s_y s) (s_z s)). split; [reflexivity|exact Hr].
    + exists [], {| st_g := g; st_sp := [wsp false s]; st_A := A |}. split; [|split; [constructor|]].
      * split; [reflexivity|]. split; [reflexivity|]. split; [reflexivity|]. cbn [l_wrap kk st_sp st_g]. constructor; [|constructor].
        exists s. reflexivity.
      * split; [exact Hf|]. exists false, s. split; [reflexivity|exact Hr].
  - destruct (deposit_run (kk w v p) ft g b s A eq_refl eq_refl eq_refl eq_refl Hf Hr) as (s' & _ & Hr' & He).
    eexists _, _. split; [exact He|]. split.
    + constructor; [|constructor]. unfold fits. cbn [e_g e_sp]. constructor; [apply fine_ok; assumption|constructor].
    + split; [exact Hf|]. exists true, s'. split; [reflexivity|exact Hr'].
  - exists [], {| st_g := g; st_sp := [wsp b {| s_N := s_N s; s_x := s_x s; s_y := s_y s; s_z := s_z s; s_fl := s_fl s; s_int := s_int s;
         s_cell := s_cell s; s_sidx := s_sidx s; s_prefix := s_prefix s; s_shift := s_shift s; s_buf := s_buf s; s_ibuf := s_ibuf s |}]; st_A := A |}.
    split; [|split; [constructor|]].
    + repeat split. constructor; [|constructor]. exists (s_fl s), (s_int s). split; reflexivity.
    + split; [exact Hf|]. eexists b, _. split; [reflexivity|exact Hr].
  - exists [], {| st_g := g; st_sp := [wsp b s]; st_A := A |}. split; [constructor|]. split; [constructor|]. split; [exact Hf|]. exists b, s. auto.
  - destruct (push_rest (kk w v p) fraction x_push y_push z_push b s Hr) as (s' & E & Hr').
    exists [], {| st_g := g; st_sp := [wsp false s']; st_A := A |}. split; [|split; [constructor|]].
    + repeat split. cbn [st_sp map]. f_equal. symmetry. exact E.
    + split; [exact Hf|]. exists false, s'. auto.
  - destruct Ho.
  - exists [], {| st_g := g; st_sp := [wsp false s]; st_A := A |}. split; [|split; [constructor|]].
    + repeat split. constructor; [|constructor]. right. exists s. reflexivity.
    + split; [exact Hf|]. exists false, s. auto.
  - exists [], {| st_g := grid_moved 0 g; st_sp := [wsp b (grids_moved 0 s)]; st_A := A |}. split; [|split; [constructor|]].
    + exists 0. repeat split.
    + split; [|exists b, (grids_moved 0 s); split; [reflexivity|exact Hr]].
      destruct Hf as [Hg Hz]. split; [exact Hg|]. cbn. lra.
Qed.
Lemma ops_run w v p ops : Forall (fun o => match o with OGalilean _ => False | _ => True end) ops -> forall st, tidy st ->
  exists tr st', execs (kk w v p) ops st tr st' /\ Forall fits tr /\ tidy st'.
Proof.
  induction 1 as [|o ops Ho _ IH]; intros st Ht; [exists [], st; split; [constructor|split; [constructor|exact Ht]]|].
  destruct (op_runs w v p o st Ht Ho) as (t1 & s1 & E1 & F1 & T1). destruct (IH s1 T1) as (t2 & s2 & E2 & F2 & T2).
  exists (t1 ++ t2), s2. split; [econstructor; eassumption|]. split; [apply Forall_app; split; assumption|exact T2].
Qed.
Lemma execs_join k a b st t1 s1 t2 st' : execs k a st t1 s1 -> execs k b s1 t2 st' -> execs k (a ++ b) st (t1 ++ t2) st'.
Proof. induction 1; [auto|]. intros H2. cbn [app]. rewrite <- app_assoc. econstructor; [eassumption|auto]. Qed.

Definition st0 : pic := {| st_g := wg 0; st_sp := [wsp false (ws 3)]; st_A := fun _ _ => zero2 |}.
Lemma st0_tidy : tidy st0.
Proof. split; [split; [repeat split|cbn; lra]|]. exists false, (ws 3). split; [reflexivity|]. repeat split. Qed.
Lemma st0_grids w v p : grids_ok (kk w v p) (st_g st0).
Proof.
  split; [cbn; lia|]. split; [intros sh m x _; reflexivity|]. intros m Hm. unfold Deposit_Spec.grid_ok; cbn. repeat split; try lra; try lia.
  intros. unfold vol1. lra.
Qed.

(** Up to the last deposition of the first iteration, its last deposition and the move of the window. *)
Definition first_ops : list op :=
  [OExchange; ODeposit FRho; ODeposit FJ; OAttributes; ODiags; OAttributes; OPushX (/2)%R 1%R 1%R 1%R; OProcesses; ODeposit FJ].
Lemma fine0_kept w v p ops : Forall (fun o => match o with OGalilean _ | OWindow => False | _ => True end) ops -> forall st tr st',
  execs (kk w v p) ops st tr st' -> st_g st' = st_g st.
Proof.
  induction 1 as [|o ops Ho _ IH]; intros st tr st' H; inversion H as [|? ? ? t1 s1 t2 ? H1 H2]; subst; [reflexivity|].
  rewrite (IH _ _ _ H2). destruct o; cbn [exec] in H1; try (destruct Ho; fail); try (destruct H1 as (_ & -> & _); reflexivity).
  - destruct H1 as (? & _ & -> & _). reflexivity.
  - clear -H1. induction H1; auto.
Qed.
Lemma after_first w p : exists tr A s0 s', execs (kk w true p) (first_ops ++ [OPushX (/2)%R 1%R 1%R 1%R; ODeposit FRho; OWindow]) st0 tr
    {| st_g := g1; st_sp := [wsp true (grids_moved 1 s')]; st_A := A |} /\ Forall fits tr /\
  at_rest s0 /\ sort_particles (sgrid_of (wg 0)) s0 s' /\ at_rest s'.
Proof.
  destruct (ops_run w true p first_ops ltac:(repeat constructor) st0 st0_tidy) as (t1 & s1 & E1 & F1 & (Hf & b & s & Es & Hr)).
  assert (Eg : st_g s1 = wg 0) by (apply (fine0_kept w true p first_ops ltac:(repeat constructor) st0 t1 s1 E1)).
  destruct s1 as [g l A]. cbn [st_g st_sp] in *. subst g l.
  destruct (push_rest (kk w true p) (/2) 1 1 1 b s Hr) as (s0 & Ep & Hr0).
  destruct (deposit_run (kk w true p) FRho (wg 0) false s0 A eq_refl eq_refl eq_refl eq_refl Hf Hr0) as (s' & Hs & Hr' & He).
  eexists _, _, s0, s'. split; [|split; [|split; [exact Hr0|split; [exact Hs|exact Hr']]]].
  - eapply execs_join; [exact E1|]. econstructor.
    { cbn [exec st_g st_sp st_A]. instantiate (1 := {| st_g := wg 0; st_sp := [wsp false s0]; st_A := A |}). instantiate (1 := []).
      repeat split. cbn [st_sp map]. f_equal. symmetry. exact Ep. }
    econstructor; [exact He|]. econstructor; [|constructor].
    exists 1. split; [reflexivity|]. repeat split.
  - apply Forall_app. split; [exact F1|]. cbn [app]. constructor; [|constructor].
    unfold fits. cbn [e_g e_sp]. constructor; [apply fine_ok; assumption|constructor].
Qed.
Lemma g1_fine : fine g1.
Proof. split; [repeat split|cbn; lra]. Qed.

(** The charge density of a species, written by a diagnostic. *)
Lemma density_wrong : exists k st tr st', l_move_positions k = true /\ l_wrap k = false /\ grids_ok k (st_g st) /\
  Forall created (st_sp st) /\ execs k (calls_ops k 0 [2]) st tr st' /\ Forall fits tr /\
  exists e, In e tr /\ e_diag e = true /\ ~ as_on_cpu k e.
Proof.
  destruct (after_first false 2) as (tr & A & s0 & s' & E & F & H0 & Hs & Hr').
  set (k := kk false true 2).
  set (b3 := {| s_N := s_N (grids_moved 1 s'); s_x := s_x (grids_moved 1 s'); s_y := s_y (grids_moved 1 s'); s_z := s_z (grids_moved 1 s');
                s_fl := s_fl (grids_moved 1 s'); s_int := s_int (grids_moved 1 s'); s_cell := s_cell (grids_moved 1 s');
                s_sidx := s_sidx (grids_moved 1 s'); s_prefix := s_prefix (grids_moved 1 s'); s_shift := s_shift (grids_moved 1 s');
                s_buf := s_buf (grids_moved 1 s'); s_ibuf := s_ibuf (grids_moved 1 s') |}).
  assert (Hr3 : at_rest b3) by exact Hr'.
  set (A' := divided g1 vol1 FRho (run 1 g1 b3 2 FRho (zeroed FRho A))).
  set (ev := {| e_diag := true; e_g := g1; e_ft := FRho; e_sp := [untracer (wsp true b3)]; e_A := A; e_A' := A' |}).
  assert (Hdep : gpu_deposit 1 false g1 vol1 2 FRho [untracer (wsp true b3)] [untracer (wsp true b3)] A A') by (exact (run_sim 1 g1 vol1 b3 2 FRho true b3 A eq_refl)).
  destruct (ops_run false true 2 (OAttributes :: rest_of k) ltac:(repeat constructor) {| st_g := g1; st_sp := [wsp true b3]; st_A := A' |}) as (t2 & s2 & E2 & F2 & T2).
  { split; [exact g1_fine|]. exists true, b3. auto. }
  exists k, st0, (tr ++ ev :: t2), s2. split; [reflexivity|]. split; [reflexivity|]. split; [apply st0_grids|].
  split; [constructor; [reflexivity|constructor]|]. split; [|split].
  - change (calls_ops k 0 [2]) with ((first_ops ++ [OPushX (/2)%R 1%R 1%R 1%R; ODeposit FRho; OWindow]) ++ (OAttributes :: ODiags :: (OAttributes :: rest_of k))).
    eapply execs_join; [exact E|]. change (ev :: t2) with ([] ++ ([ev] ++ t2)). econstructor.
    { cbn [exec st_g st_sp st_A]. instantiate (1 := {| st_g := g1; st_sp := [wsp true b3]; st_A := A |}).
      repeat split. constructor; [|constructor]. exists (s_fl b3), (s_int b3). split; reflexivity. }
    econstructor; [|exact E2].
    cbn [exec]. exact (dg_density k {| st_g := g1; st_sp := [wsp true b3]; st_A := A |} [] (wsp true b3) [] (wsp true b3) A' _ [] eq_refl Hdep eq_refl (dg_nil k _)).
  - apply Forall_app. split; [exact F|]. constructor; [|exact F2]. unfold fits, ev. cbn [e_g e_sp].
    constructor; [|constructor]. exact (fine_ok g1 true b3 g1_fine Hr3).
  - exists ev. split; [apply in_or_app; right; left; reflexivity|]. split; [reflexivity|]. intros H.
    specialize (H 1 Rho 0%nat 1 0 ltac:(lia) ltac:(cbn; lia) ltac:(cbn; lia) ltac:(cbn; lia)).
    exact (stale 1 s0 s' b3 A H0 Hs Hr3 eq_refl H).
Qed.

(** A moving window without guard cells. *)
Lemma open_wrong : exists k st tr st', l_move_positions k = true /\ l_wrap k = true /\ grids_ok k (st_g st) /\
  Forall created (st_sp st) /\ execs k (calls_ops k 0 [1; 1]) st tr st' /\ Forall fits tr /\
  exists e, In e tr /\ e_diag e = false /\ ~ as_on_cpu k e.
Proof.
  destruct (after_first true 1) as (tr & A & s0 & s' & E & F & H0 & Hs & Hr').
  set (k := kk true true 1).
  set (s1 := grids_moved 1 s') in *. set (b3 := with_xyz s1 (s_x s1) (s_y s1) (s_z s1)).
  assert (Hr1 : at_rest s1) by exact Hr'. assert (Hr3 : at_rest b3) by exact Hr'.
  destruct (deposit_run k FRho g1 true b3 A eq_refl eq_refl eq_refl eq_refl g1_fine Hr3) as (s3 & -> & _ & He).
  set (A' := divided g1 vol1 FRho (run 1 g1 b3 2 FRho (zeroed FRho A))) in *.
  set (ev := {| e_diag := false; e_g := g1; e_ft := FRho; e_sp := [wsp true b3]; e_A := A; e_A' := A' |}) in *.
  set (others := [ODeposit FJ; OAttributes; ODiags; OAttributes] ++ rest_of k).
  destruct (ops_run true true 1 others ltac:(repeat constructor) {| st_g := g1; st_sp := [wsp true b3]; st_A := A' |}) as (t2 & s2 & E2 & F2 & T2).
  { split; [exact g1_fine|]. exists true, b3. auto. }
  exists k, st0, (tr ++ ev :: t2), s2. split; [reflexivity|]. split; [reflexivity|]. split; [apply st0_grids|].
  split; [constructor; [reflexivity|constructor]|]. split; [|split].
  - change (calls_ops k 0 [1; 1]) with ((first_ops ++ [OPushX (/2)%R 1%R 1%R 1%R; ODeposit FRho; OWindow]) ++ (OExchange :: ODeposit FRho :: others)).
    eapply execs_join; [exact E|]. change (ev :: t2) with ([] ++ ([ev] ++ t2)). econstructor.
    { cbn [exec st_g st_sp st_A]. instantiate (1 := {| st_g := g1; st_sp := [wsp true b3]; st_A := A |}).
      repeat split. cbn [l_wrap k kk st_sp]. constructor; [|constructor]. exact (proj1 (wrap_rest g1 s1 g1_fine Hr1)). }
    econstructor; [exact He|exact E2].
  - apply Forall_app. split; [exact F|]. constructor; [|exact F2]. unfold fits, ev. cbn [e_g e_sp].
    constructor; [|constructor]. exact (fine_ok g1 true b3 g1_fine Hr3).
  - exists ev. split; [apply in_or_app; right; left; reflexivity|]. split; [reflexivity|]. intros H.
    specialize (H 1 Rho 0%nat 1 0 ltac:(lia) ltac:(cbn; lia) ltac:(cbn; lia) ltac:(cbn; lia)).
    exact (stale 1 s0 s' b3 A H0 Hs Hr3 eq_refl H).
Qed.

(** Runs of any length with depositions exist. *)
Lemma runs_exist w v Ns : exists tr st', execs (kk w v 1) (calls_ops (kk w v 1) 0 Ns) st0 tr st' /\ Forall fits tr.
Proof.
  assert (X : Forall (fun o => match o with OGalilean _ => False | _ => True end) (calls_ops (kk w v 1) 0 Ns)).
  { generalize 0 at 1 as it. induction Ns as [|N Ns IH]; intros it; [constructor|]. cbn [calls_ops]. apply Forall_app. split; [|apply IH].
    unfold step_ops. apply Forall_forall. intros o Ho. apply in_flat_map in Ho as [i [_ Ho]]. revert o Ho. apply Forall_forall.
    unfold iteration. cbn [l_galilean l_move_positions l_correct_currents l_cross l_window kk andb].
    destruct ((it + i) mod l_period (kk w v 1) =? 0), (i =? 0), v; cbn [orb app]; repeat constructor. }
  destruct (ops_run w v 1 _ X st0 st0_tidy) as (tr & st' & E & F & _). exists tr, st'. auto.
Qed.
