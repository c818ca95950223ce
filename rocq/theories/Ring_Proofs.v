(** Proofs of C101. *)
From Coq Require Import Reals Lra Lia String.
From Flocq Require Import Core.Core.
From Coquelicot Require Import Complex.
From Verif Require Import Base Decomp_Model Inject_Model Shape_Model Shape_Proofs Deposit_Model Deposit_Spec Deposit_Proofs GDeposit_Model GDeposit_Proofs Fourier_Lib Hankel_Proofs Ring_Model Ring_Spec.
Open Scope Z_scope.

(** The contribution of a particle as a factor that depends on r and z only, times its charge and
    phase. *)
Definition kern (g : grid) (sh : shape) (k : comp) (m : nat) (phi : Z -> Z -> C) (p : ptcl) : C :=
  lsum (fun a => lsum (fun b => Cmult (phi (iz_cell g sh p + a) (ir_cell g sh p + b))
     (RtoC (Sz sh (z_cell g p) a * Sr sh (r_cell g p) b (flip k m) (bn g sh m p))%R)) (range (npts sh))) (range (npts sh)).
Lemma contrib_kern c g k m sp p phi : pair_with phi (contrib c g k m sp p) =
  Cmult (kern g (sp_shape sp) k m phi p) (Cmult (RtoC (scal0 c k (sp_q sp * eff_weight (sp_ionizable sp) p) p)) (exptheta p m)).
Proof.
  unfold pair_with, contrib, contributions, kern. rewrite lsum_flat_map, <- lsum_scal_r. apply lsum_ext. intros a _.
  rewrite lsum_map, <- lsum_scal_r. apply lsum_ext. intros b _. cbn [fst snd]. rewrite exptheta_scal. ring.
Qed.
Lemma kern_same g sh k m phi p p' : rj p = rj p' -> p_z p = p_z p' -> kern g sh k m phi p = kern g sh k m phi p'.
Proof.
  intros Er Ez. assert (R : r_cell g p = r_cell g p') by (unfold r_cell; now rewrite Er).
  assert (X : z_cell g p = z_cell g p') by (unfold z_cell; now rewrite Ez).
  unfold kern, iz_cell, ir_cell, bn. rewrite R, X. reflexivity.
Qed.

Section Polar.
Variables (p : ptcl) (r th : R).
Hypotheses (Hr : (0 < r)%R) (Hx : p_x p = (r * cos th)%R) (Hy : p_y p = (r * sin th)%R).
Lemma rj_polar : rj p = r.
Proof.
  unfold rj. rewrite Hx, Hy. replace ((r * cos th) ^ 2 + (r * sin th) ^ 2)%R with (r * r)%R.
  - apply sqrt_square. lra.
  - pose proof (sin2_cos2 th) as H. unfold Rsqr in H. 
    replace ((r * cos th) ^ 2 + (r * sin th) ^ 2)%R with (r * r * (sin th * sin th + cos th * cos th))%R by ring. rewrite H. ring.
Qed.
Lemma phase_polar m : exptheta p m = cis (th * INR m).
Proof.
  assert (E : (cos_j p, sin_j p) = cis th).
  { unfold cos_j, sin_j, cis. rewrite rj_polar, Hx, Hy. destruct (Req_EM_T r 0) as [E|_]; [lra|]. f_equal; field; lra. }
  induction m as [|m IH]; cbn [exptheta]; [rewrite Rmult_0_r, cis_0; reflexivity|].
  rewrite IH, E, S_INR, Rmult_plus_distr_l, cis_add, Rmult_1_r. reflexivity.
Qed.
End Polar.

(** Evenly spaced phases cancel. *)
Lemma ring_sum (N m : nat) sh : (0 < N)%nat -> Z.of_nat m mod Z.of_nat N <> 0 ->
  lsum (fun k => cis ((2 * PI / IZR (Z.of_nat N) * IZR k + sh) * INR m)) (range (Z.of_nat N)) = RtoC 0.
Proof.
  intros HN Hm. rewrite lsum_csum.
  rewrite (csum_ext N _ (fun k => Cmult (cis (sh * INR m)) (cis (2 * PI * IZR (Z.of_nat m) * INR k / INR N)))).
  - rewrite csum_scal, orthogonality by exact HN. destruct (Z.eqb_spec (Z.of_nat m mod Z.of_nat N) 0); [tauto|]. ring.
  - intros k _. rewrite <- cis_add. f_equal. rewrite <- !INR_IZR_INZ. field. apply not_0_INR. lia.
Qed.

Lemma lsum_indexed {X Y} (f : Y -> C) (h : nat -> X -> Y) (F : X -> C) (l : list X) : (forall i p, f (h i p) = F p) -> forall n0,
  lsum f (map (fun ip => h (fst ip) (snd ip)) (combine (seq n0 (length l)) l)) = lsum F l.
Proof.
  intros H. induction l as [|x l IH]; intros n0; [reflexivity|]. cbn [length seq combine map fst snd]. rewrite !lsum_cons, H, IH. reflexivity.
Qed.

(** What a particle gives does not depend on its number. *)
Lemma scal0_index c k u nx ny nz level i p wj : same_velocity k u ->
  scal0 c k wj (loaded_ptcl u nx ny nz level i p) = 
  match k with Rho => wj | Jz => wj * c * (1 / sqrt (1 + ux_m u ^ 2 + uy_m u ^ 2 + uz_m u ^ 2)) * uz_m u | _ => 0 end%R.
Proof.
  intros H. destruct k; cbn [same_velocity] in H; unfold scal0; [reflexivity| | |]; unfold loaded_ptcl; cbn [p_ux p_uy p_uz p_ig].
  - destruct H as [(E1 & E2 & E3) (E4 & E5)]. rewrite E1, E2, E4, E5. ring.
  - destruct H as [(E1 & E2 & E3) (E4 & E5)]. rewrite E1, E2, E4, E5. ring.
  - destruct H as (E1 & E2 & E3). rewrite E1, E2, E3. rewrite !Rmult_0_l, !Rplus_0_r, !Rmult_1_r. reflexivity.
Qed.

Lemma filter_same {X} (f : X -> bool) b l : (forall x, In x l -> f x = b) -> filter f l = if b then l else [].
Proof.
  intros H. induction l as [|x l IH]; cbn; [now destruct b|]. rewrite (H x (or_introl eq_refl)). rewrite IH by (intros; apply H; now right). now destruct b.
Qed.
Lemma filter_flat_map {X Y} (f : X -> list Y) P l : filter P (flat_map f l) = flat_map (fun x => filter P (f x)) l.
Proof. induction l as [|x l IH]; cbn; [reflexivity|]. now rewrite filter_app, IH. Qed.

Lemma species_modes c g k m Nptheta u sp phi : (1 <= m)%nat -> Z.of_nat m mod Nptheta <> 0 -> same_velocity k u -> loaded_with Nptheta u sp ->
  lsum (fun p => pair_with phi (contrib c g k m sp p)) (sp_ptcl sp) = RtoC 0.
Proof.
  intros Hm Hdiv Hk (Npz & zmin & zmax & Npr & rmin & rmax & n & d & rand & nx & ny & nz & level & Hr & Hd & HL).
  unfold generate in HL. cbn [unalign_angles String.eqb bind] in HL.
  change (bind (unalign_angles "random" rand) ?f) with (f (fun iz ir => 2 * PI * rand iz ir)%R) in HL.
  cbv beta in HL. injection HL as HL. rewrite <- HL. clear HL.
  set (ang := fun iz ir : Z => (2 * PI * rand iz ir)%R).
  set (Q := match k with Rho => 1 | Jz => c * (1 / sqrt (1 + ux_m u ^ 2 + uy_m u ^ 2 + uz_m u ^ 2)) * uz_m u | _ => 0 end%R).
  set (F := fun q : mp => pair_with phi (contrib c g k m sp (loaded_ptcl u nx ny nz level 0 q))).
  rewrite (lsum_indexed _ (loaded_ptcl u nx ny nz level) F).
  2:{ intros i q. unfold F. rewrite !contrib_kern. apply f_equal2; [now apply kern_same|]. apply f_equal2.
      - rewrite !scal0_index by exact Hk. reflexivity.
      - clear. induction m as [|m IH]; cbn [exptheta]; [reflexivity|]. now rewrite IH. }
  unfold generate_evenly_spaced. destruct (0 <? Npz * Npr * Nptheta) eqn:EN; [|reflexivity]. apply Z.ltb_lt in EN. cbv zeta.
  rewrite filter_flat_map, lsum_flat_map. apply lsum_zero. intros i Hi. apply in_range in Hi.
  rewrite filter_flat_map, lsum_flat_map. apply lsum_zero. intros j Hj. apply in_range in Hj.
  assert (HN : 0 < Nptheta).
  { assert (0 < Npz * Npr) by (apply Z.mul_pos_pos; lia). apply (Z.mul_pos_cancel_l (Npz * Npr)); assumption. }
  set (dz := ((zmax - zmin) * 1 / IZR Npz)%R). set (dr := ((rmax - rmin) * 1 / IZR Npr)%R).
  set (z := (zmin + dz * (IZR i + 0.5))%R). set (r := (rmin + dr * (IZR j + 0.5))%R).
  set (dth := (2 * PI / IZR Nptheta)%R).
  set (W := (n * r * dth * dr * dz * dens_at d z r 0)%R).
  set (mk := fun k0 : Z => {| m_z := z; m_r := r; m_th := (dth * IZR k0 + ang i j)%R; m_w := W |}).
  rewrite (map_ext _ mk).
  2:{ intros k0. unfold mk, W. f_equal. destruct d; [reflexivity|reflexivity|destruct Hd]. }
  rewrite (filter_same keep (if Rlt_dec 0 W then true else false)).
  2:{ intros x Hx. apply in_map_iff in Hx. destruct Hx as [k0 [<- _]]. reflexivity. }
  destruct (Rlt_dec 0 W) as [HW|_]; [|reflexivity].
  assert (Hrp : (0 < r)%R).
  { assert (X : (0 <= r)%R).
    { unfold r, dr. assert (0 <= IZR j)%R by (apply (IZR_le 0); lia). assert (0 < IZR Npr)%R by (apply (IZR_lt 0); lia).
      assert (Y : (0 <= (rmax - rmin) * 1 / IZR Npr)%R) by (apply Rmult_le_pos; [lra|]; left; now apply Rinv_0_lt_compat).
      assert (0 <= (rmax - rmin) * 1 / IZR Npr * (IZR j + 0.5))%R by (apply Rmult_le_pos; [exact Y|lra]). lra. }
    destruct X as [X|X]; [exact X|]. exfalso. unfold W in HW. rewrite <- X in HW. lra. }
  rewrite lsum_map.
  set (p0 := loaded_ptcl u nx ny nz level 0 (mk 0)).
  rewrite (lsum_ext _ (fun k0 => Cmult (Cmult (kern g (sp_shape sp) k m phi p0) (RtoC (scal0 c k (sp_q sp * eff_weight (sp_ionizable sp) p0) p0)))
                         (cis ((dth * IZR k0 + ang i j) * INR m)))).
  - rewrite lsum_scal. unfold dth. rewrite <- (Z2Nat.id Nptheta) by lia.
    rewrite ring_sum; [ring|lia|]. rewrite Z2Nat.id by lia. exact Hdiv.
  - intros k0 _. unfold F. rewrite contrib_kern.
    set (pk := loaded_ptcl u nx ny nz level 0 (mk k0)).
    assert (Rk : rj pk = r) by (apply (rj_polar pk r (dth * IZR k0 + ang i j)%R Hrp); reflexivity).
    assert (R0 : rj p0 = r) by (apply (rj_polar p0 r (dth * IZR 0 + ang i j)%R Hrp); reflexivity).
    rewrite (kern_same g (sp_shape sp) k m phi pk p0) by (congruence || reflexivity).
    rewrite (phase_polar pk r (dth * IZR k0 + ang i j)%R Hrp eq_refl eq_refl m).
    assert (ES : scal0 c k (sp_q sp * eff_weight (sp_ionizable sp) pk) pk = scal0 c k (sp_q sp * eff_weight (sp_ionizable sp) p0) p0).
    { unfold pk, p0. rewrite !scal0_index by exact Hk. reflexivity. }
    rewrite ES. apply Cmult_assoc.
Qed.

Lemma modes_empty c g k m nthreads l iz ir : grid_ok g ->
  threads_ok nthreads (depositing l None) -> all_in_grid g (depositing l None) -> 0 <= iz < g_Nz g -> 0 <= ir < g_Nr g -> (1 <= m)%nat ->
  Forall (fun s => exists Nptheta u, loaded_with Nptheta u s /\ Z.of_nat m mod Nptheta <> 0 /\ same_velocity k u) (depositing l None) ->
  deposit c g k m nthreads l None iz ir = RtoC 0.
Proof.
  intros Hg Hth Hin Hz Hr Hm HF. rewrite deposit_cell by assumption.
  rewrite lsum_zero; [ring|]. intros sp Hsp. apply filter_In in Hsp. destruct Hsp as [Hsp _].
  rewrite Forall_forall in HF. destruct (HF sp Hsp) as (Np & u & HL & Hd & Hk). now apply (species_modes c g k m Np u).
Qed.
Lemma no_transverse c g k m nthreads l iz ir : grid_ok g ->
  threads_ok nthreads (depositing l None) -> all_in_grid g (depositing l None) -> 0 <= iz < g_Nz g -> 0 <= ir < g_Nr g -> k = Jr \/ k = Jt ->
  Forall (fun s => exists Nptheta u, loaded_with Nptheta u s /\ cold u /\ longitudinal u) (depositing l None) ->
  deposit c g k m nthreads l None iz ir = RtoC 0.
Proof.
  intros Hg Hth Hin Hz Hr Hk HF. rewrite deposit_cell by assumption.
  rewrite lsum_zero; [ring|]. intros sp Hsp. apply filter_In in Hsp. destruct Hsp as [Hsp _].
  rewrite Forall_forall in HF. destruct (HF sp Hsp) as (Np & u & HL & Hc & Hl).
  destruct HL as (Npz & zmin & zmax & Npr & rmin & rmax & n & d & rand & nx & ny & nz & level & _ & _ & HL).
  unfold generate in HL.
  change (bind (unalign_angles "random" rand) ?f) with (f (fun iz ir => 2 * PI * rand iz ir)%R) in HL. cbv beta zeta in HL. injection HL as HL.
  rewrite <- HL, lsum_map. apply lsum_zero. intros ip _. rewrite contrib_kern.
  assert (Hv : same_velocity k u) by (destruct Hk as [-> | ->]; split; assumption). rewrite scal0_index by exact Hv.
  destruct Hk as [-> | ->]; cbn; ring.
Qed.
Lemma mod_small m Nm Np : (1 <= m)%nat -> (m < Nm)%nat -> Z.of_nat Nm <= Np -> Z.of_nat m mod Np <> 0.
Proof. intros. rewrite Z.mod_small; lia. Qed.

(** Two particles per ring and mode 2: the total of the mode is not zero. *)
Lemma total_mode2 c g nthreads l : grid_ok g -> threads_ok nthreads (depositing l None) -> all_in_grid g (depositing l None) ->
  over_cells g (fun iz ir => Cmult (deposit c g Rho 2 nthreads l None iz ir) (RtoC (g_vol g ir))) =
  lsum (fun sp => lsum (fun p => Cmult (RtoC (sp_q sp * eff_weight (sp_ionizable sp) p)) (exptheta p 2)) (sp_ptcl sp))
       (filter (fun sp => if Req_EM_T (sp_q sp) 0 then false else true) (depositing l None)).
Proof.
  intros Hg Hth Hin. rewrite over_cells_eq.
  rewrite <- (lsum_ext (fun sp => lsum (fun p => pair_with (fun _ _ => RtoC 1) (contrib c g Rho 2 sp p)) (sp_ptcl sp))).
  - rewrite <- (deposit_pair c g Rho 2 Hg (fun _ _ => RtoC 1) nthreads _ Hth Hin). unfold grid_sum.
    apply lsum_ext. intros iz _. apply lsum_ext. intros ir Hir. apply in_range in Hir.
    unfold deposit, divide_by_volume. cbv zeta. fold (depositing l None).
    destruct Hg as (_ & _ & _ & _ & Hv). specialize (Hv ir Hir).
    rewrite <- Cmult_assoc, <- RtoC_mult. replace (1 / g_vol g ir * g_vol g ir)%R with 1%R by (field; exact Hv). ring.
  - intros sp _. apply lsum_ext. intros p _. rewrite contrib_kern. cbn [scal0].
    replace (kern g (sp_shape sp) Rho 2 (fun _ _ => RtoC 1) p) with (RtoC 1); [ring|].
    unfold kern. symmetry.
    rewrite (lsum_ext _ (fun a => RtoC (Sz (sp_shape sp) (z_cell g p) a))).
    + rewrite lsum_rsum, rsum_zsum, sz_sum. reflexivity.
    + intros a _. rewrite (lsum_ext _ (fun b => Cmult (RtoC (Sz (sp_shape sp) (z_cell g p) a)) (RtoC (Sr (sp_shape sp) (r_cell g p) b 1 (bn g (sp_shape sp) 2 p))))).
      * rewrite lsum_scal, lsum_rsum, rsum_zsum, sr_sum. ring.
      * intros b _. replace (flip Rho 2) with 1%R by (cbn; ring). rewrite RtoC_mult. ring.
Qed.
Definition u0 : momenta := {| ux_m := 0; uy_m := 0; uz_m := 0; ux_th := 0; uy_th := 0; uz_th := 0 |}%R.
Definition rg : grid :=
  {| g_dz := 1; g_zmin := 0; g_Nz := 2; g_dr := 1; g_Nr := 2; g_vol := fun _ => 1; g_beta := fun _ _ _ => 0 |}%R.
Definition rsp (Np : Z) : species :=
  {| sp_q := 1; sp_tracer := false; sp_ionizable := false; sp_shape := Linear;
     sp_ptcl := match generate 1 0 2 1 0 2 Np 1 NoDens u0 (fun _ _ => 0%R) (fun _ => 0%R) (fun _ => 0%R) (fun _ => 0%R) 0 with Ok l => l | Err _ => [] end |}%R.
Lemma rg_ok : grid_ok rg.
Proof. unfold grid_ok, rg; cbn. repeat split; try lra; try lia. intros _ _. lra. Qed.
Lemma rsp_loaded Np : loaded_with Np u0 (rsp Np).
Proof.
  exists 1, 0%R, 2%R, 1, 0%R, 2%R, 1%R, NoDens, (fun _ _ => 0%R), (fun _ => 0%R), (fun _ => 0%R), (fun _ => 0%R), 0%R.
  split; [lra|]. split; [exact I|]. reflexivity.
Qed.
Definition rmp (Np k : Z) : mp :=
  {| m_z := 1; m_r := 1; m_th := 2 * PI / IZR Np * IZR k; m_w := 2 * PI / IZR Np * 4 |}%R.
Lemma rsp_list Np : 1 <= Np -> generate_evenly_spaced 1 0 2 1 0 2 Np 1 NoDens (fun _ _ => 2 * PI * 0)%R = map (rmp Np) (range Np).
Proof.
  intros HN. unfold generate_evenly_spaced. destruct (0 <? 1 * 1 * Np) eqn:E; [|apply Z.ltb_ge in E; lia]. cbv zeta.
  change (range 1) with [0]. cbn [flat_map]. rewrite !app_nil_r.
  rewrite (map_ext _ (rmp Np)).
  2:{ intros k. unfold rmp. cbn [dens_at]. f_equal; cbn; lra. }
  rewrite (filter_same keep true); [reflexivity|]. intros x Hx. apply in_map_iff in Hx. destruct Hx as [k [<- _]].
  unfold keep. cbn [m_w rmp]. destruct (Rlt_dec 0 _) as [|H]; [reflexivity|]. exfalso. apply H.
  pose proof PI_RGT_0. assert (0 < IZR Np)%R by (apply (IZR_lt 0); lia).
  apply Rmult_lt_0_compat; [|lra]. apply Rmult_lt_0_compat; [lra|]. now apply Rinv_0_lt_compat.
Qed.
Lemma rsp_ptcls Np : 1 <= Np -> sp_ptcl (rsp Np) =
  map (fun ip => loaded_ptcl u0 (fun _ => 0%R) (fun _ => 0%R) (fun _ => 0%R) 0 (fst ip) (snd ip))
      (combine (seq 0 (length (map (rmp Np) (range Np)))) (map (rmp Np) (range Np))).
Proof.
  intros HN. cbn [rsp sp_ptcl]. unfold generate.
  change (bind (unalign_angles "random" (fun _ _ => 0%R)) ?f) with (f (fun _ _ => 2 * PI * 0)%R). cbv beta zeta iota. now rewrite rsp_list.
Qed.
Lemma rsp_in_grid Np : 1 <= Np -> all_in_grid rg (depositing [rsp Np] None).
Proof.
  intros HN. unfold depositing. cbn [filter rsp sp_tracer negb]. constructor; [|constructor]. fold (rsp Np). rewrite rsp_ptcls by exact HN.
  apply Forall_forall. intros p Hp. apply in_map_iff in Hp. destruct Hp as [[i q] [<- Hq]]. apply in_combine_r in Hq.
  apply in_map_iff in Hq. destruct Hq as [k [<- _]]. unfold in_grid, rg; cbn. lra.
Qed.
Lemma rsp_threads Np : 1 <= Np <= 8 -> threads_ok 1 (depositing [rsp Np] None).
Proof.
  intros HN. split; [lia|]. unfold depositing. cbn [filter rsp sp_tracer negb]. constructor; [|constructor]. fold (rsp Np). rewrite rsp_ptcls by lia.
  rewrite map_length, combine_length, seq_length, Nat.min_id, map_length, length_range. change (2 ^ 53) with 9007199254740992. lia.
Qed.
Lemma too_few c : exists g l, grid_ok g /\ threads_ok 1 (depositing l None) /\ all_in_grid g (depositing l None) /\
  Forall (fun s => exists u, loaded_with 2 u s /\ cold u /\ longitudinal u) (depositing l None) /\
  ~ (forall iz ir, 0 <= iz < g_Nz g -> 0 <= ir < g_Nr g -> deposit c g Rho 2 1 l None iz ir = RtoC 0).
Proof.
  exists rg, [rsp 2]. split; [exact rg_ok|]. split; [apply rsp_threads; lia|]. split; [apply rsp_in_grid; lia|]. split.
  - constructor; [|constructor]. exists u0. split; [apply rsp_loaded|]. unfold cold, longitudinal, u0; cbn; repeat split.
  - intros H. pose proof (total_mode2 c rg 1 [rsp 2] rg_ok (rsp_threads 2 ltac:(lia)) (rsp_in_grid 2 ltac:(lia))) as T.
    assert (Z0 : over_cells rg (fun iz ir => Cmult (deposit c rg Rho 2 1 [rsp 2] None iz ir) (RtoC (g_vol rg ir))) = RtoC 0).
    { unfold over_cells. apply lsum_zero. intros iz Hz. apply lsum_zero. intros ir Hr. apply in_range in Hz, Hr. rewrite H by assumption. ring. }
    rewrite Z0 in T. clear Z0 H. revert T.
    change (depositing [rsp 2] None) with [rsp 2]. cbn [filter]. change (sp_q (rsp 2)) with 1%R. destruct (Req_EM_T 1 0) as [E|_]; [lra|].
    rewrite lsum_cons, lsum_nil, rsp_ptcls by lia.
    rewrite (lsum_indexed _ (loaded_ptcl u0 (fun _ => 0%R) (fun _ => 0%R) (fun _ => 0%R) 0)
       (fun q => Cmult (RtoC (1 * m_w q)) (exptheta (loaded_ptcl u0 (fun _ => 0%R) (fun _ => 0%R) (fun _ => 0%R) 0 0 q) 2))) by reflexivity.
    rewrite lsum_map.
    rewrite (lsum_ext _ (fun _ => RtoC (PI * 4))).
    + change (range 2) with [0; 1]. rewrite !lsum_cons, lsum_nil. intros T. apply (f_equal fst) in T. cbn in T. pose proof PI_RGT_0. lra.
    + intros k _. rewrite (phase_polar _ 1 (m_th (rmp 2 k))); [|lra|reflexivity|reflexivity].
      replace (m_th (rmp 2 k) * INR 2)%R with (0 + 2 * PI * IZR k)%R by (cbn [m_th rmp INR]; field).
      rewrite cis_period, cis_0. cbn [m_w rmp]. replace (1 * (2 * PI / 2 * 4))%R with (PI * 4)%R by field. ring.
Qed.
Lemma ring_met : exists l, threads_ok 1 (depositing l None) /\ all_in_grid rg (depositing l None) /\
  Forall (fun s => exists Nptheta u, loaded_with Nptheta u s /\ Z.of_nat 2 mod Nptheta <> 0 /\ same_velocity Jr u) (depositing l None) /\
  exists s, depositing l None = [s] /\ length (sp_ptcl s) = 8%nat.
Proof.
  exists [rsp 8]. split; [apply rsp_threads; lia|]. split; [apply rsp_in_grid; lia|]. split.
  - constructor; [|constructor]. exists 8, u0. split; [apply rsp_loaded|]. split; [cbn; lia|]. unfold same_velocity, cold, longitudinal, u0; cbn; repeat split.
  - exists (rsp 8). split; [reflexivity|]. rewrite rsp_ptcls by lia. rewrite map_length, combine_length, seq_length, Nat.min_id, map_length. reflexivity.
Qed.
Lemma gpu_modes_empty v100 c g vol Nm ft l l' A A' :
  (forall m, (m < Nm)%nat -> Deposit_Spec.grid_ok (mode_grid g vol m)) -> GDeposit_Spec.beta_ok g ->
  Forall (GDeposit_Spec.gsp_ok g) l -> Forall (GDeposit_Spec.flag_ok g) l -> gpu_deposit c v100 g vol Nm ft l l' A A' ->
  forall k m iz ir, deposited ft k = true -> (1 <= m < Nm)%nat -> 0 <= iz < g_Nz g -> 0 <= ir < g_Nr g ->
  Forall (fun s => exists Nptheta u, loaded_with Nptheta u s /\ Z.of_nat m mod Nptheta <> 0 /\ same_velocity k u)
         (depositing (map GDeposit_Spec.cpu_of l) None) ->
  A' k m iz ir = RtoC 0.
Proof.
  intros Hg Hb Ho Hf H k m iz ir Hk Hm Hz Hr HF.
  rewrite (gpu_cpu_all v100 c g vol Nm ft l l' A A' 1 Hg Hb Ho Hf ltac:(lia) H k m iz ir ltac:(lia) Hz Hr), Hk.
  assert (Hs : forall x, In x (depositing (map GDeposit_Spec.cpu_of l) None) -> exists sp, In sp l /\ x = GDeposit_Spec.cpu_of sp).
  { intros x Hx. cbn [depositing] in Hx. apply filter_In in Hx. destruct Hx as [Hx _]. apply in_map_iff in Hx. destruct Hx as [sp [<- Hs]]. eauto. }
  apply modes_empty; try assumption; try lia; [apply Hg; lia| |].
  - split; [lia|]. apply Forall_forall. intros x Hx. destruct (Hs x Hx) as [sp [Hi ->]]. rewrite Forall_forall in Ho.
    destruct (Ho sp Hi) as (_ & X & _). cbn [GDeposit_Spec.cpu_of sp_ptcl]. rewrite map_length, length_range.
    change (2 ^ 53) with 9007199254740992. change (2 ^ 31) with 2147483648 in X. lia.
  - apply Forall_forall. intros x Hx. destruct (Hs x Hx) as [sp [Hi ->]]. rewrite Forall_forall in Ho. apply (Ho sp Hi).
Qed.
