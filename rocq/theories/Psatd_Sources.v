(** The charge densities that cross-deposition uses, in the modes kz = 0 and kr = 0. *)
From Verif Require Import Base Fourier_Lib Shape_Model Shape_Spec Shape_Proofs Deposit_Model Deposit_Spec Deposit_Proofs
  Inject_Proofs Hankel_Model Hankel_Proofs Cross_Model.
From Coq Require Import Reals Lra Lia.
From Coquelicot Require Import Complex.
Open Scope Z_scope.

(** Same particles, possibly at another z (with another velocity). *)
Definition same_xy_ptcl (p p' : ptcl) : Prop := p_x p = p_x p' /\ p_y p = p_y p' /\ p_w p = p_w p' /\ p_wl p = p_wl p'.
Definition same_xy (s s' : species) : Prop :=
  sp_q s = sp_q s' /\ sp_tracer s = sp_tracer s' /\ sp_ionizable s = sp_ionizable s' /\ sp_shape s = sp_shape s' /\
  Forall2 same_xy_ptcl (sp_ptcl s) (sp_ptcl s').
(** Same grid, possibly at another z (Galilean shift). *)
Definition same_r_grid (g g' : grid) : Prop :=
  g_Nz g = g_Nz g' /\ g_dr g = g_dr g' /\ g_Nr g = g_Nr g' /\ g_vol g = g_vol g' /\ g_beta g = g_beta g'.

Lemma same_xy_rj p p' : same_xy_ptcl p p' -> rj p = rj p' /\ cos_j p = cos_j p' /\ sin_j p = sin_j p'.
Proof. intros (E1 & E2 & _). unfold cos_j, sin_j, rj. rewrite E1, E2. auto. Qed.
Lemma same_scal c k w p p' m : k = Rho -> same_xy_ptcl p p' -> scal c k w p m = scal c k w p' m.
Proof.
  intros -> H. destruct (same_xy_rj _ _ H) as (_ & E1 & E2). induction m as [|m IH]; cbn [scal]; [reflexivity|].
  rewrite E1, E2, IH. reflexivity.
Qed.

(** The sum along z of what one particle deposits. *)
Lemma contrib_column c g m sp p (phi : Z -> C) :
  pair_with (fun _ gr => phi gr) (contrib c g Rho m sp p) =
  lsum (fun b => Cmult (phi (ir_cell g (sp_shape sp) p + b))
     (Cmult (RtoC (Sr (sp_shape sp) (r_cell g p) b (flip Rho m) (bn g (sp_shape sp) m p)))
            (scal c Rho (sp_q sp * eff_weight (sp_ionizable sp) p) p m))) (range (npts (sp_shape sp))).
Proof.
  unfold pair_with, contrib, contributions. rewrite lsum_flat_map.
  match goal with |- _ = ?rhs => set (S := rhs) end.
  rewrite (lsum_ext _ (fun a => Cmult (RtoC (Sz (sp_shape sp) (z_cell g p) a)) S)).
  - rewrite lsum_scal_r, lsum_rsum, rsum_zsum, sz_sum. ring.
  - intros a _. rewrite lsum_map. cbn [fst snd]. unfold S. rewrite <- lsum_scal. apply lsum_ext. intros b _. rewrite RtoC_mult. ring.
Qed.
Lemma contrib_column_same c g g' m sp sp' p p' phi : same_r_grid g g' ->
  sp_q sp = sp_q sp' -> sp_ionizable sp = sp_ionizable sp' -> sp_shape sp = sp_shape sp' -> same_xy_ptcl p p' ->
  pair_with (fun _ gr => phi gr) (contrib c g Rho m sp p) = pair_with (fun _ gr => phi gr) (contrib c g' Rho m sp' p').
Proof.
  intros (_ & G1 & G2 & _ & G3) Eq Ei Es H. rewrite !contrib_column. rewrite Eq, Ei, Es.
  destruct (same_xy_rj _ _ H) as (Er & _). assert (Erc : r_cell g p = r_cell g' p') by (unfold r_cell; rewrite G1, Er; reflexivity).
  assert (Eir : ir_cell g (sp_shape sp') p = ir_cell g' (sp_shape sp') p') by (unfold ir_cell; rewrite Erc, G2; reflexivity).
  assert (Ebn : bn g (sp_shape sp') m p = bn g' (sp_shape sp') m p') by (unfold bn; rewrite Erc, G2, G3; reflexivity).
  assert (Ew : eff_weight (sp_ionizable sp') p = eff_weight (sp_ionizable sp') p').
  { destruct H as (_ & _ & E1 & E2). unfold eff_weight. rewrite E1, E2. reflexivity. }
  rewrite Erc, Eir, Ebn, Ew. rewrite (same_scal c Rho _ p p' m eq_refl H). reflexivity.
Qed.

Lemma lsum_Forall2 {A B} (P : A -> B -> Prop) (f : A -> C) (h : B -> C) l l' :
  Forall2 P l l' -> (forall a b, P a b -> f a = h b) -> lsum f l = lsum h l'.
Proof. intros F H. induction F as [|a b l l' Hab F IH]; [reflexivity|]. rewrite !lsum_cons, IH, (H a b); auto. Qed.
Lemma Forall2_filter {A B} (P : A -> B -> Prop) (f : A -> bool) (h : B -> bool) l l' :
  Forall2 P l l' -> (forall a b, P a b -> f a = h b) -> Forall2 P (filter f l) (filter h l').
Proof.
  intros F H. induction F as [|a b l l' Hab F IH]; [constructor|]. cbn [filter]. rewrite (H a b Hab). destruct (h b); [constructor|]; auto.
Qed.

Lemma column_sum c g m nthreads l ir : grid_ok g -> threads_ok nthreads (depositing l None) -> all_in_grid g (depositing l None) ->
  0 <= ir < g_Nr g ->
  lsum (fun iz => deposit c g Rho m nthreads l None iz ir) (range (g_Nz g)) =
  Cmult (lsum (fun sp => lsum (fun p => pair_with (fun _ gr => if fr (g_Nr g) gr =? ir then RtoC 1 else RtoC 0) (contrib c g Rho m sp p)) (sp_ptcl sp))
    (filter (fun sp => if Req_EM_T (sp_q sp) 0 then false else true) (depositing l None))) (RtoC (1 / g_vol g ir)).
Proof.
  intros Hg Hth Hin Hir.
  rewrite <- (deposit_pair c g Rho m Hg (fun _ j => if j =? ir then RtoC 1 else RtoC 0) nthreads _ Hth Hin).
  unfold grid_sum. rewrite <- lsum_scal_r. apply lsum_ext. intros iz _.
  unfold deposit, divide_by_volume. cbv zeta. fold (depositing l None). f_equal.
  set (A := fold_left _ _ _). rewrite (lsum_ext _ (fun j => if j =? ir then A iz j else RtoC 0)).
  - symmetry. apply (lsum_single (g_Nr g) ir (fun j => A iz j) Hir).
  - intros j _. destruct (j =? ir); ring.
Qed.

(** The total along z of the charge density is the same wherever the particles are along z. *)
Lemma column_same c g g' m n n' l l' ir : grid_ok g -> grid_ok g' -> same_r_grid g g' -> Forall2 same_xy l l' ->
  threads_ok n (depositing l None) -> all_in_grid g (depositing l None) ->
  threads_ok n' (depositing l' None) -> all_in_grid g' (depositing l' None) -> 0 <= ir < g_Nr g ->
  lsum (fun iz => deposit c g Rho m n l None iz ir) (range (g_Nz g)) =
  lsum (fun iz => deposit c g' Rho m n' l' None iz ir) (range (g_Nz g')).
Proof.
  intros Hg Hg' Hs Hl T1 I1 T2 I2 Hir. assert (Hir' : 0 <= ir < g_Nr g') by (destruct Hs as (_ & _ & <- & _); auto).
  rewrite !column_sum by assumption. destruct Hs as (S1 & S2 & S3 & S4 & S5). rewrite <- S4. f_equal.
  apply (lsum_Forall2 same_xy).
  - apply Forall2_filter; [|intros s s' (-> & _); reflexivity]. unfold depositing. apply Forall2_filter; [exact Hl|].
    intros s s' (_ & -> & _). reflexivity.
  - intros s s' (E1 & E2 & E3 & E4 & E5). apply (lsum_Forall2 same_xy_ptcl); [exact E5|]. intros p p' Hp. rewrite <- S3.
    apply contrib_column_same; auto. repeat split; auto.
Qed.

Lemma fft_0 Nz F ir : fft Nz F 0 ir = lsum (fun j => F j ir) (range Nz).
Proof.
  unfold fft. apply lsum_ext. intros j _. rewrite Z.mul_0_l. replace (- (2 * PI * 0 / IZR Nz))%R with 0%R by (unfold Rdiv; ring).
  rewrite cis_0. ring.
Qed.
(** A state from which a deposit is made. *)
Definition deposit_ok (nthreads : Z) (s : pic) : Prop :=
  threads_ok nthreads (depositing (pic_l s) None) /\ all_in_grid (pic_g s) (depositing (pic_l s) None).
Lemma spect_rho_kz0 tr fz fr c m n s s' ir : t_Nz tr = g_Nz (pic_g s) -> t_Nr tr = g_Nr (pic_g s) ->
  grid_ok (pic_g s) -> grid_ok (pic_g s') -> same_r_grid (pic_g s) (pic_g s') -> Forall2 same_xy (pic_l s) (pic_l s') ->
  deposit_ok n s -> deposit_ok n s' ->
  spect_rho tr fz fr c m n s 0 ir = spect_rho tr fz fr c m n s' 0 ir.
Proof.
  intros E1 E2 Hg Hg' Hs Hl [T1 I1] [T2 I2]. unfold spect_rho, interp2spect_scal. f_equal.
  assert (0 <= 0 < t_Nz tr) by (destruct Hg as (_ & _ & ? & _); lia).
  apply dht_ext; auto. intros j Hj. rewrite !fft_0. rewrite E1.
  replace (g_Nz (pic_g s)) with (g_Nz (pic_g s')) at 2 by (destruct Hs as (-> & _); reflexivity). apply column_same; auto. lia.
Qed.
Lemma spect_rho_kr0 tr inv pinv fz fr c (m : nat) n s iz : (m <> 0)%nat -> 0 <= iz < t_Nz tr ->
  t_M0 tr = dht_M inv pinv (Z.of_nat m) (Z.of_nat m) -> spect_rho tr fz fr c m n s iz 0 = RtoC 0.
Proof.
  intros Hm Hz E. unfold spect_rho, interp2spect_scal. rewrite dht_sum by auto. rewrite lsum_zero; [ring|]. intros j _.
  rewrite E. unfold dht_M. destruct (Z.eqb_spec (Z.of_nat m) 0); [lia|]. destruct (Z.eqb_spec (Z.of_nat m) (Z.of_nat m - 1)); [lia|].
  cbn [negb andb Z.eqb]. ring.
Qed.
(** The positions across z at the four deposits. *)
Lemma half2_R : 0.5%R = (1 / 2)%R. Proof. lra. Qed.
Lemma Forall2_map2 {A} (P : A -> A -> Prop) (f h : A -> A) l : (forall a, P (f a) (h a)) -> Forall2 P (map f l) (map h l).
Proof. intros H. induction l; constructor; auto. Qed.
Lemma Forall2_same {A} (P : A -> A -> Prop) l : (forall a, P a a) -> Forall2 P l l.
Proof. intros H. induction l; constructor; auto. Qed.
Definition same_r_pic (s s' : pic) : Prop := same_r_grid (pic_g s) (pic_g s') /\ Forall2 same_xy (pic_l s) (pic_l s').
Lemma same_r_grid_shift v d v' d' g g' : same_r_grid g g' -> same_r_grid (shift_grid v d g) (shift_grid v' d' g').
Proof. intros H. exact H. Qed.
Lemma next_xy c v mv dt s : same_r_pic (at_next c v mv dt s) (at_xy c v mv dt s).
Proof.
  unfold at_next, at_z. split; [repeat split|]. set (a := at_xy c v mv dt s). cbn [pic_l move]. destruct mv.
  2:{ apply Forall2_same. intros s0. split; [reflexivity|]. split; [reflexivity|]. split; [reflexivity|]. split; [reflexivity|]. apply Forall2_same. intros p; repeat split. }
  induction (pic_l a) as [|s0 l IH]; [constructor|]. cbn [push_x map]. constructor; [|exact IH].
  split; [reflexivity|]. split; [reflexivity|]. split; [reflexivity|]. split; [reflexivity|]. cbn [sp_ptcl].
  induction (sp_ptcl s0) as [|p q IHq]; [constructor|]. cbn [map]. constructor; [|exact IHq].
  repeat split; cbn [push_ptcl p_x p_y p_ig p_ux p_uy]; rewrite half2_R; field.
Qed.
Lemma z_prev c v mv dt s : same_r_pic (at_z c v mv dt s) s.
Proof.
  unfold at_z, at_xy, at_half. split; [repeat split|]. cbn [pic_l move]. destruct mv.
  2:{ apply Forall2_same. intros s0. split; [reflexivity|]. split; [reflexivity|]. split; [reflexivity|]. split; [reflexivity|]. apply Forall2_same. intros p; repeat split. }
  induction (pic_l s) as [|s0 l IH]; [constructor|]. cbn [push_x map]. constructor; [|exact IH].
  split; [reflexivity|]. split; [reflexivity|]. split; [reflexivity|]. split; [reflexivity|]. cbn [sp_ptcl].
  induction (sp_ptcl s0) as [|p q IHq]; [constructor|]. cbn [map]. constructor; [|exact IHq].
  repeat split; cbn [push_ptcl p_x p_y p_ig p_ux p_uy]; rewrite half2_R; field.
Qed.
Lemma grid_ok_move c v mv dt xp yp zp vdt s : grid_ok (pic_g s) -> grid_ok (pic_g (move c v mv dt xp yp zp vdt s)).
Proof. intros H. exact H. Qed.
Lemma kr_zero zeros rmax m i : (0 < rmax)%R -> (forall m i, (0 < zeros m i)%R) -> 0 <= i ->
  kr_of zeros rmax m i = 0%R -> m <> 0 /\ i = 0.
Proof.
  intros Hr Hz Hi. unfold kr_of, alphas. pose proof PI_RGT_0.
  assert (A : forall a, (2 * PI * (1 / (2 * PI * rmax) * a) = a / rmax)%R) by (intros; field; lra). rewrite A.
  assert (P : forall m i, (zeros m i / rmax <> 0)%R).
  { intros m' i'. pose proof (Hz m' i'). assert (0 < zeros m' i' / rmax)%R; [apply Rdiv_lt_0_compat; lra|lra]. }
  destruct (Z.eqb_spec m 0); [intros E; destruct (P _ _ E)|]. destruct (Z.eqb_spec i 0); [auto|]. intros E; destruct (P _ _ E).
Qed.
Lemma kz_zero Nz dz i : (0 < dz)%R -> 0 <= i < Nz -> kz_true Nz dz i = 0%R -> i = 0.
Proof.
  intros Hd Hi. unfold kz_true. pose proof PI_RGT_0. set (j := if 2 * i <? Nz then i else i - Nz). intros E.
  assert (0 < IZR Nz)%R by (apply IZR_lt; lia). assert (P : (0 < IZR Nz * dz)%R) by (apply Rmult_lt_0_compat; lra).
  assert (J : IZR j = 0%R).
  { apply Rmult_integral in E as [E|E]; [lra|]. replace (IZR j) with (IZR j / (IZR Nz * dz) * (IZR Nz * dz))%R by (field; lra). rewrite E. ring. }
  apply eq_IZR in J. unfold j in J. destruct (Z.ltb_spec (2 * i) Nz); lia.
Qed.
