From Verif Require Import Base Fourier_Lib Deposit_Model Deposit_Spec Boost_Model Decomp_Model Decomp_Spec Decomp_Proofs Hankel_Model Hankel_Spec Hankel_Proofs Psatd_Model Psatd_Spec
  Smooth_Model Smooth_Spec Smooth_Proofs Smooth_Passes Laser_Model ExtField_Spec Direct_Model Direct_Spec Direct_Proofs.
From Coq Require Import Reals Lra Lia.
From Coquelicot Require Import Coquelicot.
Open Scope Z_scope.

(** ** Frames *)
Lemma boost_factor g : (1 <= g)%R -> let b := sqrt (1 - 1 / g ^ 2) in ((0 <= b)%R /\ (g ^ 2 * (1 - b ^ 2) = 1)%R /\ (1 / (g * (1 + b)) = g * (1 - b))%R).
Proof.
  intros G b. assert (B : (b ^ 2 = 1 - 1 / g ^ 2)%R).
  { unfold b. rewrite pow2_sqrt; [reflexivity|]. assert (1 / g ^ 2 <= 1)%R; [|lra]. apply (Rmult_le_reg_r (g ^ 2)); [nra|]. replace (1 / g ^ 2 * g ^ 2)%R with 1%R by (field; nra). nra. }
  assert (B0 : (0 <= b)%R) by apply sqrt_pos. assert (E : (g ^ 2 * (1 - b ^ 2) = 1)%R) by (rewrite B; field; nra). split; [exact B0|]. split; [exact E|].
  apply (Rmult_eq_reg_r (g * (1 + b))); [|nra]. transitivity 1%R; [field; split; nra|]. transitivity (g ^ 2 * (1 - b ^ 2))%R; [symmetry; exact E|ring].
Qed.

(** ** Filter *)
Lemma filter_transfer k d : laser_filter k d = transfer 1 true (k * d).
Proof. rewrite <- factor_transfer, factor_eq. unfold laser_filter. fold (s2 k d). rewrite pow_1. change (INR 1) with 1%R. rewrite Rmult_1_l. reflexivity. Qed.
Section G.
Context (tr : transformer). Let Nz := t_Nz tr. Let Nr := t_Nr tr.
Lemma to_grid cells Gp Gm iz ir : all_cells Nz Nr cells -> 0 <= ir < Nr ->
  let '(Fr, Ft) := spect2interp_vect tr cells Gp Gm in
  Fr iz ir = ifft Nz (fun i j => to_r (dht Nz Nr (t_invMp tr) Gp i j) (dht Nz Nr (t_invMm tr) Gm i j)) iz ir /\
  Ft iz ir = ifft Nz (fun i j => to_t (dht Nz Nr (t_invMp tr) Gp i j) (dht Nz Nr (t_invMm tr) Gm i j)) iz ir.
Proof.
  intros A Hr. unfold spect2interp_vect. cbv zeta. fold Nz Nr. set (Dp := dht Nz Nr (t_invMp tr) Gp). set (Dm := dht Nz Nr (t_invMm tr) Gm). rewrite pm_to_rt_loop.
  assert (A1 : distinct_arrays buf_p buf_m buf_r buf_t) by (unfold distinct_arrays, buf_p, buf_m, buf_r, buf_t; lia).
  split; apply ifft_ext; intros i Hi;
    destruct (loop2 to_r to_t buf_p buf_m buf_r buf_t cells (proj1 A) A1 (two_arrays Dp Dm) i ir) as [L _]; destruct (L (in_cells Nz Nr cells i ir A Hi Hr)) as [E1 E2]; assumption.
Qed.
Lemma to_r_scal a p m : to_r (Cmult a p) (Cmult a m) = Cmult a (to_r p m). Proof. unfold to_r. ring. Qed.
Lemma to_t_scal a p m : to_t (Cmult a p) (Cmult a m) = Cmult a (to_t p m). Proof. unfold to_t. ring. Qed.
Lemma smoothed dz cells Gp Gm iz ir : 0 < Nz -> (0 < dz)%R -> all_cells Nz Nr cells -> 0 <= iz < Nz -> 0 <= ir < Nr ->
  let '(Fr, Ft) := spect2interp_vect tr cells Gp Gm in
  let '(Fr', Ft') := spect2interp_vect tr cells (fun i j => Cmult (Gp i j) (RtoC (laser_filter (kz_true Nz dz i) dz))) (fun i j => Cmult (Gm i j) (RtoC (laser_filter (kz_true Nz dz i) dz))) in
  Fr' iz ir = smooth_z Nz 1 true (fun i => Fr i ir) iz /\ Ft' iz ir = smooth_z Nz 1 true (fun i => Ft i ir) iz.
Proof.
  intros HN Hd A Hz Hr.
  pose proof (fun i => to_grid cells Gp Gm i ir A Hr) as T. set (a := fun i => RtoC (transfer 1 true (kz_true Nz dz i * dz))).
  pose proof (to_grid cells (fun i j => Cmult (Gp i j) (RtoC (laser_filter (kz_true Nz dz i) dz))) (fun i j => Cmult (Gm i j) (RtoC (laser_filter (kz_true Nz dz i) dz))) iz ir A Hr) as T'.
  assert (S : forall M G i j, 0 <= i < Nz -> dht Nz Nr M (fun i j => Cmult (G i j) (RtoC (laser_filter (kz_true Nz dz i) dz))) i j = Cmult (a i) (dht Nz Nr M G i j)).
  { intros M G i j Hi. rewrite <- dht_scal by exact Hi. apply dht_ext; [exact Hi|]. intros. unfold a. rewrite filter_transfer. ring. }
  destruct (spect2interp_vect tr cells Gp Gm) as [Fr Ft]. destruct (spect2interp_vect tr cells _ _) as [Fr' Ft']. destruct T' as [T1 T2]. rewrite T1, T2.
  assert (X : forall (f g : Z -> C), (forall i, f i = g i) -> smooth_z Nz 1 true f iz = smooth_z Nz 1 true g iz).
  { intros f g E. assert (P : forall f g : Z -> C, (forall i, f i = g i) -> forall i, pass Nz f i = pass Nz g i) by (intros f' g' E' i; unfold pass; rewrite !E'; reflexivity).
    unfold smooth_z, compensate. change (passes Nz 1 f) with (pass Nz f). change (passes Nz 1 g) with (pass Nz g). rewrite (P f g E), (P _ _ (P f g E)). reflexivity. }
  rewrite (X (fun i => Fr i ir) _ (fun i => proj1 (T i))), (X (fun i => Ft i ir) _ (fun i => proj2 (T i))). rewrite !(smooth_ifft Nz dz) by assumption.
  split; apply ifft_ext; intros i Hi; rewrite !S by exact Hi; fold (a i); [apply to_r_scal|apply to_t_scal].
Qed.
(** The transforms only read the cells of the grid. *)
Lemma to_spect cells Fr Ft iz ir : all_cells Nz Nr cells -> 0 <= iz < Nz -> 
  let '(Gp, Gm) := interp2spect_vect tr cells Fr Ft in
  Gp iz ir = dht Nz Nr (t_Mp tr) (fun i j => to_p (fft Nz Fr i j) (fft Nz Ft i j)) iz ir /\
  Gm iz ir = dht Nz Nr (t_Mm tr) (fun i j => to_m (fft Nz Fr i j) (fft Nz Ft i j)) iz ir.
Proof.
  intros A Hz. unfold interp2spect_vect. cbv zeta. fold Nz Nr. rewrite rt_to_pm_loop.
  assert (A1 : distinct_arrays buf_r buf_t buf_p buf_m) by (unfold distinct_arrays, buf_p, buf_m, buf_r, buf_t; lia).
  split; apply dht_ext; try exact Hz; intros j Hj;
    destruct (loop2 to_p to_m buf_r buf_t buf_p buf_m cells (proj1 A) A1 (two_arrays (fft Nz Fr) (fft Nz Ft)) iz j) as [L _]; destruct (L (in_cells Nz Nr cells iz j A Hz Hj)) as [E1 E2]; assumption.
Qed.
Lemma spect_ext cells Fr Ft Fr' Ft' iz ir : all_cells Nz Nr cells -> 0 <= iz < Nz ->
  (forall i j, 0 <= i < Nz -> 0 <= j < Nr -> Fr i j = Fr' i j /\ Ft i j = Ft' i j) ->
  fst (interp2spect_vect tr cells Fr Ft) iz ir = fst (interp2spect_vect tr cells Fr' Ft') iz ir /\ snd (interp2spect_vect tr cells Fr Ft) iz ir = snd (interp2spect_vect tr cells Fr' Ft') iz ir.
Proof.
  intros A Hz E. pose proof (to_spect cells Fr Ft iz ir A Hz) as T. pose proof (to_spect cells Fr' Ft' iz ir A Hz) as T'.
  destruct (interp2spect_vect tr cells Fr Ft), (interp2spect_vect tr cells Fr' Ft'). cbn [fst snd]. destruct T as [-> ->], T' as [-> ->].
  split; apply dht_ext; try exact Hz; intros j Hj; f_equal; apply fft_ext; intros; apply E; assumption.
Qed.
Lemma grid_ext cells Gp Gm Gp' Gm' iz ir : all_cells Nz Nr cells -> 0 <= ir < Nr ->
  (forall i j, 0 <= i < Nz -> 0 <= j < Nr -> Gp i j = Gp' i j /\ Gm i j = Gm' i j) ->
  fst (spect2interp_vect tr cells Gp Gm) iz ir = fst (spect2interp_vect tr cells Gp' Gm') iz ir /\ snd (spect2interp_vect tr cells Gp Gm) iz ir = snd (spect2interp_vect tr cells Gp' Gm') iz ir.
Proof.
  intros A Hr E. pose proof (to_grid cells Gp Gm iz ir A Hr) as T. pose proof (to_grid cells Gp' Gm' iz ir A Hr) as T'.
  destruct (spect2interp_vect tr cells Gp Gm), (spect2interp_vect tr cells Gp' Gm'). cbn [fst snd]. destruct T as [-> ->], T' as [-> ->].
  split; apply ifft_ext; intros i Hi; f_equal; apply dht_ext; try exact Hi; intros; apply E; assumption.
Qed.
Lemma scal_ext G G' iz ir : (forall i j, 0 <= i < Nz -> 0 <= j < Nr -> G i j = G' i j) -> spect2interp_scal tr G iz ir = spect2interp_scal tr G' iz ir.
Proof. intros E. unfold spect2interp_scal. fold Nz Nr. apply ifft_ext. intros i Hi. apply dht_ext; [exact Hi|]. intros. apply E; assumption. Qed.
Lemma solve_ext cl dir dz cells cells' zt kz kr Er Et Er' Et' comp iz ir : all_cells Nz Nr cells -> all_cells Nz Nr cells' -> In comp comps -> 0 <= ir < Nr ->
  (forall i j, 0 <= i < Nz -> 0 <= j < Nr -> Er i j = Er' i j /\ Et i j = Et' i j) ->
  comp (calculate_laser_fields cl dir dz tr cells cells' zt kz kr Er Et) iz ir = comp (calculate_laser_fields cl dir dz tr cells cells' zt kz kr Er' Et') iz ir.
Proof.
  intros A A' Hc Hr E. unfold calculate_laser_fields. set (S := spectral_fields _ _ _ _ _ _ _ _ Er Et). set (S' := spectral_fields _ _ _ _ _ _ _ _ Er' Et').
  assert (SE : forall i j, 0 <= i < Nz -> S i j = S' i j).
  { intros i j Hi. unfold S, S', spectral_fields. pose proof (spect_ext cells Er Et Er' Et' i j A Hi E) as [X Y].
    destruct (interp2spect_vect tr cells Er Et), (interp2spect_vect tr cells Er' Et'). cbn [fst snd] in X, Y. rewrite X, Y. reflexivity. }
  pose proof (grid_ext cells' (fun iz ir => sEp (S iz ir)) (fun iz ir => sEm (S iz ir)) (fun iz ir => sEp (S' iz ir)) (fun iz ir => sEm (S' iz ir)) iz ir A' Hr) as [X1 X2]; [intros; rewrite SE by assumption; auto|].
  pose proof (grid_ext cells' (fun iz ir => sBp (S iz ir)) (fun iz ir => sBm (S iz ir)) (fun iz ir => sBp (S' iz ir)) (fun iz ir => sBm (S' iz ir)) iz ir A' Hr) as [X3 X4]; [intros; rewrite SE by assumption; auto|].
  pose proof (scal_ext (fun iz ir => sEz (S iz ir)) (fun iz ir => sEz (S' iz ir)) iz ir) as X5. pose proof (scal_ext (fun iz ir => sBz (S iz ir)) (fun iz ir => sBz (S' iz ir)) iz ir) as X6.
  repeat destruct (spect2interp_vect _ _ _ _). cbn [fst snd] in *.
  repeat (destruct Hc as [<-|Hc]; [cbn [gEr gEt gEz gBr gBt gBz]; try assumption; (apply X5 || apply X6); intros; rewrite SE by assumption; reflexivity|]). destruct Hc.
Qed.
End G.

(** ** Ranks *)
Lemma add_to_value c Nr k old glob : valid_comm c -> 0 < Nr -> 0 <= k < c_size c ->
  exists new, add_to c Nr k old glob = Ok new /\
    (forall i ir, cell_in i (part c true k) -> 0 <= ir < Nr -> new (i - (snd (part c true k) - c_nguard c)) ir = (old (i - (snd (part c true k) - c_nguard c))%Z ir + glob (i - snd (whole c true))%Z ir)%C) /\
    (forall iz ir, ~ (c_nguard c <= iz < c_nguard c + fst (part c true k)) -> new iz ir = old iz ir).
Proof.
  intros Hv HN Hk. unfold add_to. rewrite part_ok. cbn [bind]. destruct (scatter_value c Nr true k glob Hv HN Hk) as (loc & Hl & V).
  destruct (part c true k) as [n s] eqn:E. rewrite (guard_ext c true true (Some k) (n, s)) by (rewrite <- E; apply part_ok). cbn [bind fst snd] in *. rewrite Hl. cbn [bind].
  eexists. split; [reflexivity|]. cbv beta. replace (s - (s - c_nguard c)) with (c_nguard c) by lia. split.
  - intros i ir [Hi1 Hi2] Hr. cbn [fst snd] in *. destruct (Z.leb_spec (c_nguard c) (i - (s - c_nguard c))); [|lia]. destruct (Z.ltb_spec (i - (s - c_nguard c)) (c_nguard c + n)); [|lia]. cbn [andb].
    replace (i - (s - c_nguard c) - c_nguard c) with (i - s) by lia. rewrite V by (split; assumption || lia). reflexivity.
  - intros iz ir Hi. destruct (Z.leb_spec (c_nguard c) iz); [|reflexivity]. destruct (Z.ltb_spec iz (c_nguard c + n)); [lia|reflexivity].
Qed.
Lemma ranks c Nr solve Er Et old (F Ft : R -> Z -> C) :
  valid_comm c -> 0 < Nr ->
  (forall A B A' B' comp iz ir, In comp comps -> 0 <= iz < fst (whole c true) -> 0 <= ir < Nr ->
     (forall i j, 0 <= i < fst (whole c true) -> 0 <= j < Nr -> A i j = A' i j /\ B i j = B' i j) -> comp (solve A B) iz ir = comp (solve A' B') iz ir) ->
  (forall k iz ir z, 0 <= k < c_size c -> local_z c k iz = Ok z -> Er k iz ir = F z ir /\ Et k iz ir = Ft z ir) ->
  let zc j := (c_zmin c + (IZR (snd (whole c true) + j) + 0.5) * c_dz c)%R in
  forall k, 0 <= k < c_size c -> exists new, add_laser_direct c Nr solve Er Et old k = Ok new /\
    forall comp, In comp comps ->
    (forall i ir, cell_in i (part c true k) -> 0 <= ir < Nr ->
       comp new (i - (snd (part c true k) - c_nguard c)) ir =
       (comp (old k) (i - (snd (part c true k) - c_nguard c))%Z ir + comp (solve (fun j ir => F (zc j) ir) (fun j ir => Ft (zc j) ir)) (i - snd (whole c true))%Z ir)%C) /\
    (forall iz ir, ~ (c_nguard c <= iz < c_nguard c + fst (part c true k)) -> comp new iz ir = comp (old k) iz ir).
Proof.
  intros Hv HN Hs HE zc k Hk. unfold add_laser_direct.
  destruct (gather_value (RtoC 0) c Nr true Er Hv HN) as (gr & G1 & V1). destruct (gather_value (RtoC 0) c Nr true Et Hv HN) as (gt & G2 & V2). rewrite G1, G2. cbn [bind].
  pose proof (part_tiles c true Hv) as (_ & Hcov & _).
  assert (Z1 : forall j i, 0 <= j < fst (whole c true) -> 0 <= i < Nr -> gr j i = F (zc j) i /\ gt j i = Ft (zc j) i).
  { intros j i Hj Hi. destruct (proj1 (Hcov (j + snd (whole c true)))) as [q [Hq Hc]]; [unfold cell_in; lia|]. pose proof (V1 q _ i Hq Hc Hi) as W1. pose proof (V2 q _ i Hq Hc Hi) as W2.
    replace (j + snd (whole c true) - snd (whole c true)) with j in W1, W2 by lia. rewrite W1, W2. apply HE; [exact Hq|]. unfold local_z. rewrite (edges_ok c true true true (Some q) (fst (part c true q) + 2 * c_nguard c, snd (part c true q) - c_nguard c)) by (apply guard_ext, part_ok).
    cbn [bind fst snd]. unfold edge. f_equal. unfold zc. rewrite !minus_IZR, !plus_IZR, ?minus_IZR. ring. }
  set (glob := solve gr gt). set (sv := solve (fun j ir => F (zc j) ir) (fun j ir => Ft (zc j) ir)).
  assert (GE : forall comp j i, In comp comps -> 0 <= j < fst (whole c true) -> 0 <= i < Nr -> comp glob j i = comp sv j i) by (intros; apply Hs; auto).
  assert (CI : forall i, cell_in i (part c true k) -> 0 <= i - snd (whole c true) < fst (whole c true)).
  { intros i Hi. assert (cell_in i (whole c true)); [|unfold cell_in in *; lia]. apply Hcov. exists k. auto. }
  destruct (add_to_value c Nr k (gEr (old k)) (gEr glob) Hv HN Hk) as (n1 & -> & P1 & Q1). cbn [bind].
  destruct (add_to_value c Nr k (gEt (old k)) (gEt glob) Hv HN Hk) as (n2 & -> & P2 & Q2). cbn [bind].
  destruct (add_to_value c Nr k (gEz (old k)) (gEz glob) Hv HN Hk) as (n3 & -> & P3 & Q3). cbn [bind].
  destruct (add_to_value c Nr k (gBr (old k)) (gBr glob) Hv HN Hk) as (n4 & -> & P4 & Q4). cbn [bind].
  destruct (add_to_value c Nr k (gBt (old k)) (gBt glob) Hv HN Hk) as (n5 & -> & P5 & Q5). cbn [bind].
  destruct (add_to_value c Nr k (gBz (old k)) (gBz glob) Hv HN Hk) as (n6 & -> & P6 & Q6). cbn [bind].
  eexists. split; [reflexivity|]. intros comp Hc. pose proof (GE comp) as GC. pose proof Hc as Hc'.
  repeat (destruct Hc as [<-|Hc]; [cbn [gEr gEt gEz gBr gBt gBz]; split; [intros i ir Hi Hr; rewrite <- GC by auto; auto|auto]|]). destruct Hc.
Qed.
