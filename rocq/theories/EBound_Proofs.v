From Coq Require Import Reals Lra Lia.
From Coquelicot Require Import Complex.
From Verif Require Import Base Decomp_Model Fourier_Lib Deposit_Model Deposit_Spec Deposit_Proofs Inject_Proofs Hankel_Model Hankel_Spec Hankel_Proofs
  Guard_Model Guard_Proofs Mirror_Model Mirror_Proofs Damp_Model Damp_Proofs EBound_Model EBound_Spec.
Import ListNotations.
Open Scope Z_scope.

(** ** Loops over the modes *)
Lemma nth_modes {B} (op : Z -> igrid -> B) l n : nth_error (for_modes op l) n =
  match nth_error l n with Some g => Some (op (Z.of_nat n) g) | None => None end.
Proof. unfold for_modes. rewrite nth_error_map, nth_enum. destruct (nth_error l n); reflexivity. Qed.
Lemma modes_length {B} (op : Z -> igrid -> B) l : length (for_modes op l) = length l.
Proof. unfold for_modes. rewrite map_length. apply enum_length. Qed.
Lemma arr_modes op l m f : 0 <= m -> arr_of (for_modes op l) m f =
  match nth_error l (Z.to_nat m) with Some g => ig_arr (op m g) f | None => fun _ _ => RtoC 0 end.
Proof. intros H. unfold arr_of. rewrite nth_modes. destruct (nth_error l (Z.to_nat m)); [|reflexivity]. rewrite Z2Nat.id by lia. reflexivity. Qed.
Lemma mode_exists (l : list (@igrid C)) m : 0 <= m < Z.of_nat (length l) -> exists g, nth_error l (Z.to_nat m) = Some g.
Proof. intros H. destruct (nth_error l (Z.to_nat m)) eqn:E; [eauto|]. apply nth_error_None in E. lia. Qed.

(** ** Names *)
Definition in_v (v : vfield) (f : fname) : bool := match v, f with
  | FE, (Er | Et | Ez) | FB, (Br | Bt | Bz) | FJ, Other (0 | 1 | 2) => true | _, _ => false end.
Definition sc (f : fname) : scomp := match f with Er | Br | Other 0 => Sp | Et | Bt | Other 1 => Sm | _ => Sz end.

(** ** The Hankel step on one row of the partial representation *)
Section Row.
Context (Nr : Z) (M0 Mp Mm : Z -> Z -> R).
Definition hk (M : Z -> Z -> R) (x : Z -> C) (ir : Z) : C := lsum (fun j => Cmult (x j) (RtoC (M j ir))) (range Nr).
Definition T (a : fname -> Z -> C) (f : fname) (ir : Z) : C :=
  match f with
  | Er => to_r (hk Mp (a Er) ir) (hk Mm (a Et) ir) | Et => to_t (hk Mp (a Er) ir) (hk Mm (a Et) ir) | Ez => hk M0 (a Ez) ir
  | Br => to_r (hk Mp (a Br) ir) (hk Mm (a Bt) ir) | Bt => to_t (hk Mp (a Br) ir) (hk Mm (a Bt) ir) | Bz => hk M0 (a Bz) ir
  | Other 0 => to_r (hk Mp (a (Other 0)) ir) (hk Mm (a (Other 1)) ir) | Other 1 => to_t (hk Mp (a (Other 0)) ir) (hk Mm (a (Other 1)) ir)
  | Other 2 => hk M0 (a (Other 2)) ir
  | _ => a f ir end.
Lemma hk_ext M x y ir : (forall j, 0 <= j < Nr -> x j = y j) -> hk M x ir = hk M y ir.
Proof. intros H. apply lsum_ext. intros j Hj. apply in_range in Hj. rewrite H; auto. Qed.
Lemma hk_scal M x k ir : hk M (fun j => Cmult (x j) k) ir = Cmult (hk M x ir) k.
Proof. unfold hk. rewrite <- lsum_scal_r. apply lsum_ext. intros. ring. Qed.
Lemma hk_plus M x y ir : hk M (plus_rows x y) ir = Cplus (hk M x ir) (hk M y ir).
Proof. unfold hk, plus_rows. rewrite <- lsum_plus. apply lsum_ext. intros. ring. Qed.
Lemma T_ext v a b f ir : in_v v f = true -> (forall f j, in_v v f = true -> 0 <= j < Nr -> a f j = b f j) -> T a f ir = T b f ir.
Proof.
  intros Hv H. assert (E : forall M g, in_v v g = true -> hk M (a g) ir = hk M (b g) ir) by (intros; apply hk_ext; auto).
  destruct v, f as [| | | | | | | | | |[|[|[|n]]]]; cbn in Hv; try discriminate; cbn [T]; rewrite !E by reflexivity; reflexivity.
Qed.
Lemma T_scal v a k f ir : in_v v f = true -> T (fun f j => Cmult (a f j) k) f ir = Cmult (T a f ir) k.
Proof.
  intros Hv. destruct v, f as [| | | | | | | | | |[|[|[|n]]]]; cbn in Hv; try discriminate; cbn [T]; rewrite ?hk_scal; unfold to_r, to_t; ring.
Qed.
Lemma T_plus v a b f ir : in_v v f = true -> T (fun f => plus_rows (a f) (b f)) f ir = Cplus (T a f ir) (T b f ir).
Proof.
  intros Hv. destruct v, f as [| | | | | | | | | |[|[|[|n]]]]; cbn in Hv; try discriminate; cbn [T]; rewrite ?hk_plus; unfold to_r, to_t; ring.
Qed.
End Row.

(** ** Transforms *)
Lemma ifft_dht Nz Nr M G iz ir : 0 <= iz < Nz -> ifft Nz (dht Nz Nr M G) iz ir = hk Nr M (ifft Nz G iz) ir.
Proof.
  intros H. unfold ifft, hk.
  rewrite (lsum_ext _ (fun j => lsum (fun i => Cmult (Cmult (cis (2 * PI * IZR (iz * j) / IZR Nz)) (G j i)) (RtoC (M i ir))) (range Nr)) (range Nz)).
  - rewrite lsum_swap, <- lsum_scal. apply lsum_ext. intros i _. rewrite lsum_scal_r. ring.
  - intros j Hj. apply in_range in Hj. rewrite dht_sum by auto. rewrite <- lsum_scal. apply lsum_ext. intros. ring.
Qed.
Lemma ifft_plus Nz F G iz ir : ifft Nz (fun i j => Cplus (F i j) (G i j)) iz ir = Cplus (ifft Nz F iz ir) (ifft Nz G iz ir).
Proof. unfold ifft. rewrite <- Cmult_plus_distr_l, <- lsum_plus. f_equal. apply lsum_ext. intros. ring. Qed.
Lemma ifft_scal Nz k F iz ir : ifft Nz (fun i j => Cmult k (F i j)) iz ir = Cmult k (ifft Nz F iz ir).
Proof.
  unfold ifft. rewrite (lsum_ext _ (fun j => Cmult k (Cmult (cis (2 * PI * IZR (iz * j) / IZR Nz)) (F j ir)))); [rewrite lsum_scal; ring|]. intros. ring.
Qed.
Lemma pm_loop cells Nz Nr p m : all_cells Nz Nr cells -> forall iz ir, 0 <= iz < Nz -> 0 <= ir < Nr ->
  pm_to_rt buf_p buf_m buf_r buf_t cells (two_arrays p m) buf_r iz ir = to_r (p iz ir) (m iz ir) /\
  pm_to_rt buf_p buf_m buf_r buf_t cells (two_arrays p m) buf_t iz ir = to_t (p iz ir) (m iz ir).
Proof.
  intros [ND Hin] iz ir Hz Hr. rewrite pm_to_rt_loop.
  assert (D : distinct_arrays buf_p buf_m buf_r buf_t) by (unfold distinct_arrays, buf_p, buf_m, buf_r, buf_t; lia).
  destruct (loop2 to_r to_t _ _ _ _ cells ND D (two_arrays p m) iz ir) as [L _]. exact (L (Hin _ _ (conj Hz Hr))).
Qed.
Lemma s2i_vect tr cells Gp Gm iz ir : all_cells (t_Nz tr) (t_Nr tr) cells -> 0 <= iz < t_Nz tr -> 0 <= ir < t_Nr tr ->
  let P := hk (t_Nr tr) (t_invMp tr) (ifft (t_Nz tr) Gp iz) ir in let M := hk (t_Nr tr) (t_invMm tr) (ifft (t_Nz tr) Gm iz) ir in
  fst (spect2interp_vect tr cells Gp Gm) iz ir = to_r P M /\ snd (spect2interp_vect tr cells Gp Gm) iz ir = to_t P M.
Proof.
  intros HC Hz Hr P M. unfold spect2interp_vect. cbn [fst snd].
  set (p := dht (t_Nz tr) (t_Nr tr) (t_invMp tr) Gp). set (m := dht (t_Nz tr) (t_Nr tr) (t_invMm tr) Gm).
  assert (L := pm_loop cells _ _ p m HC). split.
  - rewrite (ifft_ext _ _ (fun i j => Cplus (p i j) (m i j))) by (intros j Hj; apply (L j ir Hj Hr)).
    rewrite ifft_plus. unfold p, m. rewrite !ifft_dht by auto. reflexivity.
  - rewrite (ifft_ext _ _ (fun i j => Cplus (Cmult Ci (p i j)) (Cmult (Copp Ci) (m i j)))).
    + rewrite ifft_plus, !ifft_scal. unfold p, m. rewrite !ifft_dht by auto. fold P M. unfold to_t. ring.
    + intros j Hj. rewrite (proj2 (L j ir Hj Hr)). unfold to_t. ring.
Qed.
Lemma set_same f a g : ig_arr (set_arr f a g) f = a.
Proof. unfold set_arr. cbn [ig_arr]. destruct f; cbn; rewrite ?Nat.eqb_refl; reflexivity. Qed.

Section S2I.
Context (trans : Z -> transformer) (cells : list (Z * Z)) (Nz Nr : Z).
Hypothesis HNz : forall m, t_Nz (trans m) = Nz.
Hypothesis HNr : forall m, t_Nr (trans m) = Nr.
Hypothesis HC : all_cells Nz Nr cells.
Definition Tm (m : Z) := T Nr (t_invM0 (trans m)) (t_invMp (trans m)) (t_invMm (trans m)).
Lemma s2i_arr v S l m f iz ir : 0 <= m < Z.of_nat (length l) -> 0 <= iz < Nz -> 0 <= ir < Nr ->
  arr_of (spect2interp trans cells v S l) m f iz ir =
  if in_v v f then Tm m (fun f => ifft Nz (S m v (sc f)) iz) f ir else arr_of l m f iz ir.
Proof.
  intros Hm Hz Hr. unfold spect2interp. rewrite arr_modes by lia. unfold arr_of at 1. destruct (mode_exists l m Hm) as [g Hg]. rewrite Hg.
  assert (V := s2i_vect (trans m) cells (S m v Sp) (S m v Sm) iz ir). rewrite HNz, HNr in V. specialize (V HC Hz Hr). cbv zeta in V.
  assert (Z0 : spect2interp_scal (trans m) (S m v Sz) iz ir = hk Nr (t_invM0 (trans m)) (ifft Nz (S m v Sz) iz) ir).
  { unfold spect2interp_scal. rewrite HNz, HNr. apply ifft_dht. exact Hz. }
  destruct (spect2interp_vect (trans m) cells (S m v Sp) (S m v Sm)) as [a b]. cbn [fst snd] in V. destruct V as [V1 V2].
  destruct v, f as [| | | | | | | | | |[|[|[|n]]]];
    lazy [set_arr ig_arr same name_r name_t name_z in_v Nat.eqb]; try reflexivity; unfold Tm; cbn [T sc]; assumption.
Qed.
Lemma s2p_arr v S l m f iz : 0 <= m < Z.of_nat (length l) ->
  arr_of (spect2partial_interp trans v S l) m f iz = if in_v v f then ifft Nz (S m v (sc f)) iz else arr_of l m f iz.
Proof.
  intros Hm. unfold spect2partial_interp. rewrite arr_modes by lia. unfold arr_of at 1. destruct (mode_exists l m Hm) as [g Hg]. rewrite Hg, HNz.
  destruct v, f as [| | | | | | | | | |[|[|[|n]]]]; lazy [set_arr ig_arr same name_r name_t name_z in_v Nat.eqb sc]; reflexivity.
Qed.
(** The partial representation of the new spectrum is the array it was computed from. *)
Lemma p2s_ifft v l S m f iz ir : in_v v f = true -> 0 <= iz < Nz ->
  ifft Nz (partial_interp2spect trans v l S m v (sc f)) iz ir = arr_of l m f iz ir.
Proof.
  intros Hv Hz. unfold partial_interp2spect. rewrite HNz.
  destruct v, f as [| | | | | | | | | |[|[|[|n]]]]; cbn in Hv; try discriminate; cbn [same_v sc name_r name_t name_z]; apply ifft_fft; exact Hz.
Qed.
Lemma p2s_other v w l S m c : same_v w v = false -> partial_interp2spect trans v l S m w c = S m w c.
Proof. intros H. unfold partial_interp2spect. rewrite H. reflexivity. Qed.
End S2I.

(** ** The exchange *)
Definition comp_of (f : fname) : Z := match sc f with Sp => 0 | Sm => 1 | _ => 2 end.
Lemma comp_name_of v f : in_v v f = true -> comp_name v (comp_of f) = f /\ 0 <= comp_of f < 3.
Proof. intros H. destruct v, f as [| | | | | | | | | |[|[|[|n]]]]; cbn in H; try discriminate; (split; [reflexivity|unfold comp_of; cbn; lia]). Qed.
Lemma of_rows_arr v rows l m f iz : 0 <= m < Z.of_nat (length l) ->
  arr_of (of_rows v 3 rows l) m f iz = if in_v v f then rows m (comp_of f) iz else arr_of l m f iz.
Proof.
  intros Hm. unfold of_rows. rewrite arr_modes by lia. unfold arr_of at 1. destruct (mode_exists l m Hm) as [g Hg]. rewrite Hg.
  change (range 3) with [0; 1; 2]. cbn [fold_right]. unfold comp_name. cbn [Z.eqb Pos.eqb].
  destruct v, f as [| | | | | | | | | |[|[|[|n]]]]; lazy [set_arr ig_arr same name_r name_t name_z in_v Nat.eqb sc comp_of]; reflexivity.
Qed.
Definition from (G : Z -> @grid (Z -> C)) (m comp : Z) (s : Z * Z) : Z -> C := G (fst s) m comp (snd s).
Definition total (G : Z -> @grid (Z -> C)) (m comp : Z) (s0 : Z * Z) (rest : list (Z * Z)) : Z -> C :=
  fold_left (fun acc s => plus_rows acc (from G m comp s)) rest (from G m comp s0).
Definition cell_ok (u : setup) (s : Z * Z) : Prop := 0 <= fst s < u_size u /\ 0 <= snd s < u_Nz u (fst s).
Lemma exch_sources u me k r iz : consistent u -> 0 <= r < u_size u -> 0 <= iz < u_Nz u r -> 0 < k ->
  exists s0 rest, cell_ok u s0 /\ Forall (cell_ok u) rest /\ forall G m comp, 0 <= comp < k ->
  exchange_fields plus_rows (u_size u) (u_left u) (u_right u) me k (u_nguard u) (u_Nz u) G r m comp iz = total G m comp s0 rest.
Proof.
  intros [HL HR Hg HN _ _ _ _] Hr Hz Hk. unfold exchange_fields.
  assert (ok0 : cell_ok u (r, iz)) by (split; cbn; lia).
  destruct (Z.eqb_spec (u_size u) 1) as [E|E].
  { exists (r, iz), []. split; [exact ok0|]. split; [constructor|]. reflexivity. }
  assert (L : exists s0 rest, cell_ok u s0 /\ Forall (cell_ok u) rest /\ forall G m comp, 0 <= comp < k ->
    recv_left plus_rows me k (u_nguard u) (match u_left u r with None => None | Some l => Some (send_r me k (u_nguard u) (u_Nz u l) (G l)) end) (G r) m comp iz
    = total G m comp s0 rest).
  { destruct (u_left u r) as [l|] eqn:El; [|exists (r, iz), []; split; [exact ok0|]; split; [constructor|]; reflexivity].
    specialize (HL r l Hr El). destruct (HN l HL) as [Nl Nl2]. unfold recv_left.
    destruct ((0 <=? iz) && (iz <? nz_end me (u_nguard u) - nz_start me (u_nguard u))) eqn:B;
      [|exists (r, iz), []; split; [exact ok0|]; split; [apply Forall_nil|]; intros G m comp Hc; cbv beta iota zeta; try rewrite B; reflexivity].
    assert (okl : cell_ok u (l, u_Nz u l - nz_end me (u_nguard u) + iz)).
    { apply andb_prop in B as [B1 B2]. apply Z.ltb_lt in B2. unfold nz_end, nz_start in *. split; cbn [fst snd]; [lia|]. destruct me; lia. }
    destruct me.
    - exists (l, u_Nz u l - nz_end Replace (u_nguard u) + iz), []. split; [exact okl|]. split; [constructor|].
      intros G m comp Hc. cbv beta zeta; try rewrite B. destruct (unpack_pack k m comp Hc) as [U1 U2]. unfold send_r, pack. rewrite U1, U2. reflexivity.
    - exists (r, iz), [(l, u_Nz u l - nz_end Add (u_nguard u) + iz)]. split; [exact ok0|]. split; [constructor; [exact okl|constructor]|].
      intros G m comp Hc. cbv beta zeta; try rewrite B. destruct (unpack_pack k m comp Hc) as [U1 U2]. unfold send_r, pack. rewrite U1, U2. reflexivity. }
  destruct L as (s0 & rest & H0 & H1 & L).
  destruct (u_right u r) as [s|] eqn:Er; [|exists s0, rest; split; [exact H0|]; split; [exact H1|]; intros G m comp Hc; cbn [recv_right]; apply (L G m comp Hc)].
  specialize (HR r s Hr Er). destruct (HN s HR) as [Ns Ns2].
  destruct ((u_Nz u r - (nz_end me (u_nguard u) - nz_start me (u_nguard u)) <=? iz) && (iz <? u_Nz u r)) eqn:B;
    [|exists s0, rest; split; [exact H0|]; split; [exact H1|]; intros G m comp Hc; unfold recv_right; cbv beta zeta; try rewrite B; apply (L G m comp Hc)].
  set (j := nz_start me (u_nguard u) + (iz - (u_Nz u r - (nz_end me (u_nguard u) - nz_start me (u_nguard u))))).
  assert (oks : cell_ok u (s, j)).
  { apply andb_prop in B as [B1 B2]. apply Z.leb_le in B1. unfold j, nz_end, nz_start in *. split; cbn [fst snd]; [lia|]. destruct me; lia. }
  destruct me.
  - exists (s, j), []. split; [exact oks|]. split; [constructor|].
    intros G m comp Hc. unfold recv_right; cbv beta zeta; try rewrite B. destruct (unpack_pack k m comp Hc) as [U1 U2]. unfold send_l, pack. rewrite U1, U2. reflexivity.
  - exists s0, (rest ++ [(s, j)]). split; [exact H0|]. split; [apply Forall_app; split; [exact H1|constructor; [exact oks|constructor]]|].
    intros G m comp Hc. unfold recv_right; cbv beta zeta; try rewrite B. rewrite (L G m comp Hc). destruct (unpack_pack k m comp Hc) as [U1 U2].
    unfold send_l, pack. rewrite U1, U2. unfold total. rewrite fold_left_app. reflexivity.
Qed.
Lemma exch_arr u v me r iz : consistent u -> n_comp (u_pml u) v = 3 -> 0 <= r < u_size u -> 0 <= iz < u_Nz u r ->
  exists s0 rest, cell_ok u s0 /\ Forall (cell_ok u) rest /\ forall I m f, 0 <= m < Z.of_nat (length (I r)) ->
  arr_of (exchange u v me I r) m f iz =
  if in_v v f then fold_left (fun acc s => plus_rows acc (arr_of (I (fst s)) m f (snd s))) rest (arr_of (I (fst s0)) m f (snd s0)) else arr_of (I r) m f iz.
Proof.
  intros Hc Hk Hr Hz. destruct (exch_sources u me 3 r iz Hc Hr Hz ltac:(lia)) as (s0 & rest & H0 & H1 & H).
  exists s0, rest. split; [exact H0|]. split; [exact H1|]. intros I m f Hm. unfold exchange. rewrite Hk. rewrite of_rows_arr by exact Hm.
  destruct (in_v v f) eqn:Hv; [|reflexivity]. destruct (comp_name_of v f Hv) as [E1 E2]. rewrite H by exact E2.
  unfold total, from, to_rows. rewrite E1. reflexivity.
Qed.

(** ** Same bookkeeping, and the full fields are the Hankel step of the partial ones *)
Definition meta (l l' : list (@igrid C)) : Prop := Forall2 (fun g g' => ig_pml g = ig_pml g' /\ ig_dz g = ig_dz g') l l'.
Lemma meta_refl l : meta l l. Proof. induction l; constructor; auto. Qed.
Lemma meta_sym l l' : meta l l' -> meta l' l. Proof. induction 1 as [|a b l l' [E1 E2]]; constructor; auto. Qed.
Lemma meta_trans l1 l2 l3 : meta l1 l2 -> meta l2 l3 -> meta l1 l3.
Proof.
  intros H. revert l3. induction H as [|a b l l' [E1 E2] _ IH]; intros l3 H3; inversion H3; subst; constructor; [|apply IH; assumption].
  destruct H1. split; congruence.
Qed.
Lemma meta_length l l' : meta l l' -> length l = length l'. Proof. induction 1; cbn; auto. Qed.
Lemma meta_modes op l : (forall m g, ig_pml (op m g) = ig_pml g /\ ig_dz (op m g) = ig_dz g) -> meta (for_modes op l) l.
Proof.
  intros H. unfold for_modes. assert (L := length_range (Z.of_nat (length l))). rewrite Nat2Z.id in L. revert L. generalize (range (Z.of_nat (length l))).
  intros z. revert l. induction z as [|a z IH]; intros [|g l] HL; try discriminate; cbn; constructor; auto. apply IH. cbn in HL. lia.
Qed.

(** ** Damping and mirrors: one factor per mode and row *)
Definition rowscale (w : Z -> Z -> R) (l l' : list (@igrid C)) : Prop :=
  meta l' l /\ forall m f iz ir, 0 <= m < Z.of_nat (length l) ->
  arr_of l' m f iz ir = if is_EB f then Cmult (arr_of l m f iz ir) (RtoC (w m iz)) else arr_of l m f iz ir.
Definition no_pml (l : list (@igrid C)) : Prop := Forall (fun g => ig_pml g = false) l.
Lemma meta_no_pml l l' : meta l l' -> no_pml l' -> no_pml l.
Proof. unfold no_pml. induction 1 as [|a b l l' [E1 _] _ IH]; intros H; constructor; inversion H; subst; [congruence|auto]. Qed.
Lemma rowscale_trans w w' l1 l2 l3 : rowscale w l1 l2 -> rowscale w' l2 l3 -> rowscale (fun m iz => w m iz * w' m iz)%R l1 l3.
Proof.
  intros [M1 H1] [M2 H2]. split; [eapply meta_trans; eauto|]. intros m f iz ir Hm.
  rewrite H2 by (rewrite (meta_length _ _ M1); exact Hm). rewrite H1 by exact Hm. destruct (is_EB f); [apply Cmult_RR|reflexivity].
Qed.
Lemma rowscale_one l : rowscale (fun _ _ => 1%R) l l.
Proof. split; [apply meta_refl|]. intros m f iz ir _. destruct (is_EB f); [ring|reflexivity]. Qed.
Definition unit_w (w : Z -> Z -> R) : Prop := forall m iz, (0 <= w m iz <= 1)%R.

Lemma damp_form c Nz : 0 <= c_nzdamp c ->
  (exists e, forall g, damp_EB_open_boundary c Nz g = Err e) \/
  (exists w, (forall iz, (0 <= w iz <= 1)%R) /\ forall g, ig_pml g = false -> exists g', damp_EB_open_boundary c Nz g = Ok g' /\ ig_pml g' = ig_pml g /\ ig_dz g' = ig_dz g /\
     forall f iz ir, ig_arr g' f iz ir = if is_EB f then Cmult (ig_arr g f iz ir) (RtoC (w iz)) else ig_arr g f iz ir).
Proof.
  intros Hd. unfold damp_EB_open_boundary. assert (U : forall x, Cmult x (RtoC 1) = x) by (intros; ring).
  destruct (c_nzdamp c =? 0).
  { right. exists (fun _ => 1%R). split; [intros; lra|]. intros g _. exists g. split; [reflexivity|]. split; [reflexivity|]. split; [reflexivity|].
    intros. destruct (is_EB f); [rewrite U|]; reflexivity. }
  set (nd := c_nguard c + c_nzdamp c + c_ninject c). set (d := generate_damp_array (c_nguard c) (c_nzdamp c) (c_ninject c)).
  assert (R : forall i, (0 <= d i <= 1)%R) by (intros; apply F_range; exact Hd).
  set (wl := fun iz => if iz <? nd then d iz else 1%R). set (wr := fun iz => if Nz - nd <=? iz then d (nd - 1 - (iz - (Nz - nd))) else 1%R).
  assert (Rl : forall i, (0 <= wl i <= 1)%R) by (intros; unfold wl; destruct (_ <? _); [apply R|lra]).
  assert (Rr : forall i, (0 <= wr i <= 1)%R) by (intros; unfold wr; destruct (_ <=? _); [apply R|lra]).
  destruct (Nz <? nd).
  - destruct (c_left c), (c_right c); cbn [bind]; try (left; eexists; reflexivity).
    right. exists (fun _ => 1%R). split; [intros; lra|]. intros g _. exists g. split; [reflexivity|]. split; [reflexivity|]. split; [reflexivity|].
    intros. destruct (is_EB f); [rewrite U|]; reflexivity.
  - right. exists (fun iz => (match c_left c with None => wl iz | Some _ => 1 end) * (match c_right c with None => wr iz | Some _ => 1 end))%R.
    split. { intros iz. specialize (Rl iz). specialize (Rr iz). destruct (c_left c), (c_right c); nra. }
    intros g Hg. destruct (c_left c), (c_right c); cbn [bind]; eexists; (split; [reflexivity|]); (split; [reflexivity|]); (split; [reflexivity|]);
      intros f iz ir; cbn [ig_arr ig_pml]; unfold damped; rewrite ?Hg; cbn [andb]; rewrite ?orb_false_r; destruct (is_EB f); cbn [andb]; try reflexivity;
      rewrite ?Rmult_1_l, ?Rmult_1_r, ?U; try reflexivity; unfold wl, wr; destruct (Nz - nd <=? iz), (iz <? nd); rewrite ?Cmult_RR, ?Rmult_1_l, ?Rmult_1_r, ?U; reflexivity.
Qed.
Lemma map_res_err {A B} (f : A -> res B) e l : (forall a, f a = Err e) -> map_res f l = match l with [] => Ok [] | _ => Err e end.
Proof. intros H. destruct l as [|a l]; [reflexivity|]. cbn. rewrite H. reflexivity. Qed.
Lemma map_res_ok w (f : igrid -> res igrid) l : no_pml l ->
  (forall g, ig_pml g = false -> exists g', f g = Ok g' /\ ig_pml g' = ig_pml g /\ ig_dz g' = ig_dz g /\
     forall f iz ir, ig_arr g' f iz ir = if is_EB f then Cmult (ig_arr g f iz ir) (RtoC (w iz)) else ig_arr g f iz ir) ->
  exists l', map_res f l = Ok l' /\ rowscale (fun _ iz => w iz) l l'.
Proof.
  intros HP H.
  assert (Q : exists l', map_res f l = Ok l' /\ meta l' l /\ forall n g, nth_error l n = Some g -> exists g', nth_error l' n = Some g' /\
     forall f iz ir, ig_arr g' f iz ir = if is_EB f then Cmult (ig_arr g f iz ir) (RtoC (w iz)) else ig_arr g f iz ir).
  { induction HP as [|g l Hg _ (l' & E & M & IH)]; [exists []; split; [reflexivity|]; split; [constructor|]; intros [|n]; discriminate|].
    destruct (H g Hg) as (g' & Eg & P1 & P2 & P3). exists (g' :: l'). unfold map_res in *. cbn [fold_right]. rewrite Eg, E. cbn [bind].
    split; [reflexivity|]. split; [constructor; auto|]. intros [|n] g0; cbn [nth_error]; [|apply IH]. intros [= <-]. exists g'. auto. }
  destruct Q as (l' & E & M & Q). exists l'. split; [exact E|]. split; [exact M|]. intros m f0 iz ir Hm.
  destruct (mode_exists l m Hm) as [g Hg]. destruct (Q _ _ Hg) as (g' & Hg' & F). unfold arr_of. rewrite Hg, Hg'. apply F.
Qed.
Lemma mirror_form cl mi c t l1 l2 : meta l1 l2 -> no_pml l1 -> no_pml l2 ->
  (exists e, set_fields_to_zero (RtoC 0) cl mi c t l1 = Err e /\ set_fields_to_zero (RtoC 0) cl mi c t l2 = Err e) \/
  (exists w l1' l2', unit_w w /\ set_fields_to_zero (RtoC 0) cl mi c t l1 = Ok l1' /\ rowscale w l1 l1' /\
                     set_fields_to_zero (RtoC 0) cl mi c t l2 = Ok l2' /\ rowscale w l2 l2').
Proof.
  intros HM HP1 HP2. unfold set_fields_to_zero. set (zs := mirror_z cl mi t (m_start mi)). set (ze := mirror_z cl mi t (m_end mi)).
  destruct (get_zmin_zmax c true true true (Some (c_rank c))) as [[zmin zmax]|e]; cbn [bind]; [|left; eauto].
  destruct (_ || _).
  { right. exists (fun _ _ => 1%R), l1, l2. split; [intros m iz; lra|]. split; [reflexivity|]. split; [apply rowscale_one|]. split; [reflexivity|apply rowscale_one]. }
  destruct HM as [|g1 g2 t1 t2 [E1 E2] HM]; [left; eauto|]. right. rewrite E2.
  set (imax := Flocq.Core.Raux.Ztrunc ((zs - zmin) / ig_dz g2)). set (imin := Z.max (imax - Flocq.Core.Raux.Ztrunc ((ze - zs) / ig_dz g2)) 0).
  set (w := fun m iz : Z => if match m_modes mi with Some l => negb (existsb (Z.eqb m) l) | None => false end then 1%R
                            else if (imin <=? iz) && (iz <? imax) then 0%R else 1%R).
  assert (F : forall l, no_pml l -> rowscale w l (map (fun '(i, g) =>
      if match m_modes mi with Some l => negb (existsb (Z.eqb i) l) | None => false end then g else
      {| ig_pml := ig_pml g; ig_dz := ig_dz g;
         ig_arr := fun f => if is_EB f || (ig_pml g && is_pml f) then zero_rows (RtoC 0) imin imax (ig_arr g f) else ig_arr g f |})
      (combine (range (Z.of_nat (length l))) l))).
  { intros l HP. split.
    - apply (meta_modes (fun i g => if match m_modes mi with Some l => negb (existsb (Z.eqb i) l) | None => false end then g else
        {| ig_pml := ig_pml g; ig_dz := ig_dz g; ig_arr := fun f => if is_EB f || (ig_pml g && is_pml f) then zero_rows (RtoC 0) imin imax (ig_arr g f) else ig_arr g f |}) l).
      intros m g. destruct (match m_modes mi with Some _ => _ | None => _ end); auto.
    - intros m f iz ir Hm. destruct (mode_exists l m Hm) as [g Hg]. unfold arr_of. rewrite Hg, nth_error_map, nth_enum, Hg. cbn [option_map].
      rewrite Z2Nat.id by lia. assert (Pg : ig_pml g = false) by (exact (proj1 (Forall_forall _ _) HP g (nth_error_In _ _ Hg))).
      unfold w. destruct (match m_modes mi with Some _ => _ | None => _ end); [destruct (is_EB f); [ring|reflexivity]|].
      cbn [ig_arr]. rewrite Pg. cbn [andb]. rewrite orb_false_r. destruct (is_EB f); [|reflexivity]. unfold zero_rows.
      destruct (_ && _); ring. }
  exists w. eexists. eexists. split; [intros m iz; unfold w; destruct (match m_modes mi with Some _ => _ | None => _ end); [lra|]; destruct (_ && _); lra|].
  split; [reflexivity|]. split; [apply F; exact HP1|]. split; [reflexivity|apply F; exact HP2].
Qed.
Lemma mirrors_form cl ms c t : forall l1 l2, meta l1 l2 -> no_pml l1 -> no_pml l2 ->
  let run l := fold_left (fun acc mi => bind acc (set_fields_to_zero (RtoC 0) cl mi c t)) ms (Ok l) in
  (exists e, run l1 = Err e /\ run l2 = Err e) \/
  (exists w l1' l2', unit_w w /\ run l1 = Ok l1' /\ rowscale w l1 l1' /\ run l2 = Ok l2' /\ rowscale w l2 l2').
Proof.
  induction ms as [|mi ms IH]; intros l1 l2 HM P1 P2 run; subst run; cbn [fold_left].
  - right. exists (fun _ _ => 1%R), l1, l2. split; [intros m iz; lra|]. split; [reflexivity|]. split; [apply rowscale_one|]. split; [reflexivity|apply rowscale_one].
  - cbn [bind]. destruct (mirror_form cl mi c t l1 l2 HM P1 P2) as [(e & -> & ->)|(w & l1' & l2' & U & -> & R1 & -> & R2)].
    + left. exists e. assert (E : forall ms, fold_left (fun acc mi => bind acc (set_fields_to_zero (RtoC 0) cl mi c t)) ms (Err e) = Err e)
        by (clear; induction ms; auto). rewrite !E. auto.
    + assert (M : meta l1' l2') by (eapply meta_trans; [apply R1|]; eapply meta_trans; [exact HM|apply meta_sym, R2]).
      destruct (IH l1' l2' M (meta_no_pml _ _ (proj1 R1) P1) (meta_no_pml _ _ (proj1 R2) P2)) as [H|(w' & m1 & m2 & U' & E1 & S1 & E2 & S2)]; [left; exact H|].
      right. exists (fun m iz => w m iz * w' m iz)%R, m1, m2. split; [intros m iz; specialize (U m iz); specialize (U' m iz); nra|].
      split; [exact E1|]. split; [eapply rowscale_trans; eauto|]. split; [exact E2|]. eapply rowscale_trans; eauto.
Qed.
Lemma dm_form u t r l1 l2 : u_pml u = false -> 0 <= c_nzdamp (u_comm u r) -> meta l1 l2 -> no_pml l1 -> no_pml l2 ->
  (exists e, damp_and_mirrors u t r l1 = Err e /\ damp_and_mirrors u t r l2 = Err e) \/
  (exists w l1' l2', unit_w w /\ damp_and_mirrors u t r l1 = Ok l1' /\ rowscale w l1 l1' /\ damp_and_mirrors u t r l2 = Ok l2' /\ rowscale w l2 l2').
Proof.
  intros Hp Hd HM P1 P2. unfold damp_and_mirrors. rewrite Hp.
  destruct (damp_form (u_comm u r) (u_Nz u r) Hd) as [[e He]|(w & U & H)].
  - rewrite !(map_res_err _ e) by exact He. destruct HM; [|left; exists e; auto]. cbn [bind]. apply (mirrors_form (u_c u) (u_mirrors u) (u_comm u r) t [] []); auto. constructor.
  - destruct (map_res_ok w _ l1 P1 H) as (l1' & -> & R1). destruct (map_res_ok w _ l2 P2 H) as (l2' & -> & R2). cbn [bind].
    assert (M : meta l1' l2') by (eapply meta_trans; [apply R1|]; eapply meta_trans; [exact HM|apply meta_sym, R2]).
    destruct (mirrors_form (u_c u) (u_mirrors u) (u_comm u r) t l1' l2' M (meta_no_pml _ _ (proj1 R1) P1) (meta_no_pml _ _ (proj1 R2) P2))
      as [K|(w' & m1 & m2 & U' & E1 & S1 & E2 & S2)]; [left; exact K|].
    right. exists (fun m iz => w iz * w' m iz)%R, m1, m2. split; [intros m iz; specialize (U iz); specialize (U' m iz); nra|].
    split; [exact E1|]. split; [apply (rowscale_trans (fun _ iz => w iz) w' l1 l1' m1 R1 S1)|]. split; [exact E2|].
    apply (rowscale_trans (fun _ iz => w iz) w' l2 l2' m2 R2 S2).
Qed.

(** ** The relation between the partial and the full representation *)
Definition rel (u : setup) (r : Z) (vs : list vfield) (P F : list (@igrid C)) : Prop :=
  meta P F /\ forall v m f iz ir, 0 <= m < Z.of_nat (length P) -> In v vs -> in_v v f = true -> 0 <= iz < u_Nz u r -> 0 <= ir < u_Nr u ->
  arr_of F m f iz ir = Tm (u_trans u 0) (u_Nr u) m (fun f => arr_of P m f iz) f ir.
Lemma Tm_rank u r m : consistent u -> Tm (u_trans u r) (u_Nr u) m = Tm (u_trans u 0) (u_Nr u) m.
Proof. intros H. unfold Tm. destruct (cs_M u H r 0 m) as (-> & -> & ->). reflexivity. Qed.
Lemma in_v_unique v w f : in_v v f = true -> in_v w f = true -> v = w.
Proof. destruct v, w, f as [| | | | | | | | | |[|[|[|n]]]]; cbn; intros; congruence. Qed.
Lemma meta_set l (ops : Z -> list (fname * (Z -> Z -> C))) :
  meta (for_modes (fun m g => fold_right (fun fa => set_arr (fst fa) (snd fa)) g (ops m)) l) l.
Proof. apply meta_modes. intros m g. induction (ops m) as [|a o [IH1 IH2]]; [auto|]. cbn. auto. Qed.
Lemma meta_exchange u v me I r : meta (exchange u v me I r) (I r).
Proof.
  unfold exchange, of_rows. apply meta_modes. intros m g. induction (range (n_comp (u_pml u) v)) as [|a o [IH1 IH2]]; [auto|]. cbn. auto.
Qed.
Lemma meta_s2i trans cells v S l : meta (spect2interp trans cells v S l) l.
Proof. unfold spect2interp. apply meta_modes. intros m g. destruct (spect2interp_vect _ _ _ _). auto. Qed.
Lemma meta_s2p trans v S l : meta (spect2partial_interp trans v S l) l.
Proof. unfold spect2partial_interp. apply meta_modes. auto. Qed.

Lemma rel_exchange u v me vs P F Nm : consistent u -> n_comp (u_pml u) v = 3 ->
  (forall r, 0 <= r < u_size u -> rel u r vs (P r) (F r) /\ length (P r) = Nm) ->
  forall r, 0 <= r < u_size u -> rel u r vs (exchange u v me P r) (exchange u v me F r).
Proof.
  intros Hc Hk H r Hr. destruct (H r Hr) as [[HM HR] HL].
  assert (L1 := meta_length _ _ (meta_exchange u v me P r)). assert (LF := meta_length _ _ HM).
  split. { eapply meta_trans; [apply meta_exchange|]. eapply meta_trans; [exact HM|]. apply meta_sym, meta_exchange. }
  intros v0 m f iz ir Hm Hin Hf Hz Hir. rewrite L1 in Hm.
  destruct (exch_arr u v me r iz Hc Hk Hr Hz) as (s0 & rest & H0 & H1 & E).
  rewrite E by (rewrite <- LF; exact Hm). destruct (in_v v f) eqn:Hv.
  - assert (v0 = v) by (eapply in_v_unique; eauto). subst v0.
    unfold Tm. rewrite (T_ext (u_Nr u) _ _ _ v _ (fun f => fold_left (fun acc s => plus_rows acc (arr_of (P (fst s)) m f (snd s))) rest (arr_of (P (fst s0)) m f (snd s0))) f ir Hf).
    2: { intros f' j Hf' Hj. rewrite E by exact Hm. rewrite Hf'. reflexivity. }
    fold (Tm (u_trans u 0) (u_Nr u) m).
    assert (B : forall s f, cell_ok u s -> in_v v f = true -> arr_of (F (fst s)) m f (snd s) ir = Tm (u_trans u 0) (u_Nr u) m (fun f => arr_of (P (fst s)) m f (snd s)) f ir).
    { intros s f' [S1 S2] Hf'. destruct (H (fst s) S1) as [[_ R'] L']. apply (R' v); auto. rewrite L', <- HL. exact Hm. }
    assert (G : forall rest (aF : fname -> Z -> C) (aP : fname -> Z -> C), Forall (cell_ok u) rest ->
      (forall f, in_v v f = true -> aF f ir = Tm (u_trans u 0) (u_Nr u) m aP f ir) -> forall f, in_v v f = true ->
      fold_left (fun acc s => plus_rows acc (arr_of (F (fst s)) m f (snd s))) rest (aF f) ir =
      Tm (u_trans u 0) (u_Nr u) m (fun f => fold_left (fun acc s => plus_rows acc (arr_of (P (fst s)) m f (snd s))) rest (aP f)) f ir).
    { clear - B. induction rest as [|s rest IH]; intros aF aP HF Ha f Hf; [apply Ha; exact Hf|]. inversion HF; subst. cbn [fold_left].
      apply (IH (fun f => plus_rows (aF f) (arr_of (F (fst s)) m f (snd s))) (fun f => plus_rows (aP f) (arr_of (P (fst s)) m f (snd s)))); auto.
      intros f' Hf'. unfold Tm. rewrite (T_plus _ _ _ _ v) by exact Hf'. unfold plus_rows at 1. rewrite Ha, B by auto. reflexivity. }
    apply (G rest (fun f => arr_of (F (fst s0)) m f (snd s0)) (fun f => arr_of (P (fst s0)) m f (snd s0))); auto.
  - rewrite (HR v0 m f iz ir Hm Hin Hf Hz Hir). unfold Tm. apply (T_ext _ _ _ _ v0); [exact Hf|]. intros f' j Hf' Hj. rewrite E by exact Hm.
    destruct (in_v v f') eqn:Hv'; [|reflexivity]. assert (v0 = v) by (eapply in_v_unique; eauto). subst. congruence.
Qed.
Lemma EB_v f : is_EB f = true -> exists v, In v [FE; FB] /\ in_v v f = true.
Proof. destruct f; intros H; try discriminate; [exists FE|exists FE|exists FE|exists FB|exists FB|exists FB]; cbn; auto. Qed.
Lemma v_EB v f : In v [FE; FB] -> in_v v f = true -> is_EB f = true.
Proof. intros [<-|[<-|[]]]; destruct f; cbn; intros; congruence. Qed.

(** The start: the partial transforms on one side, the full ones on the other. *)
Lemma rel_start u vs S I r : consistent u -> 0 <= r < u_size u -> NoDup vs ->
  let P := fold_left (fun l v => spect2partial_interp (u_trans u r) v (S r) l) vs (I r) in
  rel u r vs P (in_space u vs S I r) /\ meta P (I r).
Proof.
  intros Hc Hr ND. unfold in_space.
  assert (Mp : forall vs l, meta (fold_left (fun l v => spect2partial_interp (u_trans u r) v (S r) l) vs l) l).
  { clear. induction vs as [|v vs IH]; intros l; [apply meta_refl|]. cbn. eapply meta_trans; [apply IH|apply meta_s2p]. }
  assert (Mf : forall vs l, meta (fold_left (fun l v => spect2interp (u_trans u r) (u_cells u r) v (S r) l) vs l) l).
  { clear. induction vs as [|v vs IH]; intros l; [apply meta_refl|]. cbn. eapply meta_trans; [apply IH|apply meta_s2i]. }
  split; [|apply Mp]. split; [eapply meta_trans; [apply Mp|apply meta_sym, Mf]|].
  intros v m f iz ir Hm Hin Hf Hz Hir. rewrite (meta_length _ _ (Mp vs (I r))) in Hm.
  assert (A : forall vs l m f, 0 <= m < Z.of_nat (length l) -> In v vs -> in_v v f = true ->
     arr_of (fold_left (fun l v => spect2partial_interp (u_trans u r) v (S r) l) vs l) m f iz = ifft (u_Nz u r) (S r m v (sc f)) iz).
  { clear - Hc. intros vs. assert (N : forall vs l m f, 0 <= m < Z.of_nat (length l) -> ~ In v vs -> in_v v f = true ->
       arr_of (fold_left (fun l v => spect2partial_interp (u_trans u r) v (S r) l) vs l) m f iz = arr_of l m f iz).
    { induction vs0 as [|w vs0 IH]; intros l m f Hm Hin Hf; [reflexivity|]. cbn [fold_left]. rewrite IH; auto.
      - rewrite (s2p_arr _ (u_Nz u r) (u_Nr u) (fun m => cs_tNz u Hc r m) (fun m => cs_tNr u Hc r m)) by auto. destruct (in_v w f) eqn:W; [|reflexivity]. destruct Hin. left. eapply in_v_unique; eauto.
      - rewrite (meta_length _ _ (meta_s2p _ _ _ _)). exact Hm.
      - intros Q. apply Hin. right. exact Q. }
    induction vs as [|w vs IH]; intros l m f Hm Hin Hf; [contradiction|]. cbn [fold_left].
    assert (Hm' : 0 <= m < Z.of_nat (length (spect2partial_interp (u_trans u r) w (S r) l))) by (rewrite (meta_length _ _ (meta_s2p _ _ _ _)); exact Hm).
    destruct (in_dec (fun a b : vfield => ltac:(decide equality) : {a = b} + {a <> b}) v vs) as [i|n]; [apply IH; auto|].
    destruct Hin as [->|i]; [|contradiction]. rewrite N by auto. rewrite (s2p_arr _ (u_Nz u r) (u_Nr u) (fun m => cs_tNz u Hc r m) (fun m => cs_tNr u Hc r m)) by auto. rewrite Hf. reflexivity. }
  assert (B : forall vs l m f ir, 0 <= m < Z.of_nat (length l) -> In v vs -> in_v v f = true -> 0 <= ir < u_Nr u ->
     arr_of (fold_left (fun l v => spect2interp (u_trans u r) (u_cells u r) v (S r) l) vs l) m f iz ir =
     Tm (u_trans u r) (u_Nr u) m (fun f => ifft (u_Nz u r) (S r m v (sc f)) iz) f ir).
  { clear - Hc Hz Hr. intros vs.
    assert (SI : forall w l m f ir, 0 <= m < Z.of_nat (length l) -> 0 <= ir < u_Nr u ->
      arr_of (spect2interp (u_trans u r) (u_cells u r) w (S r) l) m f iz ir =
      if in_v w f then Tm (u_trans u r) (u_Nr u) m (fun f => ifft (u_Nz u r) (S r m w (sc f)) iz) f ir else arr_of l m f iz ir).
    { intros. apply s2i_arr; auto; intros; [apply (cs_tNz u Hc)|apply (cs_tNr u Hc)|apply (cs_cells u Hc); exact Hr]. }
    assert (N : forall vs l m f ir, 0 <= m < Z.of_nat (length l) -> ~ In v vs -> in_v v f = true -> 0 <= ir < u_Nr u ->
       arr_of (fold_left (fun l v => spect2interp (u_trans u r) (u_cells u r) v (S r) l) vs l) m f iz ir = arr_of l m f iz ir).
    { induction vs0 as [|w vs0 IH]; intros l m f ir Hm Hin Hf Hir; [reflexivity|]. cbn [fold_left]. rewrite IH; auto.
      - rewrite SI by auto. destruct (in_v w f) eqn:W; [|reflexivity]. destruct Hin. left. eapply in_v_unique; eauto.
      - rewrite (meta_length _ _ (meta_s2i _ _ _ _ _)). exact Hm.
      - intros Q. apply Hin. right. exact Q. }
    induction vs as [|w vs IH]; intros l m f ir Hm Hin Hf Hir; [contradiction|]. cbn [fold_left].
    assert (Hm' : 0 <= m < Z.of_nat (length (spect2interp (u_trans u r) (u_cells u r) w (S r) l))) by (rewrite (meta_length _ _ (meta_s2i _ _ _ _ _)); exact Hm).
    destruct (in_dec (fun a b : vfield => ltac:(decide equality) : {a = b} + {a <> b}) v vs) as [i|n]; [apply IH; auto|].
    destruct Hin as [->|i]; [|contradiction]. rewrite N by auto. rewrite SI by auto. rewrite Hf. reflexivity. }
  rewrite B by auto. rewrite (Tm_rank u r m Hc). unfold Tm. apply (T_ext _ _ _ _ v); [exact Hf|]. intros f' j Hf' Hj. rewrite A by auto. reflexivity.
Qed.

(** ** The whole step *)
Definition both (u : setup) (S : Z -> spectrum) (I : Z -> list (@igrid C)) : Z -> list (@igrid C) :=
  exchange u FB Replace (exchange u FE Replace (fun r => spect2partial_interp (u_trans u r) FB (S r) (spect2partial_interp (u_trans u r) FE (S r) (I r)))).
Lemma rel_both u S I Nm r : consistent u -> u_pml u = false -> grids_ok u Nm I -> 0 <= r < u_size u ->
  rel u r [FE; FB] (both u S I r) (exchange u FB Replace (exchange u FE Replace (in_space u [FE; FB] S I)) r) /\ meta (both u S I r) (I r).
Proof.
  intros Hc Hp Hg Hr. unfold both. set (P := fun r => spect2partial_interp (u_trans u r) FB (S r) (spect2partial_interp (u_trans u r) FE (S r) (I r))).
  assert (K : forall v, v <> FJ -> n_comp (u_pml u) v = 3) by (intros v Hv; rewrite Hp; destruct v; reflexivity).
  assert (M0 : forall r, meta (P r) (I r)) by (intros; unfold P; eapply meta_trans; [apply meta_s2p|apply meta_s2p]).
  assert (ND : NoDup [FE; FB]) by (repeat constructor; cbn; intuition discriminate).
  assert (M1 : forall r, meta (exchange u FE Replace P r) (I r)) by (intros; eapply meta_trans; [apply meta_exchange|apply M0]).
  split.
  - apply (rel_exchange u FB Replace [FE; FB] _ _ Nm Hc); [apply K; discriminate| |exact Hr]. intros r' Hr'. split; [|rewrite (meta_length _ _ (M1 r')); apply Hg; exact Hr'].
    apply (rel_exchange u FE Replace [FE; FB] _ _ Nm Hc); [apply K; discriminate| |exact Hr']. intros r2 Hr2.
    split; [apply (rel_start u [FE; FB] S I r2 Hc Hr2 ND)|]. rewrite (meta_length _ _ (M0 r2)). apply Hg. exact Hr2.
  - eapply meta_trans; [apply meta_exchange|]. apply M1.
Qed.
Lemma EB_step u t S I Nm r : consistent u -> u_pml u = false -> grids_ok u Nm I -> 0 <= r < u_size u -> 0 <= c_nzdamp (u_comm u r) ->
  let X := exchange u FB Replace (exchange u FE Replace (in_space u [FE; FB] S I)) r in
  (exists e, damp_and_mirrors u t r X = Err e /\ exchange_and_damp_EB u t S I r = Err e) \/
  (exists w l' S' l, unit_w w /\ damp_and_mirrors u t r X = Ok l' /\ rowscale w X l' /\ exchange_and_damp_EB u t S I r = Ok (S', l) /\
     agree (u_Nz u r) (u_Nr u) is_EB l l' /\ length l = Nm /\ agree (u_Nz u r) (u_Nr u) is_EB l (in_space u [FE; FB] (fun _ => S') I r)).
Proof.
  intros Hc Hp Hg Hr Hd X. destruct (rel_both u S I Nm r Hc Hp Hg Hr) as [[HM HR] MI]. fold X in HM, HR.
  destruct (Hg r Hr) as [Hlen Hnp]. assert (P1 : no_pml (both u S I r)) by (eapply meta_no_pml; [exact MI|exact Hnp]).
  assert (P2 : no_pml X) by (eapply meta_no_pml; [apply meta_sym, HM|exact P1]).
  unfold exchange_and_damp_EB. rewrite Hp. change (exchange u FB Replace (exchange u FE Replace _) r) with (both u S I r).
  destruct (dm_form u t r _ _ Hp Hd HM P1 P2) as [(e & -> & ->)|(w & p & l' & U & -> & R1 & -> & R2)].
  { left. exists e. auto. }
  right. cbn [bind].
  set (S' := partial_interp2spect (u_trans u r) FB p (partial_interp2spect (u_trans u r) FE p (S r))).
  set (l := spect2interp (u_trans u r) (u_cells u r) FB S' (spect2interp (u_trans u r) (u_cells u r) FE S' p)).
  exists w, l', S', l. split; [exact U|]. split; [reflexivity|]. split; [exact R2|]. split; [reflexivity|].
  assert (Ml : meta l p) by (unfold l; eapply meta_trans; [apply meta_s2i|apply meta_s2i]).
  assert (Lp : length p = Nm) by (rewrite (meta_length _ _ (proj1 R1)), (meta_length _ _ MI); exact Hlen).
  assert (Ll : length l = Nm) by (rewrite (meta_length _ _ Ml); exact Lp).
  assert (SI : forall w q m f iz ir, 0 <= m < Z.of_nat (length q) -> 0 <= iz < u_Nz u r -> 0 <= ir < u_Nr u ->
      arr_of (spect2interp (u_trans u r) (u_cells u r) w S' q) m f iz ir =
      if in_v w f then Tm (u_trans u r) (u_Nr u) m (fun f => ifft (u_Nz u r) (S' m w (sc f)) iz) f ir else arr_of q m f iz ir).
  { intros. apply s2i_arr; auto; intros; [apply (cs_tNz u Hc)|apply (cs_tNr u Hc)|apply (cs_cells u Hc); exact Hr]. }
  assert (SV : forall v m f iz ir, In v [FE; FB] -> in_v v f = true -> 0 <= iz < u_Nz u r -> ifft (u_Nz u r) (S' m v (sc f)) iz ir = arr_of p m f iz ir).
  { intros v m f iz ir Hin Hf Hz. destruct Hin as [<-|[<-|[]]]; unfold S'.
    - transitivity (ifft (u_Nz u r) (partial_interp2spect (u_trans u r) FE p (S r) m FE (sc f)) iz ir); [reflexivity|].
      apply (p2s_ifft _ (u_Nz u r)); auto. intros; apply (cs_tNz u Hc).
    - apply (p2s_ifft _ (u_Nz u r)); auto. intros; apply (cs_tNz u Hc). }
  assert (V : forall v q m f iz ir, 0 <= m < Z.of_nat (length q) -> In v [FE; FB] -> in_v v f = true -> 0 <= iz < u_Nz u r -> 0 <= ir < u_Nr u ->
     arr_of (spect2interp (u_trans u r) (u_cells u r) FB S' (spect2interp (u_trans u r) (u_cells u r) FE S' q)) m f iz ir =
     Tm (u_trans u r) (u_Nr u) m (fun f => ifft (u_Nz u r) (S' m v (sc f)) iz) f ir).
  { intros v q m f iz ir Hm Hin Hf Hz Hir. rewrite SI by (auto; rewrite (meta_length _ _ (meta_s2i _ _ _ _ _)); exact Hm).
    destruct Hin as [<-|[<-|[]]]; [|rewrite Hf; reflexivity].
    destruct (in_v FB f) eqn:E; [assert (Q := in_v_unique _ _ _ Hf E); discriminate|]. rewrite SI by auto. rewrite Hf. reflexivity. }
  split; [|split; [exact Ll|]].
  - split. { rewrite Ll. rewrite (meta_length _ _ (proj1 R2)), <- (meta_length _ _ HM), (meta_length _ _ MI). symmetry. exact Hlen. }
    intros m f iz ir Hm Hf Hz Hir. destruct (EB_v f Hf) as (v & Hin & Hv).
    assert (Hmp : 0 <= m < Z.of_nat (length p)) by (rewrite Lp, <- Ll; exact Hm).
    assert (Hmb : 0 <= m < Z.of_nat (length (both u S I r))) by (rewrite <- (meta_length _ _ (proj1 R1)); exact Hmp).
    unfold l. rewrite (V v) by auto. rewrite (proj2 R2) by (rewrite <- (meta_length _ _ HM); exact Hmb). rewrite Hf.
    rewrite (HR v m f iz ir Hmb Hin Hv Hz Hir). rewrite Tm_rank by exact Hc. unfold Tm.
    rewrite <- (T_scal _ _ _ _ v) by exact Hv. apply (T_ext _ _ _ _ v); [exact Hv|]. intros f' j Hf' Hj.
    rewrite (SV v) by auto. rewrite (proj2 R1) by exact Hmb. rewrite (v_EB v f' Hin Hf'). reflexivity.
  - assert (LI : length (in_space u [FE; FB] (fun _ => S') I r) = Nm).
    { unfold in_space. cbn [fold_left]. rewrite !(meta_length _ _ (meta_s2i _ _ _ _ _)). exact Hlen. }
    split; [rewrite Ll, LI; reflexivity|]. intros m f iz ir Hm Hf Hz Hir. destruct (EB_v f Hf) as (v & Hin & Hv).
    unfold l, in_space. cbn [fold_left]. rewrite !(V v); auto; [rewrite Hlen, <- Ll|rewrite Lp, <- Ll]; exact Hm.
Qed.

(** ** The current *)
Lemma J_v f : is_J f = true -> in_v FJ f = true.
Proof. destruct f as [| | | | | | | | | |[|[|[|n]]]]; cbn; intros; congruence. Qed.
Lemma J_step u S I Nm r : consistent u -> grids_ok u Nm I -> 0 <= r < u_size u ->
  agree (u_Nz u r) (u_Nr u) is_J (in_space u [FJ] (fun r => fst (exchange_J u S I r)) I r) (exchange u FJ Add (in_space u [FJ] S I) r).
Proof.
  intros Hc Hg Hr. set (P := fun r => spect2partial_interp (u_trans u r) FJ (S r) (I r)).
  assert (ND : NoDup [FJ]) by (repeat constructor; cbn; intuition discriminate).
  assert (M0 : forall r, meta (P r) (I r)) by (intros; apply meta_s2p).
  assert (HX : rel u r [FJ] (exchange u FJ Add P r) (exchange u FJ Add (in_space u [FJ] S I) r)).
  { apply (rel_exchange u FJ Add [FJ] _ _ Nm Hc); [reflexivity| |exact Hr]. intros r' Hr'.
    split; [apply (rel_start u [FJ] S I r' Hc Hr' ND)|]. rewrite (meta_length _ _ (M0 r')). apply Hg. exact Hr'. }
  destruct HX as [HM HR]. assert (MP : meta (exchange u FJ Add P r) (I r)) by (eapply meta_trans; [apply meta_exchange|apply M0]).
  unfold in_space at 1. cbn [fold_left]. split.
  - rewrite (meta_length _ _ (meta_s2i _ _ _ _ _)). rewrite <- (meta_length _ _ HM), (meta_length _ _ MP). reflexivity.
  - intros m f iz ir Hm Hf Hz Hir. rewrite (meta_length _ _ (meta_s2i _ _ _ _ _)) in Hm. apply J_v in Hf.
    assert (Hm' : 0 <= m < Z.of_nat (length (exchange u FJ Add P r))) by (rewrite (meta_length _ _ MP); exact Hm).
    rewrite (HR FJ m f iz ir Hm' (or_introl eq_refl) Hf Hz Hir).
    rewrite (s2i_arr (u_trans u r) (u_cells u r) (u_Nz u r) (u_Nr u)); auto;
      [|intros; apply (cs_tNz u Hc)|intros; apply (cs_tNr u Hc)|apply (cs_cells u Hc); exact Hr].
    rewrite Hf, Tm_rank by exact Hc. unfold Tm. apply (T_ext _ _ _ _ FJ); [exact Hf|]. intros f' j Hf' Hj. unfold exchange_J. cbn [fst].
    apply (p2s_ifft _ (u_Nz u r)); auto. intros; apply (cs_tNz u Hc).
Qed.

(** ** What arrives where *)
Lemma exch_is u v I r m f iz : n_comp (u_pml u) v = 3 -> 0 <= m < Z.of_nat (length (I r)) ->
  arr_of (exchange u v Replace I r) m f iz = if in_v v f then
    exchange_fields plus_rows (u_size u) (u_left u) (u_right u) Replace 3 (u_nguard u) (u_Nz u) (fun r m comp => arr_of (I r) m (comp_name v comp)) r m (comp_of f) iz
  else arr_of (I r) m f iz.
Proof. intros Hk Hm. unfold exchange. rewrite Hk. rewrite of_rows_arr by exact Hm. reflexivity. Qed.
Lemma replaced_both b c start u I Nm m f ir : built b c u -> geom_ok b c (u_Nz u) start -> u_pml u = false ->
  (forall r, 0 <= r < u_size u -> length (I r) = Nm) -> 0 <= m < Z.of_nat Nm -> is_EB f = true ->
  Guard_Spec.replaced b (c_Nz c) (c_nguard c) (c_size c) (fun r => left_proc b r (c_size c)) (fun r => right_proc b r (c_size c)) (u_Nz u) start
    (fun r i => arr_of (I r) m f i ir) (fun r i => arr_of (exchange u FB Replace (exchange u FE Replace I) r) m f i ir).
Proof.
  intros [B1 B2 B3 B4 B5] Hg Hp HL Hm Hf r i Hr Hi.
  assert (K : forall v, v <> FJ -> n_comp (u_pml u) v = 3) by (intros v Hv; rewrite Hp; destruct v; reflexivity).
  assert (E : arr_of (exchange u FB Replace (exchange u FE Replace I) r) m f i =
    exchange_fields plus_rows (c_size c) (fun r => left_proc b r (c_size c)) (fun r => right_proc b r (c_size c)) Replace 3 (c_nguard c) (u_Nz u)
      (fun r m comp => arr_of (I r) m (comp_name (if in_v FE f then FE else FB) comp)) r m (comp_of f) i).
  { assert (Lr : 0 <= m < Z.of_nat (length (I r))) by (rewrite (HL r) by (rewrite B1; exact Hr); exact Hm).
    rewrite exch_is; [|apply K; discriminate|rewrite (meta_length _ _ (meta_exchange u FE Replace I r)); exact Lr].
    rewrite exch_is; [|apply K; discriminate|exact Lr]. rewrite B1, B2, B3, B4.
    destruct (in_v FE f) eqn:E1; [destruct (in_v FB f) eqn:E2; [assert (Q := in_v_unique _ _ _ E1 E2); discriminate|reflexivity]|].
    destruct (in_v FB f) eqn:E2; [|destruct f; discriminate].
    unfold exchange_fields. destruct (c_size c =? 1) eqn:S1.
    { destruct (comp_name_of FB f E2) as [N1 N2]. rewrite exch_is; [|apply K; discriminate|exact Lr]. rewrite N1, E1. reflexivity. }
    destruct (comp_name_of FB f E2) as [N1 N2]. destruct (unpack_pack 3 m (comp_of f) N2) as [U1 U2].
    assert (X : forall r' j, 0 <= r' < c_size c -> arr_of (exchange u FE Replace I r') m f j = arr_of (I r') m f j).
    { intros r' j Hr'. rewrite exch_is; [rewrite E1; reflexivity|apply K; discriminate|]. rewrite HL by (rewrite B1; exact Hr'). exact Hm. }
    unfold recv_right, recv_left, send_l, send_r, pack.
    destruct (right_proc b r (c_size c)) as [s|] eqn:ER; [destruct (go_right _ _ _ _ Hg r s Hr ER) as [Rs _]|];
    (destruct (left_proc b r (c_size c)) as [l|] eqn:EL; [destruct (go_left _ _ _ _ Hg r l Hr EL) as [Rl _]|]);
      cbv beta iota zeta; rewrite ?U1, ?U2, ?N1; repeat (match goal with |- context [if ?c then _ else _] => destruct c end); rewrite ?X by assumption; reflexivity. }
  assert (Hv : comp_name (if in_v FE f then FE else FB) (comp_of f) = f /\ 0 <= comp_of f < 3).
  { destruct (in_v FE f) eqn:E1; [apply comp_name_of; exact E1|]. apply comp_name_of. destruct f; cbn in *; congruence. }
  destruct Hv as [Hn Hcmp].
  destruct (replace_ok plus_rows b c (u_Nz u) start 3 (fun r m comp => arr_of (I r) m (comp_name (if in_v FE f then FE else FB) comp)) m (comp_of f) Hg Hcmp r i Hr Hi)
    as (R1 & R2 & R3). rewrite <- E in R1, R2, R3. rewrite Hn in R1, R2, R3. split; [|split].
  - intros l Hl Hi1. destruct (R1 l Hl Hi1) as (j & J1 & J2 & J3). exists j. rewrite J3. auto.
  - intros l Hl Hi1. destruct (R2 l Hl Hi1) as (j & J1 & J2 & J3). exists j. rewrite J3. auto.
  - intros H1 H2. rewrite (R3 H1 H2). reflexivity.
Qed.

(** ** With PML *)
Lemma hk_undone Nr M invM x ir : undone Nr M invM -> 0 <= ir < Nr -> hk Nr invM (hk Nr M x) ir = x ir.
Proof.
  intros H Hir. unfold hk.
  rewrite (lsum_ext _ (fun j => lsum (fun i => Cmult (x i) (RtoC (M i j * invM j ir))) (range Nr))).
  2: { intros j _. rewrite <- lsum_scal_r. apply lsum_ext. intros i _. rewrite RtoC_mult. ring. }
  rewrite lsum_swap. rewrite (lsum_ext _ (fun i => if i =? ir then x i else RtoC 0)); [apply lsum_single; exact Hir|].
  intros i Hi. apply in_range in Hi. rewrite lsum_scal, lsum_rsum, H by auto. unfold delta_R. destruct (i =? ir); ring.
Qed.
Lemma rt_loop cells Nz Nr a b : all_cells Nz Nr cells -> forall iz ir, 0 <= iz < Nz -> 0 <= ir < Nr ->
  rt_to_pm buf_r buf_t buf_p buf_m cells (two_arrays a b) buf_p iz ir = to_p (a iz ir) (b iz ir) /\
  rt_to_pm buf_r buf_t buf_p buf_m cells (two_arrays a b) buf_m iz ir = to_m (a iz ir) (b iz ir).
Proof.
  intros [ND Hin] iz ir Hz Hr. rewrite rt_to_pm_loop.
  assert (D : distinct_arrays buf_r buf_t buf_p buf_m) by (unfold distinct_arrays, buf_p, buf_m, buf_r, buf_t; lia).
  destruct (loop2 to_p to_m _ _ _ _ cells ND D (two_arrays a b) iz ir) as [L _]. exact (L (Hin _ _ (conj Hz Hr))).
Qed.
Lemma back_vect tr cells Fr Ft iz ir : all_cells (t_Nz tr) (t_Nr tr) cells -> 0 <= iz < t_Nz tr -> 0 <= ir < t_Nr tr ->
  undone (t_Nr tr) (t_Mp tr) (t_invMp tr) -> undone (t_Nr tr) (t_Mm tr) (t_invMm tr) ->
  let pm := interp2spect_vect tr cells Fr Ft in
  hk (t_Nr tr) (t_invMp tr) (ifft (t_Nz tr) (fst pm) iz) ir = to_p (Fr iz ir) (Ft iz ir) /\
  hk (t_Nr tr) (t_invMm tr) (ifft (t_Nz tr) (snd pm) iz) ir = to_m (Fr iz ir) (Ft iz ir).
Proof.
  intros HC Hz Hr U1 U2 pm. unfold pm, interp2spect_vect. cbn [fst snd].
  assert (L := rt_loop cells _ _ (fft (t_Nz tr) Fr) (fft (t_Nz tr) Ft) HC).
  set (p := rt_to_pm buf_r buf_t buf_p buf_m cells (two_arrays (fft (t_Nz tr) Fr) (fft (t_Nz tr) Ft)) buf_p) in *.
  set (q := rt_to_pm buf_r buf_t buf_p buf_m cells (two_arrays (fft (t_Nz tr) Fr) (fft (t_Nz tr) Ft)) buf_m) in *.
  split.
  - rewrite (hk_ext _ _ _ (hk (t_Nr tr) (t_Mp tr) (ifft (t_Nz tr) p iz))) by (intros j Hj; apply ifft_dht; exact Hz).
    rewrite hk_undone by auto. rewrite (ifft_ext _ _ (fun i j => Cplus (Cmult (RtoC 0.5) (fft (t_Nz tr) Fr i j)) (Cmult (Copp (Cmult (RtoC 0.5) Ci)) (fft (t_Nz tr) Ft i j)))).
    + rewrite ifft_plus, !ifft_scal, !ifft_fft by exact Hz. unfold to_p. ring.
    + intros j Hj. rewrite (proj1 (L j ir Hj Hr)). unfold to_p. ring.
  - rewrite (hk_ext _ _ _ (hk (t_Nr tr) (t_Mm tr) (ifft (t_Nz tr) q iz))) by (intros j Hj; apply ifft_dht; exact Hz).
    rewrite hk_undone by auto. rewrite (ifft_ext _ _ (fun i j => Cplus (Cmult (RtoC 0.5) (fft (t_Nz tr) Fr i j)) (Cmult (Cmult (RtoC 0.5) Ci) (fft (t_Nz tr) Ft i j)))).
    + rewrite ifft_plus, !ifft_scal, !ifft_fft by exact Hz. unfold to_m. ring.
    + intros j Hj. rewrite (proj2 (L j ir Hj Hr)). unfold to_m. ring.
Qed.
Lemma pml_spect tr ce p S : let S' := interp2spect_pml tr ce FB p (interp2spect_pml tr ce FE p (interp2spect tr ce FB p (interp2spect tr ce FE p S))) in
  forall m v, In v [FE; FB] -> S' m v Sz = interp2spect_scal (tr m) (arr_of p m (name_z v)) /\
  S' m v Sp = fst (interp2spect_vect (tr m) ce (arr_of p m (name_r v)) (arr_of p m (name_t v))) /\
  S' m v Sm = snd (interp2spect_vect (tr m) ce (arr_of p m (name_r v)) (arr_of p m (name_t v))).
Proof. intros S' m v [<-|[<-|[]]]; (split; [reflexivity|split; reflexivity]). Qed.
Lemma pml_step u t S I Nm r S' l m : consistent u -> u_pml u = true -> (forall r, 0 <= r < u_size u -> length (I r) = Nm) -> 0 <= r < u_size u ->
  exchange_and_damp_EB u t S I r = Ok (S', l) -> 0 <= m < Z.of_nat Nm ->
  let tr := u_trans u r m in undone (u_Nr u) (t_M0 tr) (t_invM0 tr) -> undone (u_Nr u) (t_Mp tr) (t_invMp tr) -> undone (u_Nr u) (t_Mm tr) (t_invMm tr) ->
  forall f iz ir, is_EB f = true -> 0 <= iz < u_Nz u r -> 0 <= ir < u_Nr u ->
  arr_of l m f iz ir = arr_of (in_space u [FE; FB] (fun _ => S') I r) m f iz ir.
Proof.
  intros Hc Hp HL Hr Heq Hm tr U0 Up Um f iz ir Hf Hz Hir. unfold exchange_and_damp_EB in Heq. rewrite Hp in Heq.
  destruct (damp_and_mirrors u t r _) as [p|e]; cbn [bind] in Heq; [|discriminate]. injection Heq as <- <-.
  set (S'' := interp2spect_pml _ _ _ _ _). assert (PS := pml_spect (u_trans u r) (u_cells u r) p (S r)). cbv zeta in PS. fold S'' in PS.
  destruct (EB_v f Hf) as (v & Hin & Hv).
  assert (SI : forall w q m f, 0 <= m < Z.of_nat (length q) ->
      arr_of (spect2interp (u_trans u r) (u_cells u r) w S'' q) m f iz ir =
      if in_v w f then Tm (u_trans u r) (u_Nr u) m (fun f => ifft (u_Nz u r) (S'' m w (sc f)) iz) f ir else arr_of q m f iz ir).
  { intros. apply s2i_arr; auto; intros; [apply (cs_tNz u Hc)|apply (cs_tNr u Hc)|apply (cs_cells u Hc); exact Hr]. }
  assert (V : arr_of (in_space u [FE; FB] (fun _ => S'') I r) m f iz ir = Tm (u_trans u r) (u_Nr u) m (fun f => ifft (u_Nz u r) (S'' m v (sc f)) iz) f ir).
  { unfold in_space. cbn [fold_left]. assert (Hm' : 0 <= m < Z.of_nat (length (I r))) by (rewrite HL by exact Hr; exact Hm).
    rewrite SI by (rewrite (meta_length _ _ (meta_s2i _ _ _ _ _)); exact Hm').
    destruct Hin as [<-|[<-|[]]]; [|rewrite Hv; reflexivity].
    destruct (in_v FB f) eqn:E; [assert (Q := in_v_unique _ _ _ Hv E); discriminate|]. rewrite SI by auto. rewrite Hv. reflexivity. }
  rewrite V. clear V SI. destruct (PS m v Hin) as (Q1 & Q2 & Q3).
  assert (ENz : t_Nz tr = u_Nz u r) by apply (cs_tNz u Hc). assert (ENr : t_Nr tr = u_Nr u) by apply (cs_tNr u Hc).
  assert (B := back_vect tr (u_cells u r) (arr_of p m (name_r v)) (arr_of p m (name_t v)) iz ir).
  assert (B0 : hk (u_Nr u) (t_invM0 tr) (ifft (u_Nz u r) (S'' m v Sz) iz) ir = arr_of p m (name_z v) iz ir).
  { rewrite Q1. unfold interp2spect_scal. fold tr. rewrite ENz, ENr.
    rewrite (hk_ext _ _ _ (hk (u_Nr u) (t_M0 tr) (ifft (u_Nz u r) (fft (u_Nz u r) (arr_of p m (name_z v))) iz))) by (intros j Hj; apply ifft_dht; exact Hz).
    rewrite hk_undone by auto. apply ifft_fft. exact Hz. }
  rewrite ENz, ENr in B. specialize (B (cs_cells u Hc r Hr) Hz Hir Up Um). cbv zeta in B.
  fold tr in Q2, Q3. rewrite <- Q2, <- Q3 in B. destruct B as [Bp Bm]. destruct (rt_pm_rt (arr_of p m (name_r v) iz ir) (arr_of p m (name_t v) iz ir)) as [W1 W2].
  unfold Tm. fold tr. destruct v, f; cbn in Hv; try discriminate; cbn [T sc name_r name_t name_z] in *; rewrite ?B0, ?Bp, ?Bm, ?W1, ?W2; try reflexivity;
    destruct Hin as [Q|[Q|[]]]; discriminate.
Qed.

(** ** With PML, modes m >= 1 *)
Section Pml.
Context (jn : Z -> R -> R) (zeros : Z -> Z -> R) (rmax : R) (inv pinv : Z -> Z -> Z -> R) (k : R).
Definition pml_comm : comm := {| c_rank := 0; c_size := 1; c_left := None; c_right := None; c_Nz := 1; c_zmin := 0; c_dz := 1; c_nguard := 0;
  c_nzdamp := 0; c_ninject := 0; c_period := 1 |}.
Definition pml_run : setup := {| u_pml := true; u_size := 1; u_left := fun _ => None; u_right := fun _ => None; u_nguard := 0;
  u_Nz := fun _ => 1; u_Nr := 2; u_comm := fun _ => pml_comm; u_trans := fun _ => make_transformer jn zeros rmax inv pinv 1 2;
  u_cells := fun _ => [(0, 0); (0, 1)]; u_npml := 2; u_cdt_dr := k; u_mirrors := []; u_c := 1 |}.
Definition pml_S : spectrum := fun m v c _ ir => match v, c with FE, Sz => if (m =? 1) && (ir =? 1) then RtoC 1 else RtoC 0 | _, _ => RtoC 0 end.
Definition pml_I : list (@igrid C) := let g := {| ig_pml := true; ig_dz := 1; ig_arr := fun _ _ _ => RtoC 0 |} in [g; g].
Let a := dht_invM jn zeros rmax 2 1 1 1 0.
Let b := dht_invM jn zeros rmax 2 1 1 1 1.
Lemma pml_consistent : consistent pml_run.
Proof.
  constructor; cbn; try discriminate; try lia; auto. intros r Hr. split.
  - repeat constructor; cbn; intuition congruence.
  - intros i j H. cbn. assert (i = 0) by lia. assert (j = 0 \/ j = 1) as [->| ->] by lia; subst; auto.
Qed.
Lemma pml_hk x ir : hk 2 (dht_invM jn zeros rmax 2 1 1) x ir = Cmult (x 1) (RtoC (dht_invM jn zeros rmax 2 1 1 1 ir)).
Proof. unfold hk. change (range 2) with [0; 1]. rewrite !lsum_cons, lsum_nil. replace (dht_invM jn zeros rmax 2 1 1 0 ir) with 0%R by reflexivity. ring. Qed.
Lemma exch5 l m f : 0 <= m < Z.of_nat (length l) -> is_EB f = true -> forall v, v <> FJ -> forall I, I 0 = l ->
  arr_of (exchange pml_run v Replace I 0) m f = arr_of l m f.
Proof.
  intros Hm Hf v Hv I HI. unfold exchange. cbn [u_pml pml_run]. unfold exchange_fields. cbn [u_size pml_run]. rewrite Z.eqb_refl, HI.
  replace (n_comp true v) with 5 by (destruct v; congruence || reflexivity). unfold of_rows. rewrite arr_modes by lia.
  destruct (mode_exists l m Hm) as [g Hg]. rewrite Hg. change (range 5) with [0; 1; 2; 3; 4]. cbn [fold_right]. unfold to_rows, comp_name. cbn [Z.eqb Pos.eqb].
  assert (E : forall f, arr_of l m f = ig_arr g f) by (intros; unfold arr_of; rewrite Hg; reflexivity). rewrite E.
  destruct v; [| |congruence]; destruct f; try discriminate; lazy [set_arr ig_arr same name_r name_t name_z name_r_pml name_t_pml]; rewrite ?E; reflexivity.
Qed.
Lemma pml_counter : (0 < k)%R -> a <> 0%R -> b <> 0%R ->
  exists S' l, exchange_and_damp_EB pml_run 0 (fun _ => pml_S) (fun _ => pml_I) 0 = Ok (S', l) /\
  ~ agree 1 2 is_EB l (in_space pml_run [FE; FB] (fun _ => S') (fun _ => pml_I) 0).
Proof.
  intros Hk Ha Hb. unfold exchange_and_damp_EB. cbn [u_pml pml_run].
  set (X := exchange _ FB Replace _ 0). 
  assert (HX : length X = 2%nat). { unfold X. rewrite !(meta_length _ _ (meta_exchange _ _ _ _ _)). reflexivity. }
  assert (HV : arr_of X 1 Ez 0 0 = RtoC a /\ arr_of X 1 Ez 0 1 = RtoC b).
  { unfold X. match goal with |- context [exchange _ FB Replace ?J 0] => set (J0 := J) end.
    assert (LJ : length (J0 0) = 2%nat) by reflexivity.
    rewrite (exch5 (J0 0) 1 Ez); auto; [|rewrite LJ; cbn; lia|discriminate]. unfold J0.
    match goal with |- context [exchange _ FE Replace ?J 0] => set (J1 := J) end.
    rewrite (exch5 (J1 0) 1 Ez); auto; [|change (0 <= 1 < 2); lia|discriminate]. unfold J1.
    assert (A : forall v S l, 0 <= 1 < Z.of_nat (length l) -> arr_of (spect2interp_pml (u_trans pml_run 0) (u_cells pml_run 0) v S l) 1 Ez = arr_of l 1 Ez).
    { intros v S0 l Hl. unfold spect2interp_pml. rewrite arr_modes by lia. unfold arr_of. destruct (mode_exists l 1 Hl) as [g Hg]. rewrite Hg.
      destruct (spect2interp_vect _ _ _ _). destruct v; reflexivity. }
    rewrite !A by (change (0 <= 1 < 2); lia). 
    assert (B : forall S l v ir, 0 <= 1 < Z.of_nat (length l) -> 0 <= ir < 2 -> arr_of (spect2interp (u_trans pml_run 0) (u_cells pml_run 0) v S l) 1 Ez 0 ir =
       if in_v v Ez then Tm (u_trans pml_run 0) 2 1 (fun f => ifft 1 (S 1 v (sc f)) 0) Ez ir else arr_of l 1 Ez 0 ir).
    { intros. apply s2i_arr; auto; try reflexivity; try lia. apply (cs_cells _ pml_consistent 0). cbn. lia. }
    assert (V : forall ir, 0 <= ir < 2 -> arr_of (spect2interp (u_trans pml_run 0) (u_cells pml_run 0) FB pml_S (spect2interp (u_trans pml_run 0) (u_cells pml_run 0) FE pml_S pml_I)) 1 Ez 0 ir =
       RtoC (dht_invM jn zeros rmax 2 1 1 1 ir)).
    { intros ir Hir. rewrite B by (auto; change (0 <= 1 < 2); lia). cbn [in_v]. rewrite B by (auto; change (0 <= 1 < 2); lia). cbn [in_v]. unfold Tm. cbn [T sc u_trans pml_run make_transformer t_invM0].
      rewrite pml_hk. unfold ifft. change (range 1) with [0]. rewrite lsum_cons, lsum_nil.
      cbn [pml_S Z.eqb Pos.eqb andb]. replace (2 * PI * IZR (0 * 0) / 1)%R with 0%R by (cbn; field). unfold cis. rewrite cos_0, sin_0.
      replace (1 / 1)%R with 1%R by field. unfold RtoC, Cmult, Cplus. cbn [fst snd]. f_equal; ring. }
    split; apply V; lia. }
  assert (D : forall p, damp_EB_open_boundary pml_comm 1 p = Ok p) by reflexivity.
  unfold damp_and_mirrors. cbn [u_comm u_Nz pml_run u_mirrors fold_left u_pml u_npml u_Nr u_cdt_dr].
  assert (MR : map_res (damp_EB_open_boundary pml_comm 1) X = Ok X).
  { clear - D. induction X as [|g X IH]; [reflexivity|]. unfold map_res in *. cbn [fold_right]. rewrite IH, D. reflexivity. }
  rewrite MR. cbn [bind]. set (l := map (damp_pml_EB 2 2 k) X).
  eexists. exists l. split; [reflexivity|]. set (S' := interp2spect_pml _ _ _ _ _). intros [_ H].
  assert (HLl : length l = 2%nat) by (unfold l; rewrite map_length; exact HX).
  assert (HM1 : 0 <= 1 < Z.of_nat (length l)) by (rewrite HLl; cbn; lia).
  assert (Hl : forall ir, 0 <= ir < 2 -> arr_of l 1 Ez 0 ir = Cmult (arr_of X 1 Ez 0 ir) (RtoC (generate_pml_damp_array 2 k ir))).
  { intros ir Hir. unfold l, arr_of. rewrite nth_error_map. destruct (mode_exists X 1) as [g Hg]; [rewrite HX; cbn; lia|]. rewrite Hg. cbn [option_map].
    unfold damp_pml_EB. cbn [ig_arr]. replace (2 - 2)%Z with 0 by lia.
    rewrite !scale_at, !add_at, ?sub_at. cbn [same andb]. rewrite (proj2 (Z.leb_le 0 ir)) by lia. rewrite Z.sub_0_r.
    rewrite ?scale_at, ?add_at, ?sub_at. cbn [same andb]. rewrite ?scale_at, ?add_at, ?sub_at. cbn [same andb]. reflexivity. }
  assert (Hs : forall ir, 0 <= ir < 2 -> arr_of (in_space pml_run [FE; FB] (fun _ => S') (fun _ => pml_I) 0) 1 Ez 0 ir =
     Cmult (ifft 1 (S' 1 FE Sz) 0 1) (RtoC (dht_invM jn zeros rmax 2 1 1 1 ir))).
  { intros ir Hir. unfold in_space. cbn [fold_left].
    assert (B : forall S l v, 0 <= 1 < Z.of_nat (length l) -> arr_of (spect2interp (u_trans pml_run 0) (u_cells pml_run 0) v S l) 1 Ez 0 ir =
       if in_v v Ez then Tm (u_trans pml_run 0) 2 1 (fun f => ifft 1 (S 1 v (sc f)) 0) Ez ir else arr_of l 1 Ez 0 ir).
    { intros. apply s2i_arr; auto; try reflexivity; try lia. apply (cs_cells _ pml_consistent 0). cbn. lia. }
    rewrite B by (change (0 <= 1 < 2); lia). cbn [in_v]. rewrite B by (change (0 <= 1 < 2); lia). cbn [in_v]. unfold Tm.
    cbn [T sc u_trans pml_run make_transformer t_invM0]. apply pml_hk. }
  assert (H0 := H 1 Ez 0 0 HM1 eq_refl ltac:(lia) ltac:(lia)). assert (H1 := H 1 Ez 0 1 HM1 eq_refl ltac:(lia) ltac:(lia)).
  rewrite Hl, Hs in H0, H1 by lia. destruct HV as [V0 V1]. rewrite V0 in H0. rewrite V1 in H1. fold a in H0. fold b in H1.
  set (x := ifft 1 (S' 1 FE Sz) 0 1) in *. clearbody x. destruct x as [xr xi].
  assert (D0 : generate_pml_damp_array 2 k 0 = 1%R). { unfold generate_pml_damp_array. rewrite <- exp_0. f_equal. field. }
  assert (D1 : generate_pml_damp_array 2 k 1 = exp (- k)). { unfold generate_pml_damp_array. f_equal. field. }
  rewrite D0 in H0. rewrite D1 in H1. unfold Cmult, RtoC in H0, H1. cbn [fst snd] in H0, H1. injection H0 as H0 _. injection H1 as H1 _.
  assert (xr = 1%R) by (apply (Rmult_eq_reg_r a); [lra|exact Ha]). subst xr.
  assert (E1 : exp (- k) = 1%R) by (apply (Rmult_eq_reg_r b); [lra|exact Hb]).
  assert (E2 := exp_increasing (- k) 0 ltac:(lra)). rewrite exp_0, E1 in E2. lra.
Qed.
End Pml.
