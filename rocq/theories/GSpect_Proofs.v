(** Proofs on the GPU field-solver kernels. *)
From Verif Require Import Base Fourier_Lib Psatd_Model Pml_Model Cuda_Model Cuda_Proofs GDamp_Proofs GSpect_Model GSpect_Spec.
From Verif Require Window_Model.
From Coq Require Import Reals Lia Bool.
From Coquelicot Require Import Complex.
Open Scope Z_scope.

Section CellRun.
  Context {A V : Type} (adec : forall a b : A, {a = b} + {a <> b}).
  Fixpoint cellrun (p : prog (A * Z * Z) V) (s : A -> V) : A -> V :=
    match p with
    | Done => s
    | Load l k => cellrun (k (s (fst (fst l)))) s
    | Store l v p => cellrun p (fun b => if adec (fst (fst l)) b then v else s b)
    end.
  Lemma cellrun_ext : forall p s s', (forall a, s a = s' a) -> forall a, cellrun p s a = cellrun p s' a.
  Proof.
    induction p as [|l k IH|l v p IH]; intros s s' H a; cbn.
    - apply H.
    - rewrite (H (fst (fst l))). apply IH. exact H.
    - apply IH. intros b. destruct (adec _ b); [reflexivity|apply H].
  Qed.
  Lemma run_cell : forall i j p, confined (fun l => cell l = (i, j)) (fun _ => False) p ->
    forall M a, run (cloc_dec adec) p M (a, i, j) = cellrun p (fun b => M (b, i, j)) a.
  Proof.
    intros i j p H. induction H as [|l k Hl Hk IH|l v p Hl Hp IH]; intros M a; cbn.
    - reflexivity.
    - destruct Hl as [Hl|[]]. destruct l as [[b x] y]. cbn in Hl. injection Hl as -> ->. apply IH.
    - destruct l as [[b x] y]. cbn in Hl. injection Hl as -> ->. rewrite IH. apply cellrun_ext. intros e. cbn. rewrite upd_cell. reflexivity.
  Qed.
  Lemma launch_cell : forall Nz Nr t thr (M M' : @mem (A * Z * Z) V),
    t = 1 \/ t = 8 \/ t = 16 \/ t = 32 \/ t = 128 \/ t = 256 -> 0 <= Nz <= 2 ^ 52 -> 0 <= Nr <= 2 ^ 52 ->
    (forall i j, 0 <= i -> 0 <= j -> ~ (i < Nz /\ j < Nr) -> thr i j = Done) ->
    (forall i j, confined (fun l => cell l = (i, j)) (fun _ => False) (thr i j)) ->
    stream (cloc_dec adec) [launch_2d (cuda_tpb_bpg_2d Nz Nr 1 t) thr] M M' ->
    (forall a x y, 0 <= x < Nz -> 0 <= y < Nr -> M' (a, x, y) = cellrun (thr x y) (fun b => M (b, x, y)) a) /\
    (forall a x y, ~ (0 <= x < Nz /\ 0 <= y < Nr) -> M' (a, x, y) = M (a, x, y)).
  Proof.
    intros Nz Nr t thr M M' Ht Hz Hr Hd Hc Hs.
    destruct (cell_launch_id adec Nz Nr t thr M M' Ht Hz Hr Hd (fun i j _ _ => Hc i j) (stream_one _ _ _ _ Hs)) as [H1 H2].
    split; [|exact H2]. intros a x y Hx Hy. rewrite H1 by assumption. apply run_cell. apply Hc.
  Qed.
End CellRun.

Ltac conf1 := repeat (match goal with |- confined _ _ (if ?b then _ else _) => destruct b | |- _ => constructor; [first [left; reflexivity|reflexivity]|try intros ?] | |- _ => constructor end; cbv zeta beta).
Lemma guard_false : forall {L V} (Nz Nr i j : Z) (p : prog L V), ~ (i < Nz /\ j < Nr) -> (if (i <? Nz) && (j <? Nr) then p else Done) = Done.
Proof. intros L V Nz Nr i j p H. destruct (Z.ltb_spec i Nz), (Z.ltb_spec j Nr); cbn; try reflexivity. exfalso. apply H. split; assumption. Qed.
Lemma guard_true : forall {L V} (Nz Nr i j : Z) (p : prog L V), i < Nz -> j < Nr -> (if (i <? Nz) && (j <? Nr) then p else Done) = p.
Proof. intros. rewrite (proj2 (Z.ltb_lt i Nz)), (proj2 (Z.ltb_lt j Nr)) by assumption. reflexivity. Qed.

Section S.
Context (c mu_0 epsilon_0 : R) (Nz Nr : Z) (HNz : 0 <= Nz <= 2 ^ 52) (HNr : 0 <= Nr <= 2 ^ 52).

Ltac kernel H F iz ir Hz Hr H0 :=
  apply (launch_cell sname_dec) in H; [|lia|assumption|assumption| intros i j Hi Hj Hij; unfold F; apply guard_false; exact Hij
    | intros i j; unfold F; destruct ((i <? Nz) && (j <? Nr)); [cbv zeta; repeat match goal with |- context [if ?b then _ else _] => destruct b end; conf1|constructor]];
  destruct H as [H _]; assert (H0 := fun a => H a iz ir Hz Hr); clear H; unfold F in H0; rewrite guard_true in H0 by lia; cbv zeta in H0.
Ltac red1 H := lazy [cellrun fst snd sname_dec sname_rec sname_rect] in H.
Ltac atn H0 N := let E := fresh "E" in assert (E := H0 N); red1 E; rewrite E; clear E.
Ltac all_names H0 := atn H0 AEp; atn H0 AEm; atn H0 AEz; atn H0 ABp; atn H0 ABm; atn H0 ABz; atn H0 AJp; atn H0 AJm; atn H0 AJz;
  atn H0 ARho_prev; atn H0 ARho_next; atn H0 ARho_next_z; atn H0 ARho_next_xy; atn H0 AEp_pml; atn H0 AEm_pml; atn H0 ABp_pml; atn H0 ABm_pml.

Lemma standard_push : forall ps kr kz dt utr M M', 
  outcome [launch_2d (cuda_tpb_bpg_2d Nz Nr 1 16) (cuda_push_eb_standard c mu_0 epsilon_0 Nz Nr ps kr kz dt utr)] M M' ->
  forall iz ir, 0 <= iz < Nz -> 0 <= ir < Nr -> co_dt (ps iz ir) = dt ->
    mode_at M' iz ir = push_eb_standard c mu_0 epsilon_0 (ps iz ir) utr (kz iz ir) (kr iz ir) (mode_at M iz ir) /\ pml_at M' iz ir = pml_at M iz ir.
Proof.
  intros ps kr kz dt utr M M' H iz ir Hz Hr Hdt. unfold outcome in H. kernel H cuda_push_eb_standard iz ir Hz Hr H0.
  unfold mode_at, pml_at. destruct utr; all_names H0; (split; [|reflexivity]); unfold push_eb_standard; rewrite ?Hdt; reflexivity.
Qed.
Lemma comoving_push : forall ps kr kz V utr M M',
  outcome [launch_2d (cuda_tpb_bpg_2d Nz Nr 1 16) (cuda_push_eb_comoving c mu_0 epsilon_0 Nz Nr ps kr kz V utr)] M M' ->
  forall iz ir, 0 <= iz < Nz -> 0 <= ir < Nr ->
    mode_at M' iz ir = push_eb_comoving c mu_0 epsilon_0 (ps iz ir) V utr (kz iz ir) (kr iz ir) (mode_at M iz ir) /\ pml_at M' iz ir = pml_at M iz ir.
Proof.
  intros ps kr kz V utr M M' H iz ir Hz Hr. unfold outcome in H. kernel H cuda_push_eb_comoving iz ir Hz Hr H0.
  unfold mode_at, pml_at. destruct utr; all_names H0; (split; [|reflexivity]); unfold push_eb_comoving; reflexivity.
Qed.
Lemma standard_pml : forall ps kr M M',
  outcome [launch_2d (cuda_tpb_bpg_2d Nz Nr 1 16) (cuda_push_eb_pml_standard c Nz Nr ps kr)] M M' ->
  forall iz ir, 0 <= iz < Nz -> 0 <= ir < Nr ->
    mode_at M' iz ir = mode_at M iz ir /\ pml_at M' iz ir = push_eb_pml_standard c (ps iz ir) (kr iz ir) (mode_at M iz ir) (pml_at M iz ir).
Proof.
  intros ps kr M M' H iz ir Hz Hr. unfold outcome in H. kernel H cuda_push_eb_pml_standard iz ir Hz Hr H0.
  unfold mode_at, pml_at. all_names H0; split; reflexivity.
Qed.
Lemma comoving_pml : forall ps kr M M',
  outcome [launch_2d (cuda_tpb_bpg_2d Nz Nr 1 16) (cuda_push_eb_pml_comoving c Nz Nr ps kr)] M M' ->
  forall iz ir, 0 <= iz < Nz -> 0 <= ir < Nr ->
    mode_at M' iz ir = mode_at M iz ir /\ pml_at M' iz ir = push_eb_pml_comoving c (ps iz ir) (kr iz ir) (mode_at M iz ir) (pml_at M iz ir).
Proof.
  intros ps kr M M' H iz ir Hz Hr. unfold outcome in H. kernel H cuda_push_eb_pml_comoving iz ir Hz Hr H0.
  unfold mode_at, pml_at. all_names H0; split; reflexivity.
Qed.
Lemma push_rho_same : forall M M', outcome (gpu_push_rho Nz Nr) M M' ->
  forall iz ir, 0 <= iz < Nz -> 0 <= ir < Nr -> mode_at M' iz ir = push_rho (mode_at M iz ir) /\ pml_at M' iz ir = pml_at M iz ir.
Proof.
  intros M M' H iz ir Hz Hr. unfold outcome, gpu_push_rho in H. kernel H cuda_push_rho iz ir Hz Hr H0.
  unfold mode_at, pml_at. all_names H0; split; reflexivity.
Qed.
Lemma correct_currents_same : forall dt V cc ps kz kr M M', outcome (gpu_correct_currents Nz Nr dt V cc ps kz kr) M M' ->
  forall iz ir, 0 <= iz < Nz -> 0 <= ir < Nr -> co_V (ps iz ir) = V ->
    mode_at M' iz ir = correct_currents dt (ps iz ir) cc (kz iz ir) (kr iz ir) (mode_at M iz ir) /\ pml_at M' iz ir = pml_at M iz ir.
Proof.
  intros dt V cc ps kz kr M M' H iz ir Hz Hr HV. unfold outcome, gpu_correct_currents in H. unfold correct_currents. rewrite HV. clear HV.
  destruct V as [V|], cc; cbn [inv_k2] in H |- *.
  - kernel H cuda_curlfree_comoving iz ir Hz Hr H0. unfold mode_at, pml_at. all_names H0; split; reflexivity.
  - kernel H cuda_crossdeposition_comoving iz ir Hz Hr H0. unfold mode_at, pml_at, crossdeposition_comoving.
    destruct (Req_EM_T (kr iz ir) 0), (Req_EM_T (kz iz ir) 0); all_names H0; split; reflexivity.
  - kernel H cuda_curlfree_standard iz ir Hz Hr H0. unfold mode_at, pml_at. all_names H0; split; reflexivity.
  - kernel H cuda_crossdeposition_standard iz ir Hz Hr H0. unfold mode_at, pml_at, crossdeposition_standard.
    destruct (Req_EM_T (kr iz ir) 0), (Req_EM_T (kz iz ir) 0); all_names H0; split; reflexivity.
Qed.
Theorem field_step_same : forall dt V cc use_pml utr corr ps kz kr M M',
  outcome (gpu_field_step c mu_0 epsilon_0 Nz Nr dt V cc use_pml utr corr ps kz kr) M M' ->
  forall iz ir, 0 <= iz < Nz -> 0 <= ir < Nr -> co_V (ps iz ir) = V -> co_dt (ps iz ir) = dt ->
  let s := mode_at M iz ir in
  let s1 := if corr then correct_currents dt (ps iz ir) cc (kz iz ir) (kr iz ir) s else s in
  (mode_at M' iz ir, pml_at M' iz ir) =
    if use_pml then push_pml c mu_0 epsilon_0 (ps iz ir) utr (kz iz ir) (kr iz ir) (s1, pml_at M iz ir)
    else (push c mu_0 epsilon_0 (ps iz ir) utr (kz iz ir) (kr iz ir) s1, pml_at M iz ir).
Proof.
  intros dt V cc use_pml utr corr ps kz kr M M' H iz ir Hz Hr HV Hdt s s1. unfold outcome, gpu_field_step in H.
  apply stream_app in H. destruct H as (M1 & H1 & H). apply stream_app in H. destruct H as (M2 & H2 & H3).
  assert (E1 : mode_at M1 iz ir = s1 /\ pml_at M1 iz ir = pml_at M iz ir).
  { destruct corr; [exact (correct_currents_same _ _ _ _ _ _ _ _ H1 iz ir Hz Hr HV)|]. apply stream_nil_inv in H1. subst M1. split; reflexivity. }
  destruct E1 as [E1 P1]. destruct (push_rho_same _ _ H3 iz ir Hz Hr) as [E3 P3]. rewrite E3, P3. clear E3 P3 H3 H1.
  unfold push_pml, push_eb_with_pml, push, push_eb_with. rewrite HV. unfold gpu_push_eb_with in H2.
  destruct V as [V|].
  - apply stream_app in H2. destruct H2 as (M3 & H2 & H4). destruct (comoving_push _ _ _ _ _ _ _ H4 iz ir Hz Hr) as [E4 P4]. rewrite E4, P4.
    destruct use_pml.
    + destruct (comoving_pml _ _ _ _ H2 iz ir Hz Hr) as [E5 P5]. rewrite E5, P5, E1, P1. reflexivity.
    + apply stream_nil_inv in H2. subst M3. rewrite E1, P1. reflexivity.
  - apply stream_app in H2. destruct H2 as (M3 & H2 & H4). destruct (standard_push _ _ _ _ _ _ _ H4 iz ir Hz Hr Hdt) as [E4 P4]. rewrite E4, P4.
    destruct use_pml.
    + destruct (standard_pml _ _ _ _ H2 iz ir Hz Hr) as [E5 P5]. rewrite E5, P5, E1, P1. reflexivity.
    + apply stream_nil_inv in H2. subst M3. rewrite E1, P1. reflexivity.
Qed.

Section P.
Context {A : Type} (adec : forall a b : A, {a = b} + {a <> b}).
Notation amem := (@mem (A * Z * Z) C).
Ltac guards := intros ? ? ? ? Hij; unfold cuda_erase, cuda_divide_by_volume, cuda_filter; apply guard_false; exact Hij.
Lemma store_all_cell : forall fs iz ir s a, cellrun adec (store_all (A := A) fs iz ir) s a = if in_dec adec a fs then RtoC 0 else s a.
Proof.
  induction fs as [|f fs IH]; intros iz ir s a; [reflexivity|]. cbn [store_all cellrun fst snd]. rewrite IH.
  destruct (in_dec adec a fs) as [Hi|Hi], (in_dec adec a (f :: fs)) as [Hj|Hj]; destruct (adec f a) as [e|e]; try subst a; cbn [In] in Hj; try tauto; try reflexivity.
Qed.
Lemma map_all_cell : forall (g : C -> C) (body : list A -> Z -> Z -> prog (A * Z * Z) C) iz ir,
  body [] iz ir = Done -> (forall f fs, body (f :: fs) iz ir = Load (f, iz, ir) (fun v => Store (f, iz, ir) (g v) (body fs iz ir))) ->
  forall fs s a, NoDup fs -> cellrun adec (body fs iz ir) s a = if in_dec adec a fs then g (s a) else s a.
Proof.
  intros g body iz ir H0 H1. induction fs as [|f fs IH]; intros s a Hn; [rewrite H0; reflexivity|]. rewrite H1. cbn [cellrun fst snd].
  inversion Hn as [|? ? Hf Hn']; subst. rewrite IH by exact Hn'.
  destruct (in_dec adec a fs) as [Hi|Hi], (in_dec adec a (f :: fs)) as [Hj|Hj]; destruct (adec f a) as [e|e]; try subst a; cbn [In] in Hj; try tauto; try reflexivity.
Qed.
Lemma conf_store_all : forall fs i j, confined (fun l => cell l = (i, j)) (fun _ => False) (store_all (A := A) fs i j).
Proof. induction fs; intros; cbn; constructor; [reflexivity|apply IHfs]. Qed.
Lemma conf_times : forall x fs i j, confined (fun l => cell l = (i, j)) (fun _ => False) (times_all (A := A) x fs i j).
Proof. induction fs; intros; cbn; constructor; [left; reflexivity|]. intros v. constructor; [reflexivity|apply IHfs]. Qed.
Lemma conf_filter : forall x fs i j, confined (fun l => cell l = (i, j)) (fun _ => False) (filter_all (A := A) x fs i j).
Proof. induction fs; intros; cbn; constructor; [left; reflexivity|]. intros v. constructor; [reflexivity|apply IHfs]. Qed.
Ltac start H lem := apply (launch_cell adec) in H; [|lia|assumption|assumption|guards
    |intros ? ?; unfold cuda_erase, cuda_divide_by_volume, cuda_filter; match goal with |- context [?b && ?d] => destruct (b && d) end; [apply lem|constructor]]; destruct H as [H _].

Theorem erase_same : forall fs (M M' : amem), stream (cloc_dec adec) (gpu_erase Nz Nr fs) M M' ->
  forall a iz ir, 0 <= iz < Nz -> 0 <= ir < Nr -> M' (a, iz, ir) = if in_dec adec a fs then RtoC 0 else M (a, iz, ir).
Proof.
  intros fs M M' H a iz ir Hz Hr. unfold gpu_erase in H. start H conf_store_all. rewrite (H a iz ir Hz Hr). unfold cuda_erase.
  rewrite guard_true by lia. apply store_all_cell.
Qed.
Theorem divide_same : forall fs invvol (M M' : amem), NoDup fs -> stream (cloc_dec adec) (gpu_divide_by_volume Nz Nr fs invvol) M M' ->
  forall a iz ir, 0 <= iz < Nz -> 0 <= ir < Nr ->
    M' (a, iz, ir) = if in_dec adec a fs then Cmult (M (a, iz, ir)) (RtoC (invvol ir)) else M (a, iz, ir).
Proof.
  intros fs invvol M M' Hn H a iz ir Hz Hr. unfold gpu_divide_by_volume in H. start H conf_times. rewrite (H a iz ir Hz Hr). unfold cuda_divide_by_volume.
  rewrite guard_true by lia. exact (map_all_cell (fun v => Cmult v (RtoC (invvol ir))) (times_all (invvol ir)) iz ir eq_refl (fun _ _ => eq_refl) fs _ a Hn).
Qed.
Theorem filter_same : forall fs fz fr (M M' : amem), NoDup fs -> stream (cloc_dec adec) (gpu_filter Nz Nr fs fz fr) M M' ->
  forall a iz ir, 0 <= iz < Nz -> 0 <= ir < Nr ->
    M' (a, iz, ir) = if in_dec adec a fs then Cmult (RtoC (fz iz * fr ir)) (M (a, iz, ir)) else M (a, iz, ir).
Proof.
  intros fs fz fr M M' Hn H a iz ir Hz Hr. unfold gpu_filter in H. start H conf_filter. rewrite (H a iz ir Hz Hr). unfold cuda_filter.
  rewrite guard_true by lia. exact (map_all_cell (fun v => Cmult (RtoC (fz iz * fr ir)) v) (filter_all (RtoC (fz iz * fr ir))) iz ir eq_refl (fun _ _ => eq_refl) fs _ a Hn).
Qed.
Lemma shift_list : forall shift n fs (M M' : amem), NoDup fs ->
  stream (cloc_dec adec) (map (fun f => launch_2d (cuda_tpb_bpg_2d Nz Nr 1 128) (shift_spect_array_gpu Nz Nr f shift n)) fs) M M' ->
  forall a iz ir, 0 <= iz < Nz -> 0 <= ir < Nr ->
    M' (a, iz, ir) = if in_dec adec a fs then Cmult (M (a, iz, ir)) (Window_Model.power_shift (shift iz) n) else M (a, iz, ir).
Proof.
  intros shift n. induction fs as [|f fs IH]; intros M M' Hn H a iz ir Hz Hr.
  { cbn [map] in H. apply stream_nil_inv in H. subst. reflexivity. }
  change (stream (cloc_dec adec) ([launch_2d (cuda_tpb_bpg_2d Nz Nr 1 128) (shift_spect_array_gpu Nz Nr f shift n)] ++
    map (fun f => launch_2d (cuda_tpb_bpg_2d Nz Nr 1 128) (shift_spect_array_gpu Nz Nr f shift n)) fs) M M') in H.
  apply stream_app in H. destruct H as (M1 & H & Hs). inversion Hn as [|? ? Hf Hn']; subst.
  rewrite (IH M1 M' Hn' Hs a iz ir Hz Hr). clear IH Hs.
  apply (launch_cell adec) in H; [|lia|assumption|assumption
    |intros ? ? ? ? Hij; unfold shift_spect_array_gpu; apply guard_false; lia
    |intros ? ?; unfold shift_spect_array_gpu; match goal with |- context [?b && ?d] => destruct (b && d) end; [cbv zeta; conf1|constructor]].
  destruct H as [H _]. rewrite (H a iz ir Hz Hr). unfold shift_spect_array_gpu. rewrite guard_true by lia. cbv zeta. cbn [cellrun fst snd].
  fold (Window_Model.power_shift (shift iz) n).
  destruct (in_dec adec a fs) as [Hi|Hi], (in_dec adec a (f :: fs)) as [Hj|Hj]; destruct (adec f a) as [e|e]; try subst a; cbn [In] in Hj; try tauto; try reflexivity.
Qed.
End P.
(** The names of Window_Model. *)
Definition sname_of (f : Window_Model.fname) : sname :=
  match f with
  | Window_Model.Ep => AEp | Window_Model.Em => AEm | Window_Model.Ez => AEz | Window_Model.Bp => ABp | Window_Model.Bm => ABm | Window_Model.Bz => ABz
  | Window_Model.Jp => AJp | Window_Model.Jm => AJm | Window_Model.Jz => AJz | Window_Model.Rho_prev => ARho_prev | Window_Model.Rho_next => ARho_next
  | Window_Model.Ep_pml => AEp_pml | Window_Model.Em_pml => AEm_pml | Window_Model.Bp_pml => ABp_pml | Window_Model.Bm_pml => ABm_pml
  end.
Theorem shift_same : forall use_pml shift_rho shift_currents shift n M M',
  outcome (gpu_shift_spect_grid Nz Nr use_pml shift_rho shift_currents shift n) M M' ->
  forall f iz ir, 0 <= Z.of_nat iz < Nz -> 0 <= Z.of_nat ir < Nr ->
    M' (sname_of f, Z.of_nat iz, Z.of_nat ir) =
    Window_Model.shift_spect_grid use_pml shift_rho shift_currents (fun k => shift (Z.of_nat k)) n
      (fun f iz ir => M (sname_of f, Z.of_nat iz, Z.of_nat ir)) f iz ir.
Proof.
  intros up sr sc shift n M M' H f iz ir Hz Hr. unfold outcome, gpu_shift_spect_grid in H.
  match type of H with stream _ (map _ ?l) _ _ => assert (Hn : NoDup l) by (clear; destruct up, sr, sc; repeat constructor; cbn; intuition discriminate) end.
  rewrite (shift_list sname_dec shift n _ M M' Hn H _ _ _ Hz Hr).
  unfold Window_Model.shift_spect_grid, Window_Model.shift_spect_array. destruct up, sr, sc, f; cbn; reflexivity.
Qed.
Lemma shift_others : forall use_pml shift_rho shift_currents shift n M M',
  outcome (gpu_shift_spect_grid Nz Nr use_pml shift_rho shift_currents shift n) M M' ->
  forall a iz ir, a = ARho_next_z \/ a = ARho_next_xy -> 0 <= iz < Nz -> 0 <= ir < Nr -> M' (a, iz, ir) = M (a, iz, ir).
Proof.
  intros up sr sc shift n M M' H a iz ir Ha Hz Hr. unfold outcome, gpu_shift_spect_grid in H.
  match type of H with stream _ (map _ ?l) _ _ => assert (Hn : NoDup l) by (clear; destruct up, sr, sc; repeat constructor; cbn; intuition discriminate) end.
  rewrite (shift_list sname_dec shift n _ M M' Hn H _ _ _ Hz Hr).
  destruct Ha; subst; destruct up, sr, sc; cbn; reflexivity.
Qed.
End S.

(** ** correct_divE *)
(** All the arrays in the memory of the CPU: the result of Psatd_Model. *)
Theorem divE_cpu : forall epsilon_0 cc g iz ir kz kr (s : mode),
  on_gpu (g_Ep g) = false -> on_gpu (g_Em g) = false -> on_gpu (g_Ez g) = false -> on_gpu (g_rho_prev g) = false ->
  on_gpu (g_kz g) = false -> on_gpu (g_kr g) = false -> (forall k, g_inv_k2 g = Some k -> on_gpu k = false) ->
  data (g_Ep g) iz ir = Ep s -> data (g_Em g) iz ir = Em s -> data (g_Ez g) iz ir = Ez s -> data (g_rho_prev g) iz ir = rho_prev s ->
  data (g_kz g) iz ir = RtoC kz -> data (g_kr g) iz ir = RtoC kr ->
  match g_inv_k2 g, inv_k2 cc kz kr with Some a, Some x => data a iz ir = RtoC x | None, None => True | _, _ => False end ->
  match correct_divE_arrays epsilon_0 g, correct_divE epsilon_0 cc kz kr s with
  | Ok g', Ok s' => data (g_Ep g') iz ir = Ep s' /\ data (g_Em g') iz ir = Em s' /\ data (g_Ez g') iz ir = Ez s'
  | Err e, Err e' => e = e'
  | _, _ => False
  end.
Proof.
  intros e0 cc g iz ir kz kr s H1 H2 H3 H4 H5 H6 H7 D1 D2 D3 D4 D5 D6 D7. unfold correct_divE_arrays, correct_divE.
  destruct (g_inv_k2 g) as [k2|], (inv_k2 cc kz kr) as [x|]; try contradiction; [|reflexivity].
  specialize (H7 k2 eq_refl).
  unfold ewise, amap. cbn [on_gpu data]. rewrite H1, H2, H3, H4, H5, H6, H7. cbn [Bool.eqb bind on_gpu data g_Ep g_Em g_Ez Ep Em Ez set_E].
  rewrite ?H1, ?H2, ?H3, ?H4, ?H5, ?H6, ?H7. cbn [Bool.eqb bind on_gpu data g_Ep g_Em g_Ez Ep Em Ez set_E].
  rewrite D1, D2, D3, D4, D5, D6, D7. repeat split; reflexivity.
Qed.
(** The fields on the GPU: the call raises. *)
Theorem divE_gpu : forall epsilon_0 g, on_gpu (g_kz g) = false -> forall k, g_inv_k2 g = Some k -> correct_divE_arrays epsilon_0 (send_fields g) = Err TypeError.
Proof. intros e0 g H k Hk. unfold correct_divE_arrays, send_fields. cbn [g_inv_k2 g_kz g_Ez]. rewrite Hk. unfold ewise, amap. cbn [on_gpu at_gpu]. rewrite H. reflexivity. Qed.
