(** Proofs on the GPU damping kernels. *)
From Verif Require Import Base Decomp_Model Mirror_Model Damp_Model Cuda_Model Cuda_Proofs GDamp_Model.
From Coq Require Import Reals Lia Bool.
From Coquelicot Require Import Complex.
Open Scope Z_scope.

Notation dmem := (@mem (fname * Z * Z) C).
Notation drun := (run (cloc_dec fname_dec)).

Lemma run_scale : forall F iz ir d p (M : dmem) (f : fname),
  exists M1 : dmem, drun (scale_at F iz ir d p) M = drun p M1 /\
    (forall f, M1 (f, iz, ir) = if fname_dec F f then Cmult (M (f, iz, ir)) (RtoC d) else M (f, iz, ir)).
Proof.
  intros F iz ir d p M f0. unfold scale_at. cbn [run]. eexists. split; [reflexivity|]. intros f. rewrite upd_cell.
  destruct (fname_dec F f); [subst; reflexivity|reflexivity].
Qed.
Ltac run_scales f :=
  repeat match goal with |- context [drun (scale_at ?F ?iz ?ir ?d ?p) ?M] =>
    let M1 := fresh "M" in let H1 := fresh "H" in let H2 := fresh "Hs" in
    destruct (run_scale F iz ir d p M f) as (M1 & H1 & H2); rewrite H1; clear H1 end.

Lemma left_thread : forall Nr damp nd iz ir (M : dmem) f, iz < nd -> ir < Nr ->
  drun (cuda_damp_EB_left Nr damp nd iz ir) M (f, iz, ir) = if is_EB f then Cmult (M (f, iz, ir)) (RtoC (damp iz)) else M (f, iz, ir).
Proof.
  intros. unfold cuda_damp_EB_left. rewrite (proj2 (Z.ltb_lt _ _)) by lia. rewrite (proj2 (Z.ltb_lt _ _)) by lia. cbv zeta.
  run_scales f. cbn [run]. repeat match goal with H : forall f, _ = _ |- _ => rewrite H; clear H end. destruct f; reflexivity.
Qed.
Lemma left_pml_thread : forall Nr damp nd iz ir (M : dmem) f, iz < nd -> ir < Nr ->
  drun (cuda_damp_EB_left_pml Nr damp nd iz ir) M (f, iz, ir) = if is_pml f then Cmult (M (f, iz, ir)) (RtoC (damp iz)) else M (f, iz, ir).
Proof.
  intros. unfold cuda_damp_EB_left_pml. rewrite (proj2 (Z.ltb_lt _ _)) by lia. rewrite (proj2 (Z.ltb_lt _ _)) by lia. cbv zeta.
  run_scales f. cbn [run]. repeat match goal with H : forall f, _ = _ |- _ => rewrite H; clear H end. destruct f; reflexivity.
Qed.
Lemma right_thread : forall Nz Nr damp nd iz ir (M : dmem) f, iz < nd -> ir < Nr ->
  drun (cuda_damp_EB_right Nz Nr damp nd iz ir) M (f, Nz - iz - 1, ir) = if is_EB f then Cmult (M (f, Nz - iz - 1, ir)) (RtoC (damp iz)) else M (f, Nz - iz - 1, ir).
Proof.
  intros. unfold cuda_damp_EB_right. rewrite (proj2 (Z.ltb_lt _ _)) by lia. rewrite (proj2 (Z.ltb_lt _ _)) by lia. cbv zeta.
  run_scales f. cbn [run]. repeat match goal with H : forall f, _ = _ |- _ => rewrite H; clear H end. destruct f; reflexivity.
Qed.
Lemma right_pml_thread : forall Nz Nr damp nd iz ir (M : dmem) f, iz < nd -> ir < Nr ->
  drun (cuda_damp_EB_right_pml Nz Nr damp nd iz ir) M (f, Nz - iz - 1, ir) = if is_pml f then Cmult (M (f, Nz - iz - 1, ir)) (RtoC (damp iz)) else M (f, Nz - iz - 1, ir).
Proof.
  intros. unfold cuda_damp_EB_right_pml. rewrite (proj2 (Z.ltb_lt _ _)) by lia. rewrite (proj2 (Z.ltb_lt _ _)) by lia. cbv zeta.
  run_scales f. cbn [run]. repeat match goal with H : forall f, _ = _ |- _ => rewrite H; clear H end. destruct f; reflexivity.
Qed.

Ltac guard_done Hij := 
  match goal with |- context [?a <? ?b] => destruct (Z.ltb_spec a b); [|reflexivity] end;
  match goal with |- context [?a <? ?b] => destruct (Z.ltb_spec a b); [|reflexivity] end; exfalso; apply Hij; lia.
Ltac conf_body := repeat match goal with |- context [?a <? ?b] => destruct (a <? b); [|constructor] end;
  unfold scale_at; repeat (constructor; [left; reflexivity|intros ?] || constructor; [reflexivity|] || constructor).

Lemma launch_left : forall Nr damp nd (sel : fname -> bool) thr (M M' : dmem), 0 <= nd <= 2 ^ 52 -> 0 <= Nr <= 2 ^ 52 ->
  (forall i j, 0 <= i -> 0 <= j -> ~ (i < nd /\ j < Nr) -> thr i j = Done) ->
  (forall i j, confined (fun l => cell l = (i, j)) (fun _ => False) (thr i j)) ->
  (forall i j (M : dmem) f, i < nd -> j < Nr -> drun (thr i j) M (f, i, j) = if sel f then Cmult (M (f, i, j)) (RtoC (damp i)) else M (f, i, j)) ->
  executes (cloc_dec fname_dec) (launch_2d (cuda_tpb_bpg_2d nd Nr 1 128) thr) M M' ->
  forall f iz ir, 0 <= iz -> 0 <= ir < Nr ->
    M' (f, iz, ir) = if sel f && (iz <? nd) then Cmult (M (f, iz, ir)) (RtoC (damp iz)) else M (f, iz, ir).
Proof.
  intros Nr damp nd sel thr M M' Hn HN Hd Hc Ht He f iz ir Hz Hr.
  destruct (cell_launch_id fname_dec nd Nr 128 thr M M' ltac:(lia) Hn HN Hd (fun i j _ _ => Hc i j) He) as [H1 H2].
  destruct (Z.ltb_spec iz nd).
  - rewrite H1 by lia. rewrite Ht by lia. rewrite andb_true_r. reflexivity.
  - rewrite H2 by lia. rewrite andb_false_r. reflexivity.
Qed.
Lemma launch_right : forall Nz Nr damp nd (sel : fname -> bool) thr (M M' : dmem), 0 <= nd <= 2 ^ 52 -> 0 <= Nr <= 2 ^ 52 -> nd <= Nz ->
  (forall i j, 0 <= i -> 0 <= j -> ~ (i < nd /\ j < Nr) -> thr i j = Done) ->
  (forall i j, confined (fun l => cell l = (Nz - i - 1, j)) (fun _ => False) (thr i j)) ->
  (forall i j (M : dmem) f, i < nd -> j < Nr -> drun (thr i j) M (f, Nz - i - 1, j) = if sel f then Cmult (M (f, Nz - i - 1, j)) (RtoC (damp i)) else M (f, Nz - i - 1, j)) ->
  executes (cloc_dec fname_dec) (launch_2d (cuda_tpb_bpg_2d nd Nr 1 128) thr) M M' ->
  forall f iz ir, 0 <= iz < Nz -> 0 <= ir < Nr ->
    M' (f, iz, ir) = if sel f && (Nz - nd <=? iz) then Cmult (M (f, iz, ir)) (RtoC (damp (nd - 1 - (iz - (Nz - nd))))) else M (f, iz, ir).
Proof.
  intros Nz Nr damp nd sel thr M M' Hn HN HNz Hd Hc Ht He f iz ir Hz Hr.
  rewrite (cell_launch fname_dec (fun c => (Nz - fst c - 1, snd c)) (fun c => (Nz - fst c - 1, snd c)) nd Nr 128 thr M M' ltac:(lia) Hn HN) with (4 := He).
  2:{ intros i j _ _. cbn [fst snd]. f_equal. lia. }
  2:{ exact Hd. }
  2:{ intros i j _ _. apply Hc. }
  cbn [fst snd]. unfold in_rect. cbn [fst snd].
  assert (Ez : Nz - (Nz - iz - 1) - 1 = iz) by lia. rewrite Ez. destruct (zz_dec (iz, ir) (iz, ir)) as [_|n]; [|contradiction].
  rewrite (proj2 (Z.leb_le 0 (Nz - iz - 1))) by lia. rewrite (proj2 (Z.leb_le 0 ir)), (proj2 (Z.ltb_lt ir Nr)) by lia. rewrite !andb_true_r. cbn [andb].
  destruct (Z.leb_spec (Nz - nd) iz).
  - rewrite (proj2 (Z.ltb_lt (Nz - iz - 1) nd)) by lia. rewrite andb_true_r.
    assert (E := Ht (Nz - iz - 1) ir M f ltac:(lia) ltac:(lia)). rewrite Ez in E. rewrite E.
    replace (nd - 1 - (iz - (Nz - nd))) with (Nz - iz - 1) by lia. reflexivity.
  - rewrite (proj2 (Z.ltb_ge (Nz - iz - 1) nd)) by lia. rewrite andb_false_r. reflexivity.
Qed.

Lemma stream_app : forall {L V} (leq : forall a b : L, {a = b} + {a <> b}) (k1 k2 : list (list (prog L V))) m m',
  stream leq (k1 ++ k2) m m' -> exists m1, stream leq k1 m m1 /\ stream leq k2 m1 m'.
Proof.
  intros L V leq k1. induction k1 as [|x k1 IH]; intros k2 m m' H; cbn in H; [exists m; split; [constructor|exact H]|].
  inversion H as [|? ? ? mm ? Hx Hxs]; subst. destruct (IH _ _ _ Hxs) as (m2 & H1 & H2). exists m2. split; [econstructor; eauto|exact H2].
Qed.

Lemma stream_nil_inv : forall {L V} (leq : forall a b : L, {a = b} + {a <> b}) (m m' : @mem L V), stream leq [] m m' -> m = m'.
Proof. intros L V leq m m' H. inversion H; reflexivity. Qed.
Lemma stream_one : forall {L V} (leq : forall a b : L, {a = b} + {a <> b}) (k : list (prog L V)) (m m' : @mem L V), stream leq [k] m m' -> executes leq k m m'.
Proof. intros L V leq k m m' H. inversion H as [|? ? ? m2 ? Hx Hxs]; subst. apply stream_nil_inv in Hxs. subst. exact Hx. Qed.

Theorem damp_same : forall c Nz Nr g g', let nd := c_nguard c + c_nzdamp c + c_ninject c in
  0 <= nd <= Nz -> Nz <= 2 ^ 52 -> 0 <= Nr <= 2 ^ 52 ->
  gpu_runs (gpu_damp_EB_open_boundary c Nz Nr (ig_pml g)) g g' ->
  exists gc, damp_EB_open_boundary c Nz g = Ok gc /\ ig_pml g' = ig_pml gc /\
    forall f iz ir, 0 <= iz < Nz -> 0 <= ir < Nr -> ig_arr g' f iz ir = ig_arr gc f iz ir.
Proof.
  intros c Nz Nr g g' nd Hnd HNz HNr (Hp & _ & MF & Hs & HF). unfold gpu_damp_EB_open_boundary in Hs. fold nd in Hs.
  unfold damp_EB_open_boundary. fold nd. destruct (c_nzdamp c =? 0).
  { exists g. split; [reflexivity|]. split; [exact Hp|]. intros f iz ir _ _.
    assert (E := f_equal (fun h : dmem => h (f, iz, ir)) (stream_nil_inv _ _ _ Hs)). cbn in E. rewrite HF. symmetry. exact E. }
  rewrite (proj2 (Z.ltb_ge Nz nd)) by lia.
  set (damp := generate_damp_array (c_nguard c) (c_nzdamp c) (c_ninject c)) in *.
  apply stream_app in Hs. destruct Hs as (M1 & Hl & Hr).
  assert (HL : forall f iz ir, 0 <= iz < Nz -> 0 <= ir < Nr ->
    M1 (f, iz, ir) = match c_left c with Some _ => ig_arr g f iz ir | None =>
       if damped f (ig_pml g) && (iz <? nd) then Cmult (ig_arr g f iz ir) (RtoC (damp iz)) else ig_arr g f iz ir end).
  { intros f iz ir Hz Hir. destruct (c_left c).
    { inversion Hl; subst. reflexivity. }
    inversion Hl as [|x xs y M2 M3 Hx Hxs]; subst. clear Hl.
    assert (H2 := launch_left Nr damp nd is_EB (cuda_damp_EB_left Nr damp nd) _ M2 ltac:(lia) HNr ltac:(intros i j Hi Hj Hij; unfold cuda_damp_EB_left; guard_done Hij)
      ltac:(intros i j; unfold cuda_damp_EB_left; conf_body) (fun i j M f => left_thread Nr damp nd i j M f) Hx f iz ir ltac:(lia) Hir).
    cbn [fst snd] in H2. unfold damped. destruct (ig_pml g); cbn [andb].
    - inversion Hxs as [|x xs y M4 M5 Hx2 Hxs2]; subst. inversion Hxs2; subst.
      assert (H3 := launch_left Nr damp nd is_pml (cuda_damp_EB_left_pml Nr damp nd) _ _ ltac:(lia) HNr ltac:(intros i j Hi Hj Hij; unfold cuda_damp_EB_left_pml; guard_done Hij)
        ltac:(intros i j; unfold cuda_damp_EB_left_pml; conf_body) (fun i j M f => left_pml_thread Nr damp nd i j M f) Hx2 f iz ir ltac:(lia) Hir).
      rewrite H3, H2. destruct f; cbn [is_EB is_pml orb andb]; reflexivity.
    - inversion Hxs; subst. rewrite H2, orb_false_r. reflexivity. }
  assert (HR : forall f iz ir, 0 <= iz < Nz -> 0 <= ir < Nr ->
    ig_arr g' f iz ir = match c_right c with Some _ => M1 (f, iz, ir) | None =>
       if damped f (ig_pml g) && (Nz - nd <=? iz) then Cmult (M1 (f, iz, ir)) (RtoC (damp (nd - 1 - (iz - (Nz - nd))))) else M1 (f, iz, ir) end).
  { intros f iz ir Hz Hir. clear HL Hl. rewrite HF. clear HF. destruct (c_right c).
    { inversion Hr; subst. reflexivity. }
    inversion Hr as [|x xs y M2 M3 Hx Hxs]; subst. clear Hr.
    assert (H2 := launch_right Nz Nr damp nd is_EB (cuda_damp_EB_right Nz Nr damp nd) _ M2 ltac:(lia) HNr ltac:(lia) ltac:(intros i j Hi Hj Hij; unfold cuda_damp_EB_right; guard_done Hij)
      ltac:(intros i j; unfold cuda_damp_EB_right; conf_body) (fun i j M f => right_thread Nz Nr damp nd i j M f) Hx f iz ir Hz Hir).
    unfold damped. destruct (ig_pml g); cbn [andb].
    - inversion Hxs as [|x xs y M4 M5 Hx2 Hxs2]; subst. inversion Hxs2; subst.
      assert (H3 := launch_right Nz Nr damp nd is_pml (cuda_damp_EB_right_pml Nz Nr damp nd) _ _ ltac:(lia) HNr ltac:(lia) ltac:(intros i j Hi Hj Hij; unfold cuda_damp_EB_right_pml; guard_done Hij)
        ltac:(intros i j; unfold cuda_damp_EB_right_pml; conf_body) (fun i j M f => right_pml_thread Nz Nr damp nd i j M f) Hx2 f iz ir Hz Hir).
      rewrite H3, H2. destruct f; cbn [is_EB is_pml orb andb]; reflexivity.
    - inversion Hxs; subst. rewrite H2, orb_false_r. reflexivity. }
  destruct (c_left c), (c_right c); cbn [bind ig_pml ig_arr]; eexists; (split; [reflexivity|]); (split; [exact Hp|]); cbn [ig_arr];
    intros f iz ir Hz Hir; rewrite (HR f iz ir Hz Hir), (HL f iz ir Hz Hir); reflexivity.
Qed.

Theorem pml_same : forall n_pml Nz Nr k g g', 0 <= n_pml <= Nr -> Nr <= 2 ^ 52 -> 0 <= Nz <= 2 ^ 52 ->
  gpu_runs (gpu_damp_pml_EB n_pml Nz Nr k) g g' ->
  forall f iz ir, 0 <= iz < Nz -> 0 <= ir < Nr -> ig_arr g' f iz ir = ig_arr (damp_pml_EB n_pml Nr k g) f iz ir.
Proof.
  intros n_pml Nz Nr k g g' Hn HNr HNz (_ & _ & MF & Hs & HF) f iz ir Hz Hr. rewrite HF. clear HF. unfold gpu_damp_pml_EB in Hs.
  assert (Hx := stream_one _ _ _ _ Hs). clear Hs.
  set (d := generate_pml_damp_array n_pml k) in *.
  assert (H := cell_launch fname_dec (fun c => (fst c, Nr - n_pml + snd c)) (fun c => (fst c, snd c - (Nr - n_pml))) Nz n_pml 128 (cuda_damp_pml_EB Nz Nr d n_pml) _ _
     ltac:(lia) ltac:(lia) ltac:(lia)
     ltac:(intros i j _ _; cbn [fst snd]; f_equal; lia)
     ltac:(intros i j Hi Hj Hij; unfold cuda_damp_pml_EB; guard_done Hij)
     ltac:(intros i j _ _; unfold cuda_damp_pml_EB; conf_body) Hx f iz ir).
  cbn [fst snd] in H. rewrite H. clear H Hx. unfold in_rect. cbn [fst snd].
  replace (Nr - n_pml + (ir - (Nr - n_pml))) with ir by lia. destruct (zz_dec (iz, ir) (iz, ir)) as [_|n]; [|contradiction].
  rewrite (proj2 (Z.leb_le 0 iz)), (proj2 (Z.ltb_lt iz Nz)) by lia. rewrite (proj2 (Z.ltb_lt (ir - (Nr - n_pml)) n_pml)) by lia. cbn [andb]. rewrite andb_true_r.
  unfold damp_pml_EB. cbn [ig_arr]. fold d.
  assert (EQ : (0 <=? ir - (Nr - n_pml)) = (Nr - n_pml <=? ir)).
  { destruct (Z.leb_spec 0 (ir - (Nr - n_pml))), (Z.leb_spec (Nr - n_pml) ir); auto; lia. }
  rewrite EQ. destruct (Nr - n_pml <=? ir) eqn:Ec.
  - unfold cuda_damp_pml_EB. rewrite (proj2 (Z.ltb_lt (ir - (Nr - n_pml)) n_pml)) by lia. rewrite (proj2 (Z.ltb_lt iz Nz)) by lia. cbv zeta.
    replace (Nr - n_pml + (ir - (Nr - n_pml))) with ir by lia. unfold scale_at. cbn [run].
    rewrite !upd_cell. cbn [fst snd].
    unfold scale_cols, add_cols, sub_cols. rewrite Ec. destruct f; cbn [same andb fst snd]; try reflexivity.
  - unfold scale_cols, add_cols, sub_cols. rewrite Ec. rewrite !andb_false_r. reflexivity.
Qed.

Lemma gpu_runs_exists : forall ks g, exists g', gpu_runs ks g g'.
Proof.
  intros ks g.
  assert (Hst : forall (ks : list (list dprog)) (m : dmem), exists m', stream (cloc_dec fname_dec) ks m m').
  { clear. induction ks as [|x ks IH]; intros m; [exists m; constructor|].
    destruct (executes_exists (cloc_dec fname_dec) x m) as [m1 H1]. destruct (IH m1) as [m2 H2]. exists m2. econstructor; eauto. }
  destruct (Hst ks (fun l => ig_arr g (fst (fst l)) (snd (fst l)) (snd l))) as [M' H].
  exists {| ig_pml := ig_pml g; ig_dz := ig_dz g; ig_arr := fun f iz ir => M' (f, iz, ir) |}. repeat split. exists M'. split; [exact H|reflexivity].
Qed.
