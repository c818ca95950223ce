(** Proofs for C83. *)
From Verif Require Import Base Fourier_Lib Psatd_Model Psatd_Spec Psatd_Proofs Psatd_Vacuum Pml_Model Pml_Spec.
From Coq Require Import Reals Lra.
From Coquelicot Require Import Coquelicot.
Open Scope C_scope.

Lemma dC_ext f g t l m : (forall x, f x = g x) -> l = m -> dC f t l -> dC g t m.
Proof.
  intros H <- [A B]. split; [apply (is_derive_ext (fun t => Re (f t)))|apply (is_derive_ext (fun t => Im (f t)))]; auto;
  intros x; rewrite H; reflexivity.
Qed.
Lemma dC_const z t : dC (fun _ => z) t 0.
Proof. split; apply (is_derive_const (V := R_NormedModule)). Qed.
Lemma dC_plus f g t a b : dC f t a -> dC g t b -> dC (fun t => f t + g t) t (a + b).
Proof.
  intros [F1 F2] [G1 G2]. split.
  - apply (is_derive_ext (fun t => plus (Re (f t)) (Re (g t)))); [reflexivity|].
    exact (is_derive_plus (V := R_NormedModule) _ _ _ _ _ F1 G1).
  - apply (is_derive_ext (fun t => plus (Im (f t)) (Im (g t)))); [reflexivity|].
    exact (is_derive_plus (V := R_NormedModule) _ _ _ _ _ F2 G2).
Qed.
Lemma prod_derive (a b u v : R -> R) t la lb lu lv (sg : R) : is_derive a t la -> is_derive b t lb -> is_derive u t lu -> is_derive v t lv ->
  is_derive (fun t => a t * u t + sg * (b t * v t))%R t (la * u t + a t * lu + sg * (lb * v t + b t * lv))%R.
Proof.
  intros A B U V. auto_derive.
  - repeat split; eexists; eauto.
  - replace (Derive (fun x => a x) t) with la by (symmetry; apply is_derive_unique; exact A).
    replace (Derive (fun x => b x) t) with lb by (symmetry; apply is_derive_unique; exact B).
    replace (Derive (fun x => u x) t) with lu by (symmetry; apply is_derive_unique; exact U).
    replace (Derive (fun x => v x) t) with lv by (symmetry; apply is_derive_unique; exact V). ring.
Qed.
Lemma dC_mult f g t a b : dC f t a -> dC g t b -> dC (fun t => f t * g t) t (a * g t + f t * b).
Proof.
  intros [F1 F2] [G1 G2]. split.
  - pose proof (prod_derive _ _ _ _ _ _ _ _ _ (-1) F1 F2 G1 G2) as H.
    eapply (is_derive_ext (V := R_NormedModule)) in H; [|intros x; instantiate (1 := fun x => Re (f x * g x)%C); unfold Re, Im; simpl; ring].
    replace (Re (a * g t + f t * b)) with (Re a * Re (g t) + Re (f t) * Re b + -1 * (Im a * Im (g t) + Im (f t) * Im b))%R; [exact H|].
    unfold Re, Im; simpl. ring.
  - pose proof (prod_derive _ _ _ _ _ _ _ _ _ 1 F1 F2 G2 G1) as H.
    eapply (is_derive_ext (V := R_NormedModule)) in H; [|intros x; instantiate (1 := fun x => Im (f x * g x)%C); unfold Re, Im; simpl; ring].
    replace (Im (a * g t + f t * b)) with (Re a * Im (g t) + Re (f t) * Im b + 1 * (Im a * Re (g t) + Im (f t) * Re b))%R; [exact H|].
    unfold Re, Im; simpl. ring.
Qed.
Lemma dC_scal z f t a : dC f t a -> dC (fun t => z * f t) t (z * a).
Proof.
  intros H. apply (dC_ext (fun t => z * f t) _ _ (0 * f t + z * a)); [reflexivity|ring|].
  apply (dC_mult (fun _ => z)); [apply dC_const|exact H].
Qed.
Lemma dC_minus f g t a b : dC f t a -> dC g t b -> dC (fun t => f t - g t) t (a - b).
Proof.
  intros F G. apply (dC_ext (fun t => f t + (- (1)) * g t) _ _ (a + (- (1)) * b)); [intros x; ring|ring|].
  apply dC_plus; auto. apply dC_scal; auto.
Qed.
Lemma dC_cis k t : dC (fun t => cis (k * t)) t (Ci * k * cis (k * t)).
Proof.
  split; unfold cis, Ci, Cmult, RtoC, Re, Im; simpl; auto_derive; auto; ring.
Qed.
Lemma dC_real (f : R -> R) t l : is_derive f t l -> dC (fun t => RtoC (f t)) t (RtoC l).
Proof. intros H. split; [exact H|]. apply (is_derive_const (V := R_NormedModule) 0%R). Qed.

(** A function whose derivative is i k f is a rotation. *)
Lemma eq_derive0 (f : R -> R) : (forall t, is_derive f t 0%R) -> forall t, f t = f 0%R.
Proof.
  intros D t. destruct (Rtotal_order 0 t) as [H|[<-|H]]; auto.
  - symmetry. apply eq_is_derive; auto.
  - apply eq_is_derive; auto.
Qed.
Lemma dC_const_inv f : (forall t, dC f t 0) -> forall t, f t = f 0%R.
Proof.
  intros D t.
  assert (E1 := eq_derive0 (fun t => Re (f t)) (fun t => proj1 (D t)) t).
  assert (E2 := eq_derive0 (fun t => Im (f t)) (fun t => proj2 (D t)) t). cbv beta in *.
  destruct (f t), (f 0%R); cbn in *. congruence.
Qed.
Lemma rotation k f : (forall t, dC f t (Ci * RtoC k * f t)) -> forall t, f t = cis (k * t) * f 0%R.
Proof.
  intros D t.
  assert (E : cis (- k * t) * f t = cis (- k * 0) * f 0%R).
  { apply (dC_const_inv (fun t => cis (- k * t) * f t)). intros x.
    eapply dC_ext; [reflexivity| |apply (dC_mult (fun t => cis (- k * t)) f); [apply dC_cis|apply D]].
    rewrite RtoC_opp. ring. }
  rewrite Rmult_0_r, cis_0, Cmult_1_l in E. rewrite <- E, Cmult_assoc, <- cis_add.
  replace (k * t + - k * t)%R with 0%R by ring. rewrite cis_0. ring.
Qed.

Section Const.
Context (c mu_0 epsilon_0 : R) (Hc : (0 < c)%R).
Let co f kz kr dt := psatd_coeffs c mu_0 epsilon_0 (frame_V f) (frame_gal f) kz kr dt.
Let ppush f tr kz kr dt := push_pml c mu_0 epsilon_0 (co f kz kr dt) tr kz kr.
Let phase f kz t := cis (drift f kz * t).

(** What a step without sources does, in the three frames. *)
Lemma Teb_phase f kz kr dt : match f with Standard => True | _ => co_T_eb (co f kz kr dt) = phase f kz dt end.
Proof.
  unfold phase. destruct f; simpl; auto. unfold co; simpl. rewrite Rmult_0_l, cis_0. reflexivity.
Qed.
Lemma push_vac_all f tr kz kr dt s p : no_sources s -> transverse kz kr s ->
  let C0 := RtoC (coef_C c kz kr dt) in let S := RtoC (coef_S_w c kz kr dt) in let T := phase f kz dt in
  let s' := fst (ppush f tr kz kr dt (s, p)) in let p' := snd (ppush f tr kz kr dt (s, p)) in
  E_of s' = vscal T (vadd (vscal C0 (E_of s)) (vscal (RtoC (c ^ 2) * S) (curl kz kr (B_of s)))) /\
  B_of s' = vscal T (vadd (vscal C0 (B_of s)) (vscal (- S) (curl kz kr (E_of s)))) /\
  no_sources s' /\
  p' = {| Ep_pml := T * (C0 * Ep_pml p + RtoC (c ^ 2) * S * vp (curl 0 kr (B_of s)));
          Em_pml := T * (C0 * Em_pml p + RtoC (c ^ 2) * S * vm (curl 0 kr (B_of s)));
          Bp_pml := T * (C0 * Bp_pml p - S * vp (curl 0 kr (E_of s)));
          Bm_pml := T * (C0 * Bm_pml p - S * vm (curl 0 kr (E_of s))) |}.
Proof.
  intros (J1 & J2 & J3 & R1 & R2) [D1 D2]. cbv zeta. unfold ppush, push_pml, push_eb_with_pml, push_eb_with.
  pose proof (Teb_phase f kz kr dt) as TP.
  destruct f; cbn [co_V co psatd_coeffs frame_V fst snd].
  - unfold phase. cbn [drift]. rewrite Rmult_0_l, cis_0.
    unfold push_eb_standard, push_eb_pml_standard, E_of, B_of, no_sources, push_rho, set_B, set_E, set_rho, vadd, vscal, curl.
    cbn -[Cmult Cplus Cminus Copp Ci RtoC Cdiv Cinv co].
    set (rd := if tr then _ else _).
    assert (Z : rd = 0).
    { unfold rd. unfold div, E_of in D1; cbn [vp vm vz] in D1. destruct tr; rewrite ?J1, ?J2, ?J3, ?R1, ?R2, ?D1; ring. }
    rewrite Z, J1, J2, J3. clear rd Z. rewrite half. unfold Cdiv.
    change (co_C (co Standard kz kr dt)) with (RtoC (coef_C c kz kr dt)); change (co_S_w (co Standard kz kr dt)) with (RtoC (coef_S_w c kz kr dt)).
    split; [|split; [|split; [repeat split; assumption|]]]; f_equal; ring.
  - unfold push_eb_comoving, push_eb_pml_comoving, E_of, B_of, no_sources, push_rho, set_B, set_E, set_rho, vadd, vscal, curl.
    cbn -[Cmult Cplus Cminus Copp Ci RtoC Cdiv Cinv co phase].
    set (rd := if tr then _ else _).
    assert (Z : rd = 0).
    { unfold rd. unfold div, E_of in D1; cbn [vp vm vz] in D1. destruct tr; rewrite ?J1, ?J2, ?J3, ?R1, ?R2, ?D1; ring. }
    rewrite Z, J1, J2, J3, TP. clear rd Z. rewrite half. unfold Cdiv.
    change (co_C (co (Galilean V) kz kr dt)) with (RtoC (coef_C c kz kr dt)); change (co_S_w (co (Galilean V) kz kr dt)) with (RtoC (coef_S_w c kz kr dt)).
    split; [|split; [|split; [repeat split; assumption|]]]; f_equal; ring.
  - unfold push_eb_comoving, push_eb_pml_comoving, E_of, B_of, no_sources, push_rho, set_B, set_E, set_rho, vadd, vscal, curl.
    cbn -[Cmult Cplus Cminus Copp Ci RtoC Cdiv Cinv co phase].
    set (rd := if tr then _ else _).
    assert (Z : rd = 0).
    { unfold rd. unfold div, E_of in D1; cbn [vp vm vz] in D1. destruct tr; rewrite ?J1, ?J2, ?J3, ?R1, ?R2, ?D1; ring. }
    rewrite Z, J1, J2, J3, TP. clear rd Z. rewrite half. unfold Cdiv.
    change (co_C (co (Comoving V) kz kr dt)) with (RtoC (coef_C c kz kr dt)); change (co_S_w (co (Comoving V) kz kr dt)) with (RtoC (coef_S_w c kz kr dt)).
    split; [|split; [|split; [repeat split; assumption|]]]; f_equal; ring.
Qed.
Lemma push_transverse_all f tr kz kr dt s p : no_sources s -> transverse kz kr s ->
  transverse kz kr (fst (ppush f tr kz kr dt (s, p))).
Proof.
  intros N T. destruct (push_vac_all f tr kz kr dt s p N T) as (E1 & E2 & _). cbv zeta in *. destruct T as [T1 T2].
  split; [rewrite E1|rewrite E2]; rewrite div_scal, div_add, !div_scal, div_curl, ?T1, ?T2; ring.
Qed.

(** The share: algebra. *)
Definition comb (k2 kr2 P Fp Fm : C) := k2 * P - kr2 * (Fp + Fm).
Lemma share_curl kz kr F : div kz kr F = 0 ->
  comb (RtoC (2 * (kz ^ 2 + kr ^ 2))) (RtoC (kr ^ 2)) (vp (curl 0 kr F)) (vp (curl kz kr F)) (vm (curl kz kr F)) = 0 /\
  comb (RtoC (2 * (kz ^ 2 + kr ^ 2))) (RtoC (kr ^ 2)) (vm (curl 0 kr F)) (vp (curl kz kr F)) (vm (curl kz kr F)) = 0.
Proof.
  destruct F as [X Y Z]. unfold div, comb, curl; cbn [vp vm vz]. intros H.
  assert (K : RtoC (2 * (kz ^ 2 + kr ^ 2)) = (1 + 1) * (kz * kz + kr * kr)).
  { rewrite <- !RtoC_mult, <- !RtoC_plus, <- RtoC_mult. f_equal. ring. }
  assert (K' : RtoC (kr ^ 2) = kr * kr) by (rewrite <- RtoC_mult; f_equal; ring).
  rewrite K, K', RtoC_half.
  replace (RtoC (kr / 2)) with (kr * (1 / 2)) by (rewrite RtoC_div by lra; unfold Cdiv; ring).
  pose proof half2 as Hh. set (h := 1 / 2) in *. clearbody h.
  assert (Hx : kr * kr * (kr * (X - Y) + Ci * kz * Z) = 0) by (rewrite H; ring).
  split; transitivity (- (kr * kz * (kr * (X - Y) + Ci * kz * Z)) - Ci * kr * kr * kr * Z * (h + h) * (1 + 1) + Ci * kr * kr * kr * Z * (h + h) * (1 + 1)
      - Ci * (h + h) * kr * kz * kz * Z + Ci * (h + h) * kr * kz * kz * Z); 
    try (rewrite H; ring).
  all: transitivity (- Ci * ((h + h) * kr * kz * kz * Z) - Ci * ((h + h) * kr * kr * kr * Z) - kr * kr * kz * (X - Y) + Ci * kr * kr * kr * (h + h) * Z); [ring|rewrite !Hh; ring [Ci2]].
Qed.

Ltac list4 := match goal with |- (_ :: _ :: _ :: _ :: nil)%list = _ => idtac end;
  apply f_equal2; [|apply f_equal2; [|apply f_equal2; [|apply f_equal2; [|reflexivity]]]].
Lemma defect_push f tr kz kr dt sp : no_sources (fst sp) -> transverse kz kr (fst sp) ->
  defect kz kr (ppush f tr kz kr dt sp) = List.map (Cmult (phase f kz dt * RtoC (coef_C c kz kr dt))) (defect kz kr sp).
Proof.
  destruct sp as [s p]. cbn [fst]. intros N T. destruct (push_vac_all f tr kz kr dt s p N T) as (E1 & E2 & _ & E3). cbv zeta in *.
  destruct T as [T1 T2]. destruct (share_curl kz kr _ T1) as [SE1 SE2]. destruct (share_curl kz kr _ T2) as [SB1 SB2].
  destruct (ppush f tr kz kr dt (s, p)) as [s' p'] eqn:PP. cbn [fst snd] in *. subst p'.
  pose proof (f_equal vp E1) as Ex. pose proof (f_equal vm E1) as Ey. pose proof (f_equal vp E2) as Bx. pose proof (f_equal vm E2) as By.
  clear E1 E2 T1 T2 PP. unfold comb in *.
  unfold vscal, vadd in *. cbn [vp vm] in *.
  change (vp (E_of s')) with (Ep s') in *. change (vm (E_of s')) with (Em s') in *. change (vp (B_of s')) with (Bp s') in *. change (vm (B_of s')) with (Bm s') in *.
  change (vp (E_of s)) with (Ep s) in *. change (vm (E_of s)) with (Em s) in *. change (vp (B_of s)) with (Bp s) in *. change (vm (B_of s)) with (Bm s) in *.
  unfold defect. cbn [Ep_pml Em_pml Bp_pml Bm_pml List.map]. rewrite Ex, Ey, Bx, By.
  set (k2 := RtoC (2 * _)) in *. set (kr2 := RtoC (kr ^ 2)) in *. set (T := phase f kz dt). set (C0 := RtoC (coef_C _ _ _ _)). set (S := RtoC (coef_S_w _ _ _ _)).
  set (cx := vp (curl kz kr (B_of s))) in *. set (cy := vm (curl kz kr (B_of s))) in *. set (ex := vp (curl kz kr (E_of s))) in *. set (ey := vm (curl kz kr (E_of s))) in *.
  set (bx := vp (curl 0 kr (B_of s))) in *. set (by' := vm (curl 0 kr (B_of s))) in *. set (fx := vp (curl 0 kr (E_of s))) in *. set (fy := vm (curl 0 kr (E_of s))) in *.
  clearbody k2 kr2 T C0 S cx cy ex ey bx by' fx fy.
  list4.
  - transitivity (T * C0 * (k2 * Ep_pml p - kr2 * (Ep s + Em s)) + T * RtoC (c ^ 2) * S * (k2 * bx - kr2 * (cx + cy))); [ring|rewrite SB1; ring].
  - transitivity (T * C0 * (k2 * Em_pml p - kr2 * (Ep s + Em s)) + T * RtoC (c ^ 2) * S * (k2 * by' - kr2 * (cx + cy))); [ring|rewrite SB2; ring].
  - transitivity (T * C0 * (k2 * Bp_pml p - kr2 * (Bp s + Bm s)) - T * S * (k2 * fx - kr2 * (ex + ey))); [ring|rewrite SE1; ring].
  - transitivity (T * C0 * (k2 * Bm_pml p - kr2 * (Bp s + Bm s)) - T * S * (k2 * fy - kr2 * (ex + ey))); [ring|rewrite SE2; ring].
Qed.

(** Any exact history: div E and div B stay 0, the defect only rotates. *)
Lemma history_div f kz kr E B P : split_maxwell c f kz kr E B P -> div kz kr (E 0%R) = 0 -> div kz kr (B 0%R) = 0 ->
  forall t, div kz kr (E t) = 0 /\ div kz kr (B t) = 0.
Proof.
  intros H D1 D2 t. split.
  - rewrite (rotation (drift f kz) (fun t => div kz kr (E t))), D1; [ring|]. intros x. destruct (H x) as (H1 & H2 & H3 & _). cbv zeta in *.
    pose proof (div_curl kz kr (B x)) as DC. unfold div in *.
    eapply dC_ext; [reflexivity| |apply dC_plus; [apply dC_scal, dC_minus; [exact H1|exact H2]|apply dC_scal; exact H3]].
    transitivity (Ci * drift f kz * (kr * (vp (E x) - vm (E x)) + Ci * kz * vz (E x)) + RtoC (c ^ 2) * (kr * (vp (curl kz kr (B x)) - vm (curl kz kr (B x))) + Ci * kz * vz (curl kz kr (B x)))); [ring|rewrite DC; ring].
  - rewrite (rotation (drift f kz) (fun t => div kz kr (B t))), D2; [ring|]. intros x. destruct (H x) as (_ & _ & _ & H1 & H2 & H3 & _). cbv zeta in *.
    pose proof (div_curl kz kr (E x)) as DC. unfold div in *.
    eapply dC_ext; [reflexivity| |apply dC_plus; [apply dC_scal, dC_minus; [exact H1|exact H2]|apply dC_scal; exact H3]].
    transitivity (Ci * drift f kz * (kr * (vp (B x) - vm (B x)) + Ci * kz * vz (B x)) - (kr * (vp (curl kz kr (E x)) - vm (curl kz kr (E x))) + Ci * kz * vz (curl kz kr (E x)))); [ring|rewrite DC; ring].
Qed.
Lemma history_defect f kz kr dt E B P : split_maxwell c f kz kr E B P -> div kz kr (E 0%R) = 0 -> div kz kr (B 0%R) = 0 ->
  let K2 := RtoC (2 * (kz ^ 2 + kr ^ 2)) in let K' := RtoC (kr ^ 2) in let T := phase f kz dt in
  let d := fun X F t => comb K2 K' (X (P t)) (vp (F t)) (vm (F t)) in
  d Ep_pml E dt = T * d Ep_pml E 0%R /\ d Em_pml E dt = T * d Em_pml E 0%R /\
  d Bp_pml B dt = T * d Bp_pml B 0%R /\ d Bm_pml B dt = T * d Bm_pml B 0%R.
Proof.
  intros H D1 D2. cbv zeta. pose proof (history_div f kz kr E B P H D1 D2) as DV.
  assert (G : forall X F (W : R -> C) (WF : R -> vec) (sg : C),
    (forall x, dC (fun t => X (P t)) x (Ci * drift f kz * X (P x) + sg * W x)) ->
    (forall x, dC (fun t => vp (F t)) x (Ci * drift f kz * vp (F x) + sg * vp (WF x))) ->
    (forall x, dC (fun t => vm (F t)) x (Ci * drift f kz * vm (F x) + sg * vm (WF x))) ->
    (forall x, comb (RtoC (2 * (kz ^ 2 + kr ^ 2))) (RtoC (kr ^ 2)) (W x) (vp (WF x)) (vm (WF x)) = 0) ->
    comb (RtoC (2 * (kz ^ 2 + kr ^ 2))) (RtoC (kr ^ 2)) (X (P dt)) (vp (F dt)) (vm (F dt)) =
    phase f kz dt * comb (RtoC (2 * (kz ^ 2 + kr ^ 2))) (RtoC (kr ^ 2)) (X (P 0%R)) (vp (F 0%R)) (vm (F 0%R))).
  { intros X F W WF sg HX HP HM Z. unfold phase.
    apply (rotation (drift f kz) (fun t => comb (RtoC (2 * (kz ^ 2 + kr ^ 2))) (RtoC (kr ^ 2)) (X (P t)) (vp (F t)) (vm (F t)))).
    intros x. specialize (Z x). unfold comb in *.
    eapply dC_ext; [reflexivity| |apply dC_minus; [apply dC_scal, HX|apply dC_scal, dC_plus; [apply HP|apply HM]]]. cbv beta.
    set (a := RtoC (2 * _)) in *. set (b := RtoC (kr ^ 2)) in *. clearbody a b.
    transitivity (Ci * drift f kz * (a * X (P x) - b * (vp (F x) + vm (F x))) + sg * (a * W x - b * (vp (WF x) + vm (WF x)))); [ring|rewrite Z; ring]. }
  split; [|split; [|split]].
  - apply (G Ep_pml E (fun x => vp (curl 0 kr (B x))) (fun x => curl kz kr (B x)) (RtoC (c ^ 2))); intros x;
      destruct (H x) as (H1 & H2 & H3 & H4 & H5 & H6 & H7 & H8 & H9 & H10); [exact H7|exact H1|exact H2|].
    apply share_curl, DV.
  - apply (G Em_pml E (fun x => vm (curl 0 kr (B x))) (fun x => curl kz kr (B x)) (RtoC (c ^ 2))); intros x;
      destruct (H x) as (H1 & H2 & H3 & H4 & H5 & H6 & H7 & H8 & H9 & H10); [exact H8|exact H1|exact H2|].
    apply share_curl, DV.
  - apply (G Bp_pml B (fun x => vp (curl 0 kr (E x))) (fun x => curl kz kr (E x)) (- (1))); intros x;
      destruct (H x) as (H1 & H2 & H3 & H4 & H5 & H6 & H7 & H8 & H9 & H10);
      [eapply dC_ext; [reflexivity| |exact H9]; ring|eapply dC_ext; [reflexivity| |exact H4]; ring|eapply dC_ext; [reflexivity| |exact H5]; ring|].
    apply share_curl, DV.
  - apply (G Bm_pml B (fun x => vm (curl 0 kr (E x))) (fun x => curl kz kr (E x)) (- (1))); intros x;
      destruct (H x) as (H1 & H2 & H3 & H4 & H5 & H6 & H7 & H8 & H9 & H10);
      [eapply dC_ext; [reflexivity| |exact H10]; ring|eapply dC_ext; [reflexivity| |exact H4]; ring|eapply dC_ext; [reflexivity| |exact H5]; ring|].
    apply share_curl, DV.
Qed.
Lemma exact_defect f kz kr dt a b : transverse kz kr (fst a) -> exact_step c f kz kr dt a b ->
  defect kz kr b = List.map (Cmult (phase f kz dt)) (defect kz kr a).
Proof.
  destruct a as [s p], b as [s' p']. cbn [fst]. intros [T1 T2] (E & B & P & E0 & B0 & P0 & E1 & B1 & P1 & H). cbn [fst snd] in *.
  rewrite <- E0 in T1. rewrite <- B0 in T2. destruct (history_defect f kz kr dt E B P H T1 T2) as (G1 & G2 & G3 & G4). cbv zeta in *.
  rewrite E0, E1, P0, P1 in *. rewrite B0, B1 in *. unfold comb in *. unfold defect. cbn [List.map].
  list4; [exact G1|exact G2|exact G3|exact G4].
Qed.
Lemma map_eq_Forall (f g : C -> C) l : List.map f l = List.map g l -> List.Forall (fun x : C => f x = g x) l.
Proof.
  intros H. apply List.Forall_forall. induction l as [|a l IH]; intros x [].
  - subst. cbn [List.map] in H. apply (f_equal (List.hd (f x))) in H. exact H.
  - apply IH; auto. apply (f_equal (@List.tl C)) in H. exact H.
Qed.
Lemma Cmult_cancel_l (x y z : C) : x <> 0 -> x * y = x * z -> y = z.
Proof.
  intros X H. transitivity (/ x * (x * y)); [field; auto|]. rewrite H. field. auto.
Qed.
Lemma exact_only f tr kz kr dt sp : no_sources (fst sp) -> transverse kz kr (fst sp) ->
  exact_step c f kz kr dt sp (ppush f tr kz kr dt sp) -> coef_C c kz kr dt = 1%R \/ in_share kz kr sp.
Proof.
  intros N T H. pose proof (exact_defect f kz kr dt _ _ T H) as D. rewrite (defect_push f tr kz kr dt sp N T) in D.
  destruct (Req_EM_T (coef_C c kz kr dt) 1) as [|NC]; [auto|right].
  assert (Z : forall d, phase f kz dt * RtoC (coef_C c kz kr dt) * d = phase f kz dt * d -> d = 0).
  { intros d Hd. assert (P0 : phase f kz dt <> 0) by apply cis_nonzero.
    assert (X : RtoC (coef_C c kz kr dt) * d = d) by (apply (Cmult_cancel_l (phase f kz dt)); auto; rewrite <- Hd; ring).
    assert (Y : RtoC (coef_C c kz kr dt - 1) <> 0) by (apply RtoC_neq; lra).
    apply (Cmult_cancel_l _ d 0 Y). rewrite RtoC_minus.
    transitivity (RtoC (coef_C c kz kr dt) * d - d); [ring|rewrite X; ring]. }
  unfold in_share. apply map_eq_Forall in D. revert D. apply List.Forall_impl. exact Z.
Qed.

(** Conversely. *)
Lemma dcos kz kr t : is_derive (fun t => coef_C c kz kr t) t (- (omega c kz kr ^ 2 * coef_S_w c kz kr t))%R.
Proof.
  unfold coef_C, coef_S_w, inv_w. destruct (Req_EM_T (omega c kz kr) 0) as [E|N].
  - rewrite E. auto_derive; auto. ring.
  - auto_derive; auto. field. auto.
Qed.
Lemma dsin kz kr t : is_derive (fun t => coef_S_w c kz kr t) t (coef_C c kz kr t).
Proof.
  unfold coef_C, coef_S_w, inv_w. destruct (Req_EM_T (omega c kz kr) 0) as [E|N].
  - rewrite E, Rmult_0_l, cos_0. auto_derive; auto.
  - auto_derive; auto. field. auto.
Qed.
Lemma C_0 kz kr : coef_C c kz kr 0 = 1%R.
Proof. unfold coef_C. rewrite Rmult_0_r. apply cos_0. Qed.
Lemma S_0 kz kr : coef_S_w c kz kr 0 = 0%R.
Proof. unfold coef_S_w. destruct (Req_EM_T _ _); auto. rewrite Rmult_0_r, sin_0. ring. Qed.
Definition share kz kr : R := (kr ^ 2 / (2 * (kz ^ 2 + kr ^ 2)))%R.
Lemma share_w kz kr : (omega c kz kr ^ 2 * share kz kr = c ^ 2 * (kr ^ 2 / 2))%R.
Proof.
  rewrite omega_sq. unfold share. destruct (Req_EM_T (kz ^ 2 + kr ^ 2) 0) as [E|N].
  - assert (kr = 0%R) as -> by nra. unfold Rdiv. ring.
  - field. auto.
Qed.
(** phase(t) (C(t) a + S(t) b + d): a derivative for all histories below. *)
Lemma dC_wave f kz kr a b d t :
  dC (fun t => phase f kz t * (RtoC (coef_C c kz kr t) * a + RtoC (coef_S_w c kz kr t) * b + d)) t
     (Ci * drift f kz * (phase f kz t * (RtoC (coef_C c kz kr t) * a + RtoC (coef_S_w c kz kr t) * b + d)) +
      phase f kz t * (RtoC (coef_C c kz kr t) * b - RtoC (omega c kz kr ^ 2) * RtoC (coef_S_w c kz kr t) * a)).
Proof.
  pose proof (dC_mult (fun t => RtoC (coef_C c kz kr t)) (fun _ => a) t _ _ (dC_real _ _ _ (dcos kz kr t)) (dC_const a t)) as H1.
  pose proof (dC_mult (fun t => RtoC (coef_S_w c kz kr t)) (fun _ => b) t _ _ (dC_real _ _ _ (dsin kz kr t)) (dC_const b t)) as H2.
  pose proof (dC_plus _ _ _ _ _ (dC_plus _ _ _ _ _ H1 H2) (dC_const d t)) as H3.
  pose proof (dC_mult _ _ _ _ _ (dC_cis (drift f kz) t) H3) as H4. clear H1 H2 H3.
  eapply dC_ext; [| |exact H4]; [reflexivity|]. cbv beta. unfold phase. rewrite RtoC_opp, RtoC_mult. ring.
Qed.
Lemma pml_ext (p q : pml) : Ep_pml p = Ep_pml q -> Em_pml p = Em_pml q -> Bp_pml p = Bp_pml q -> Bm_pml p = Bm_pml q -> p = q.
Proof. destruct p, q; cbn; intros; subst; reflexivity. Qed.
Lemma w2_curl kz kr F : div kz kr F = 0 -> RtoC (c ^ 2) * vp (curl kz kr (curl kz kr F)) = RtoC (omega c kz kr ^ 2) * vp F /\
  RtoC (c ^ 2) * vm (curl kz kr (curl kz kr F)) = RtoC (omega c kz kr ^ 2) * vm F /\
  RtoC (c ^ 2) * vz (curl kz kr (curl kz kr F)) = RtoC (omega c kz kr ^ 2) * vz F.
Proof. intros D. rewrite (curl_curl kz kr F D), omega_sq, RtoC_mult. unfold vscal; cbn [vp vm vz]. repeat split; ring. Qed.
Lemma w2_share kz kr F : RtoC (c ^ 2) * vp (curl 0 kr (curl kz kr F)) = RtoC (omega c kz kr ^ 2) * (RtoC (share kz kr) * (vp F + vm F)) /\
  RtoC (c ^ 2) * vm (curl 0 kr (curl kz kr F)) = RtoC (omega c kz kr ^ 2) * (RtoC (share kz kr) * (vp F + vm F)).
Proof.
  rewrite Cmult_assoc, <- RtoC_mult, share_w, RtoC_mult. unfold curl; cbn [vp vm vz].
  replace (RtoC (kr ^ 2 / 2)) with (RtoC (kr / 2) * kr) by (rewrite <- RtoC_mult; f_equal; field).
  rewrite RtoC_half. split; ring [Ci2].
Qed.

Lemma exact_if f tr kz kr dt sp : no_sources (fst sp) -> transverse kz kr (fst sp) ->
  coef_C c kz kr dt = 1%R \/ in_share kz kr sp -> exact_step c f kz kr dt sp (ppush f tr kz kr dt sp).
Proof.
  destruct sp as [s p]. cbn [fst]. intros N T H.
  destruct (push_vac_all f tr kz kr dt s p N T) as (E1 & E2 & _ & E3). cbv zeta in *. destruct T as [T1 T2].
  set (e := E_of s) in *. set (b := B_of s) in *. set (q := RtoC (share kz kr)) in *.
  assert (Q : forall P Fp Fm : C, RtoC (2 * (kz ^ 2 + kr ^ 2)) * P - RtoC (kr ^ 2) * (Fp + Fm) = 0 -> coef_C c kz kr dt = 1%R \/ P = q * (Fp + Fm)).
  { intros P Fp Fm D. destruct (Req_EM_T (kz ^ 2 + kr ^ 2) 0) as [K|K].
    - left. unfold coef_C, omega. rewrite K, sqrt_0, Rmult_0_r, Rmult_0_l, cos_0. reflexivity.
    - right. assert (K2 : RtoC (2 * (kz ^ 2 + kr ^ 2)) <> 0) by (apply RtoC_neq; lra).
      apply (Cmult_cancel_l _ _ _ K2). rewrite Cmult_assoc. unfold q. rewrite <- RtoC_mult.
      replace (2 * (kz ^ 2 + kr ^ 2) * share kz kr)%R with (kr ^ 2)%R by (unfold share; field; auto).
      transitivity (RtoC (2 * (kz ^ 2 + kr ^ 2)) * P - RtoC (kr ^ 2) * (Fp + Fm) + RtoC (kr ^ 2) * (Fp + Fm)); [ring|rewrite D; ring]. }
  assert (Q' : coef_C c kz kr dt = 1%R \/ (Ep_pml p = q * (vp e + vm e) /\ Em_pml p = q * (vp e + vm e) /\ Bp_pml p = q * (vp b + vm b) /\ Bm_pml p = q * (vp b + vm b))).
  { destruct H as [H|H]; [auto|]. unfold in_share, defect in H. rewrite !List.Forall_cons_iff in H. destruct H as (H1 & H2 & H3 & H4 & _).
    apply Q in H1, H2, H3, H4. tauto. }
  clear Q H.
  set (w := fun t (x y d : C) => phase f kz t * (RtoC (coef_C c kz kr t) * x + RtoC (coef_S_w c kz kr t) * y + d)).
  exists (fun t => {| vp := w t (vp e) (RtoC (c ^ 2) * vp (curl kz kr b)) 0; vm := w t (vm e) (RtoC (c ^ 2) * vm (curl kz kr b)) 0;
                      vz := w t (vz e) (RtoC (c ^ 2) * vz (curl kz kr b)) 0 |}).
  exists (fun t => {| vp := w t (vp b) (- vp (curl kz kr e)) 0; vm := w t (vm b) (- vm (curl kz kr e)) 0; vz := w t (vz b) (- vz (curl kz kr e)) 0 |}).
  exists (fun t => {| Ep_pml := w t (q * (vp e + vm e)) (RtoC (c ^ 2) * vp (curl 0 kr b)) (Ep_pml p - q * (vp e + vm e));
                      Em_pml := w t (q * (vp e + vm e)) (RtoC (c ^ 2) * vm (curl 0 kr b)) (Em_pml p - q * (vp e + vm e));
                      Bp_pml := w t (q * (vp b + vm b)) (- vp (curl 0 kr e)) (Bp_pml p - q * (vp b + vm b));
                      Bm_pml := w t (q * (vp b + vm b)) (- vm (curl 0 kr e)) (Bm_pml p - q * (vp b + vm b)) |}).
  assert (W0 : forall x y d, w 0%R x y d = x + d).
  { intros. unfold w, phase. rewrite C_0, S_0, Rmult_0_r, cis_0. ring. }
  cbv beta. change (fst (s, p)) with s. change (snd (s, p)) with p. fold e b.
  split; [apply vec_ext; cbn [vp vm vz]; rewrite W0; ring|]. split; [apply vec_ext; cbn [vp vm vz]; rewrite W0; ring|].
  split; [apply pml_ext; cbn [Ep_pml Em_pml Bp_pml Bm_pml snd]; rewrite W0; ring|].
  split; [rewrite E1; apply vec_ext; unfold vscal, vadd, w; cbn [vp vm vz]; ring|].
  split; [rewrite E2; apply vec_ext; unfold vscal, vadd, w; cbn [vp vm vz]; ring|].
  split.
  { rewrite E3. unfold w. destruct Q' as [->|(-> & -> & -> & ->)]; apply pml_ext; cbn [Ep_pml Em_pml Bp_pml Bm_pml]; ring. }
  clear E1 E2 E3 W0 Q'. intros t. cbv zeta. cbn [vp vm vz Ep_pml Em_pml Bp_pml Bm_pml].
  destruct (w2_curl kz kr e T1) as (X1 & X2 & X3). destruct (w2_curl kz kr b T2) as (Y1 & Y2 & Y3).
  destruct (w2_share kz kr e) as (Z1 & Z2). destruct (w2_share kz kr b) as (Z3 & Z4). fold q in Z1, Z2, Z3, Z4.
  assert (G : forall x y d l, RtoC (coef_C c kz kr t) * y - RtoC (coef_S_w c kz kr t) * (RtoC (omega c kz kr ^ 2) * x) = l ->
     dC (fun t => w t x y d) t (Ci * drift f kz * w t x y d + phase f kz t * l)).
  { intros x y d l <-. unfold w. eapply dC_ext; [reflexivity| |apply dC_wave]. ring. }
  assert (G' : forall x y d l m, RtoC (coef_C c kz kr t) * y - RtoC (coef_S_w c kz kr t) * (RtoC (omega c kz kr ^ 2) * x) = l -> phase f kz t * l = m ->
     dC (fun t => w t x y d) t (Ci * drift f kz * w t x y d + m)) by (intros x y d l m HL <-; apply G; exact HL).
  clear G.
  assert (G2 : forall x y d l m, RtoC (coef_C c kz kr t) * y - RtoC (coef_S_w c kz kr t) * (RtoC (omega c kz kr ^ 2) * x) = l -> phase f kz t * l = - m ->
     dC (fun t => w t x y d) t (Ci * drift f kz * w t x y d - m)) by (intros x y d l m HL HM; apply (G' x y d l (- m) HL HM)).
  split; [|split; [|split; [|split; [|split; [|split; [|split; [|split; [|split]]]]]]]].
  - eapply G'; [rewrite <- X1; reflexivity|]. unfold w, curl; cbn [vp vm vz]. ring.
  - eapply G'; [rewrite <- X2; reflexivity|]. unfold w, curl; cbn [vp vm vz]. ring.
  - eapply G'; [rewrite <- X3; reflexivity|]. unfold w, curl; cbn [vp vm vz]. ring.
  - eapply G2; [rewrite <- Y1; reflexivity|]. unfold w, curl; cbn [vp vm vz]. ring.
  - eapply G2; [rewrite <- Y2; reflexivity|]. unfold w, curl; cbn [vp vm vz]. ring.
  - eapply G2; [rewrite <- Y3; reflexivity|]. unfold w, curl; cbn [vp vm vz]. ring.
  - eapply G'; [rewrite <- Z1; reflexivity|]. unfold w, curl; cbn [vp vm vz]. ring.
  - eapply G'; [rewrite <- Z2; reflexivity|]. unfold w, curl; cbn [vp vm vz]. ring.
  - eapply G2; [rewrite <- Z3; reflexivity|]. unfold w, curl; cbn [vp vm vz]. ring.
  - eapply G2; [rewrite <- Z4; reflexivity|]. unfold w, curl; cbn [vp vm vz]. ring.
Qed.

(** Many steps. *)
Lemma steps_inv f tr kz kr dt n sp : no_sources (fst sp) -> transverse kz kr (fst sp) ->
  let sp' := Nat.iter n (ppush f tr kz kr dt) sp in no_sources (fst sp') /\ transverse kz kr (fst sp') /\
  defect kz kr sp' = List.map (Cmult (phase f kz (INR n * dt) * RtoC (coef_C c kz kr dt ^ n))) (defect kz kr sp).
Proof.
  intros N T. cbv zeta. induction n as [|n (IN & IT & ID)].
  - cbn [Nat.iter nat_rect INR pow]. split; [auto|]. split; [auto|]. unfold phase. rewrite Rmult_0_l, Rmult_0_r, cis_0.
    rewrite <- (List.map_id (defect kz kr sp)) at 1. apply List.map_ext. intros z. ring.
  - change (Nat.iter (S n) (ppush f tr kz kr dt) sp) with (ppush f tr kz kr dt (Nat.iter n (ppush f tr kz kr dt) sp)).
    set (a := Nat.iter n (ppush f tr kz kr dt) sp) in *.
    assert (Ea : a = (fst a, snd a)) by apply surjective_pairing.
    split. { rewrite Ea. apply push_vac_all; auto. }
    split. { rewrite Ea. apply push_transverse_all; auto. }
    rewrite defect_push, ID, List.map_map by auto. apply List.map_ext. intros z.
    unfold phase. rewrite S_INR. replace (drift f kz * ((INR n + 1) * dt))%R with (drift f kz * dt + drift f kz * (INR n * dt))%R by ring.
    rewrite cis_add. cbn [pow]. rewrite RtoC_mult. ring.
Qed.
End Const.

(** Witnesses. *)
Definition laser_mode : mode :=
  {| Ep := 1; Em := 1; Ez := 0; Bp := 0; Bm := 0; Bz := 0; Jp := 0; Jm := 0; Jz := 0; rho_prev := 0; rho_next := 0; rho_next_z := 0; rho_next_xy := 0 |}.
Definition dark_mode : mode :=
  {| Ep := 0; Em := 0; Ez := 0; Bp := 0; Bm := 0; Bz := 0; Jp := 0; Jm := 0; Jz := 0; rho_prev := 0; rho_next := 0; rho_next_z := 0; rho_next_xy := 0 |}.
Definition emit : sources := {| s_Jp := 1; s_Jm := 1; s_Jz := 0; s_rho := 0; s_rho_z := 0; s_rho_xy := 0 |}.
Definition silent : sources := {| s_Jp := 0; s_Jm := 0; s_Jz := 0; s_rho := 0; s_rho_z := 0; s_rho_xy := 0 |}.
Definition quarter (c : R) : R := (PI / 2 / (c * sqrt 2))%R.
Lemma quarter_pos c : (0 < c)%R -> (0 < quarter c)%R.
Proof.
  intros H. unfold quarter. pose proof PI_RGT_0. assert (0 < sqrt 2)%R by (apply sqrt_lt_R0; lra).
  repeat apply Rdiv_lt_0_compat; try lra. apply Rmult_lt_0_compat; auto.
Qed.
Lemma quarter_w c : (0 < c)%R -> (omega c 1 1 * quarter c = PI / 2)%R.
Proof.
  intros H. unfold omega, quarter. replace (1 ^ 2 + 1 ^ 2)%R with 2%R by ring.
  assert (0 < sqrt 2)%R by (apply sqrt_lt_R0; lra). field. lra.
Qed.
Lemma quarter_C c : (0 < c)%R -> coef_C c 1 1 (quarter c) = 0%R.
Proof. intros H. unfold coef_C. rewrite quarter_w by auto. apply cos_PI2. Qed.
Lemma quarter_S c : (0 < c)%R -> coef_S_w c 1 1 (quarter c) <> 0%R.
Proof.
  intros H. assert (W : omega c 1 1 <> 0%R).
  { intros E. pose proof (quarter_w c H) as Q. rewrite E in Q. pose proof PI_RGT_0. lra. }
  unfold coef_S_w, inv_w. destruct (Req_EM_T _ _); [contradiction|]. rewrite quarter_w, sin_PI2 by auto.
  intros E. apply (Rmult_eq_compat_r (omega c 1 1)) in E. field_simplify in E; auto. lra.
Qed.
Lemma share_broken kz kr s p : kr <> 0%R -> Ep_pml p = 0 -> Ep s + Em s <> 0 -> ~ in_share kz kr (s, p).
Proof.
  intros K P E H. unfold in_share, defect in H. rewrite List.Forall_cons_iff in H. destruct H as [H _]. apply E.
  apply (Cmult_cancel_l (RtoC (kr ^ 2))); [apply RtoC_neq, pow_nonzero; auto|].
  transitivity (RtoC (2 * (kz ^ 2 + kr ^ 2)) * 0 - (RtoC (2 * (kz ^ 2 + kr ^ 2)) * Ep_pml p - RtoC (kr ^ 2) * (Ep s + Em s))); [rewrite P; ring|rewrite H; ring].
Qed.
Lemma C1_neq : RtoC 1 <> 0.
Proof. apply RtoC_neq; lra. Qed.
Lemma two_neq : 1 + 1 <> 0.
Proof. rewrite <- RtoC_plus. apply RtoC_neq; lra. Qed.
Definition emit_mode : mode :=
  {| Ep := 0; Em := 0; Ez := 0; Bp := 0; Bm := 0; Bz := 0; Jp := 1; Jm := 1; Jz := 0; rho_prev := 0; rho_next := 0; rho_next_z := 0; rho_next_xy := 0 |}.
Lemma emitted c mu_0 epsilon_0 tr : (0 < c)%R -> mu_0 <> 0%R ->
  let ps := psatd_coeffs c mu_0 epsilon_0 None false 1 1 (quarter c) in
  let a := push_pml c mu_0 epsilon_0 ps tr 1 1 (load_sources emit dark_mode, pml_zero) in
  let s := load_sources silent (fst a) in
  no_sources s /\ transverse 1 1 s /\ Ep_pml (snd a) = 0 /\ Ep s + Em s <> 0.
Proof.
  intros Hc Hm. cbv zeta. pose proof (quarter_S c Hc) as HS.
  set (ps := psatd_coeffs c mu_0 epsilon_0 None false 1 1 (quarter c)).
  assert (L : load_sources emit dark_mode = emit_mode) by reflexivity. rewrite L. clear L.
  unfold push_pml, push_eb_with_pml, push_eb_with. change (co_V ps) with (@None R). cbv iota.
  set (X := push_eb_standard c mu_0 epsilon_0 ps tr 1 1 emit_mode).
  set (S := coef_S_w c 1 1 (quarter c)) in *.
  assert (HEp : Ep X = - (RtoC (c ^ 2) * RtoC S * mu_0)).
  { unfold X, push_eb_standard, emit_mode, set_B, set_E. cbn [Ep Em Ez Bp Bm Bz Jp Jm Jz rho_prev rho_next].
    change (co_S_w ps) with (RtoC S). destruct tr; ring. }
  assert (HEm : Em X = - (RtoC (c ^ 2) * RtoC S * mu_0)).
  { unfold X, push_eb_standard, emit_mode, set_B, set_E. cbn [Ep Em Ez Bp Bm Bz Jp Jm Jz rho_prev rho_next].
    change (co_S_w ps) with (RtoC S). destruct tr; ring. }
  assert (HEz : Ez X = 0).
  { unfold X, push_eb_standard, emit_mode, set_B, set_E. cbn [Ep Em Ez Bp Bm Bz Jp Jm Jz rho_prev rho_next]. destruct tr; ring. }
  assert (HBp : Bp X = co_j ps).
  { unfold X, push_eb_standard, emit_mode, set_B, set_E. cbn [Ep Em Ez Bp Bm Bz Jp Jm Jz rho_prev rho_next]. ring. }
  assert (HBm : Bm X = - co_j ps).
  { unfold X, push_eb_standard, emit_mode, set_B, set_E. cbn [Ep Em Ez Bp Bm Bz Jp Jm Jz rho_prev rho_next]. ring. }
  assert (HBz : Bz X = Ci * (1 + 1) * co_j ps).
  { unfold X, push_eb_standard, emit_mode, set_B, set_E. cbn [Ep Em Ez Bp Bm Bz Jp Jm Jz rho_prev rho_next]. ring. }
  assert (R0 : rho_next X = 0) by reflexivity.
  clearbody X. cbn [fst snd]. set (s := load_sources silent (push_rho X)).
  assert (N : no_sources s) by (repeat split; try reflexivity; exact R0).
  change (no_sources s /\ (1 * (Ep X - Em X) + Ci * 1 * Ez X = 0 /\ 1 * (Bp X - Bm X) + Ci * 1 * Bz X = 0) /\
     co_C ps * 0 + RtoC (c ^ 2) * co_S_w ps * (- (Ci) * 0.5 * 1 * 0) = 0 /\ Ep X + Em X <> 0).
  rewrite HEp, HEm, HEz, HBp, HBm, HBz. split; [exact N|]. split; [split; ring [Ci2]|]. split; [ring|].
  intros E. assert (Y : RtoC (- (2 * (c ^ 2 * S * mu_0))) = 0).
  { rewrite <- E. rewrite !RtoC_opp, !RtoC_mult. replace (RtoC 2) with (1 + 1) by (rewrite <- RtoC_plus; f_equal; ring). ring. }
  revert Y. apply RtoC_neq. apply Ropp_neq_0_compat. apply Rmult_integral_contrapositive_currified; [lra|].
  apply Rmult_integral_contrapositive_currified; auto. apply Rmult_integral_contrapositive_currified; auto. apply pow_nonzero. lra.
Qed.
