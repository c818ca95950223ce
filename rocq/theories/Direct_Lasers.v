(** How many azimuthal modes the profiles need. *)
From Verif Require Import Base Fourier_Lib Psatd_Model Psatd_Spec Maxwell_Spec Laser_Model Laser_Spec Laser_Calc Laser_Paraxial Laser_Proofs Laser_Wave Laser_Final Direct_Model Direct_Spec Direct_Proofs.
From Coq Require Import Reals Lra Lia.
From Coquelicot Require Import Coquelicot.
Open Scope R_scope.

Lemma combine_cyl M E0x E0y long (trans : R -> R -> R -> C) pd :
  (forall (a : C) r z, 0 <= r -> trig M (fun th => Re (a * trans (r * cos th)%R (r * sin th)%R z)%C)) ->
  cylindrical M {| propag_direction := pd; E_field := combine E0x E0y long trans |}.
Proof.
  intros H r z t Hr. cbn [E_field]. unfold combine. cbn [fst snd]. split.
  - apply (trig_ext _ (fun th => Re ((E0x * long z t) * trans (r * cos th)%R (r * sin th)%R z)%C)); [intros; f_equal; ring|]. apply H. exact Hr.
  - apply (trig_ext _ (fun th => Re ((E0y * long z t) * trans (r * cos th)%R (r * sin th)%R z)%C)); [intros; f_equal; ring|]. apply H. exact Hr.
Qed.
Lemma trig_same M f : (forall t, f t = f 0) -> trig M f.
Proof. intros H. apply (trig_ext _ (fun _ => f 0)); [intros; symmetry; apply H|apply trig_const]. Qed.
Lemma w0_pos w zf lambda0 dir t : 0 < w -> transverse_init w zf lambda0 dir = Ok t -> 0 < t_w0 t.
Proof. intros Hw. unfold transverse_init. destruct (_ || _)%bool; [|discriminate]. intros H. injection H as <-. exact Hw. Qed.

Section L.
Context (c m_e e : R).
Lemma gaussian_cyl a0 waist tau z0 zf theta lambda0 cep phi2 dir l : 0 < waist ->
  gaussian_laser c m_e e a0 waist tau z0 zf theta lambda0 cep phi2 dir = Ok l -> cylindrical 0 l.
Proof.
  intros Hw H. unfold gaussian_laser in H. destruct (longitudinal_init _ _ _ _ _ _ _) as [g|]; [|discriminate]. cbn [bind] in H.
  destruct (transverse_init _ _ _ _) as [t|] eqn:T; [|discriminate]. cbn [bind] in H. injection H as <-.
  apply combine_cyl. intros a r z Hr. apply (trig_ext _ (fun _ => Re (a * amode t 0 0 (r ^ 2) z)%C)); [|apply trig_const].
  intros th. rewrite gauss_form by (apply (w0_pos _ _ _ _ _ Hw T)). rewrite polar_sq. reflexivity.
Qed.
Lemma flattened_cyl a0 w0 tau z0 N zf theta lambda0 cep dir l : 0 < w0 ->
  flattened_laser c m_e e a0 w0 tau z0 N zf theta lambda0 cep dir = Ok l -> cylindrical 0 l.
Proof.
  intros Hw H. unfold flattened_laser in H. destruct (longitudinal_init _ _ _ _ _ _ _) as [g|]; [|discriminate]. cbn [bind] in H.
  unfold flattened_init in H. destruct (transverse_init _ _ _ _) as [t|] eqn:T; [|discriminate]. cbn [bind] in H. apply Ok_eq in H. subst l.
  apply combine_cyl. intros a r z Hr.
  assert (Hw0 : 0 < w0 * sqrt (INR N + 1)) by (apply Rmult_lt_0_compat; [exact Hw|apply sqrt_lt_R0; pose proof (pos_INR N); lra]).
  pose proof (w0_pos _ _ _ _ _ Hw0 T) as Hw'.
  apply trig_same. intros th. rewrite !(flattened_form _ _ _ _ _ _ Hw'). rewrite !polar_sq. reflexivity.
Qed.
Lemma laguerre_cyl p m a0 waist tau z0 zf theta lambda0 cep theta0 dir l : 0 < waist ->
  laguerre_gauss_laser c m_e e p m a0 waist tau z0 zf theta lambda0 cep theta0 dir = Ok l -> cylindrical (Z.to_nat m) l.
Proof.
  intros Hw H. unfold laguerre_gauss_laser in H. destruct (longitudinal_init _ _ _ _ _ _ _) as [g|]; [|discriminate]. cbn [bind] in H.
  unfold laguerre_init in H. destruct (transverse_init _ _ _ _) as [t|] eqn:T; [|discriminate]. cbn [bind] in H. destruct (m <? 0)%Z; [discriminate|]. cbn [bind] in H. apply Ok_eq in H. subst l.
  apply combine_cyl. intros a r z Hr. set (n := Z.to_nat m) in *.
  match goal with |- context [laguerre_evaluate {| l_t := t; l_p := p; l_m := n; l_scaled_amplitude := ?A; l_theta0 := _ |}] => set (amp := A) end.
  pose proof (w0_pos _ _ _ _ _ Hw T) as Hw'. set (K := RtoC (amp * (sqrt 2 / t_w0 t) ^ n / 2)).
  apply (trig_ext _ (fun th => Re ((a * K * cis (- (INR n * theta0)) * RtoC (r ^ n) * amode t p n (r ^ 2) z) * cis (1 * (INR n * th)))%C +
     Re ((a * K * cis (INR n * theta0) * RtoC (r ^ n) * amode t p n (r ^ 2) z) * cis (-1 * (INR n * th)))%C)).
  - intros th. rewrite (laguerre_form _ _ _ _ _ _ _ _ Hw'). rewrite !harm_polar, polar_sq by auto. rewrite <- Re_plus. f_equal. fold K. ring.
  - apply trig_plus; apply trig_cis; auto.
Qed.
Lemma donut_cyl p m a0 waist tau z0 zf theta lambda0 cep dir l : 0 < waist ->
  donut_laser c m_e e p m a0 waist tau z0 zf theta lambda0 cep dir = Ok l -> cylindrical (Z.abs_nat m) l.
Proof.
  intros Hw H. unfold donut_laser in H. destruct (longitudinal_init _ _ _ _ _ _ _) as [g|]; [|discriminate]. cbn [bind] in H.
  unfold donut_init in H. destruct (transverse_init _ _ _ _) as [t|] eqn:T; [|discriminate]. cbn [bind] in H. apply Ok_eq in H. subst l.
  apply combine_cyl. intros a r z Hr. pose proof (w0_pos _ _ _ _ _ Hw T) as Hw'. set (n := Z.abs_nat m) in *.
  set (amp := sqrt _). set (K := RtoC (amp * (sqrt 2 / t_w0 t) ^ n)). set (s := if (0 <=? m)%Z then -1 else 1).
  assert (Hs : s = 1 \/ s = -1) by (unfold s; destruct (0 <=? m)%Z; auto).
  apply (trig_ext _ (fun th => Re ((a * K * RtoC (r ^ n) * amode t p n (r ^ 2) z) * cis (s * (INR n * th)))%C)).
  - intros th. rewrite (donut_form _ _ _ _ _ _ _ Hw'). fold s n. rewrite !harm_polar, polar_sq by auto. f_equal. fold K. ring.
  - apply trig_cis; auto.
Qed.
Lemma few_cycle_cyl fsolve a0 waist tau z0 zf theta lambda0 cep dir l :
  few_cycle_laser c m_e e fsolve a0 waist tau z0 zf theta lambda0 cep dir = Ok l -> cylindrical 0 l.
Proof.
  intros H. unfold few_cycle_laser in H. destruct (_ || _)%bool; [|discriminate]. apply Ok_eq in H. subst l. intros r z t Hr. cbn [E_field fst snd].
  unfold few_cycle_profile. split; apply trig_same; intros th; rewrite !polar_sq; reflexivity.
Qed.
Lemma sum_cyl M l1 l2 l : cylindrical M l1 -> cylindrical M l2 -> summed_laser l1 l2 = Ok l -> cylindrical M l.
Proof.
  intros H1 H2 H. unfold summed_laser in H. destruct (Req_EM_T _ _); [|discriminate]. apply Ok_eq in H. subst l. intros r z t Hr. cbn [E_field].
  destruct (H1 r z t Hr) as [A1 B1], (H2 r z t Hr) as [A2 B2]. split.
  - eapply trig_ext; [|exact (trig_plus _ _ _ A1 A2)]. intros th. cbv beta. destruct (E_field l1 _ _ _ _), (E_field l2 _ _ _ _). reflexivity.
  - eapply trig_ext; [|exact (trig_plus _ _ _ B1 B2)]. intros th. cbv beta. destruct (E_field l1 _ _ _ _), (E_field l2 _ _ _ _). reflexivity.
Qed.
End L.
