(** C70-C74: the PICMI interface. *)
From Verif Require Import Base Fourier_Lib Boost_Model Smooth_Model Laser_Model Laser_Spec Laser_Wave Laser_Final Bunch_Model Picmi_Model Picmi_Spec Picmi_Proofs.
From Verif Require ExtField_Model ExtField_Spec ExtField_Proofs.
From Coq Require Import Reals String Lra Lia Psatz.
From Coquelicot Require Import Complex.
Import ListNotations.
Open Scope R_scope.
Open Scope list_scope.

(** ** C70: lasers *)
(** A PICMI laser at 0.8 micron, that goes to +z, without carrier phase, is what the antenna emits. *)
Theorem C70_partial : forall c m_e e l lz, c <> 0 -> pl_duration l <> 0 -> 0 < pl_waist l -> pl_polarization l <> (0, 0) ->
  pl_wavelength l = 0.8e-6 -> 0 < snd (pl_propagation l) -> pl_phi0 l = None \/ pl_phi0 l = Some 0 ->
  picmi_laser_profile c m_e e l = Ok lz -> requested_laser c m_e e l lz.
Proof.
  intros c m_e e l lz Hc Ht Hw Hp W D Ph H. unfold picmi_laser_profile in H. unfold requested_laser. cbv zeta. destruct (pl_propagation l) as [[d0 d1] d2]. cbn [snd] in *.
  destruct (Req_EM_T d0 0); [|discriminate]. destruct (Req_EM_T d1 0); [|discriminate]. destruct (none_or_zero (pl_zeta l)); [|discriminate]. destruct (none_or_zero (pl_beta l)); [|discriminate].
  destruct (Rlt_dec 0 d2) as [_|N]; [|lra].
  assert (Cep : match pl_phi0 l with Some p => p | None => 0 end = 0) by (destruct Ph as [-> | ->]; reflexivity). rewrite Cep.
  destruct (polar_angle (pl_polarization l) Hp) as [Co Si].
  destruct (gaussian_ok _ _ _ _ _ _ _ _ _ _ _ _ _ _ Hc Ht Hw (ltac:(lra) : 0 < 0.8e-6) H) as (u & P & Foc & _ & Di & Pu). cbv zeta in Pu. rewrite Co, Si in Pu. split; [exact Di|].
  exists u. rewrite W. split; [exact P|]. split; [exact Foc|]. exact Pu.
Qed.
Print Assumptions C70_partial.
(** The wavelength and the direction are not passed on: no error, but another laser. *)
Theorem C70_refuted : forall c m_e e, 0 < c -> 0 < m_e -> 0 < e ->
  (exists l lz, pl_wavelength l = 1e-6 /\ picmi_laser_profile c m_e e l = Ok lz /\ ~ requested_laser c m_e e l lz) /\
  (exists l lz, pl_propagation l = (0, 0, -1) /\ pl_wavelength l = 0.8e-6 /\ picmi_laser_profile c m_e e l = Ok lz /\ propag_direction lz = 1 /\ ~ requested_laser c m_e e l lz).
Proof.
  intros c m_e e Hc Hm He. split.
  - set (l := {| pl_a0 := 1; pl_wavelength := 1e-6; pl_waist := 1; pl_duration := 1; pl_centroid := 0; pl_focal := 0; pl_propagation := (0, 0, 1); pl_polarization := (1, 0); pl_phi0 := None; pl_zeta := None; pl_beta := None; pl_phi2 := None |}).
    set (l' := {| pl_a0 := 1; pl_wavelength := 0.8e-6; pl_waist := 1; pl_duration := 1; pl_centroid := 0; pl_focal := 0; pl_propagation := (0, 0, 1); pl_polarization := (1, 0); pl_phi0 := None; pl_zeta := None; pl_beta := None; pl_phi2 := None |}).
    assert (E : exists lz, picmi_laser_profile c m_e e l = Ok lz).
    { unfold picmi_laser_profile. cbn. destruct (Req_EM_T 0 0); [|lra]. eexists. reflexivity. }
    destruct E as [lz E]. exists l, lz. split; [reflexivity|]. split; [exact E|]. intros Rq.
    assert (Rq' : requested_laser c m_e e l' lz) by (apply C70_partial; cbn; try lra; auto; intros X; injection X; lra).
    assert (G : forall w, let lw := {| pl_a0 := 1; pl_wavelength := w; pl_waist := 1; pl_duration := 1; pl_centroid := 0; pl_focal := 0; pl_propagation := (0, 0, 1); pl_polarization := (1, 0); pl_phi0 := None; pl_zeta := None; pl_beta := None; pl_phi2 := None |} in
      requested_laser c m_e e lw lz -> fst (E_field lz 0 0 0 0) = E_unit c m_e e w).
    { intros w lw (_ & u & _ & Foc & F). rewrite F. cbn [lw pl_a0 pl_wavelength pl_duration pl_centroid pl_polarization pl_propagation pl_phi0 pl_phi2 fst snd].
      pose proof (Foc 0 0) as F0. replace (0 * cos 0) with 0 in F0 by ring. replace (0 * sin 0) with 0 in F0 by ring. cbn [lw pl_focal pl_waist] in F0. rewrite F0, chirped_0. unfold gaussian_waveform, gaussian_shape.
      match goal with |- context [cis ?a] => replace a with 0 by (destruct (Rlt_dec 0 1); ring) end.
      match goal with |- context [exp (- (?a ^ 2 / (c ^ 2 * 1 ^ 2)))] => replace (- (a ^ 2 / (c ^ 2 * 1 ^ 2))) with 0 by (destruct (Rlt_dec 0 1); unfold Rdiv; ring) end.
      replace (- (0 ^ 2 / 1 ^ 2)) with 0 by (unfold Rdiv; ring). rewrite exp_0, cis_0. replace (norm2 (1, 0)) with 1 by (unfold norm2; cbn; replace (1 * (1 * 1) + 0 * (0 * 1)) with 1 by ring; symmetry; apply sqrt_1).
      replace (Re (RtoC 1 * RtoC 1 * RtoC 1)%C) with 1 by (unfold Re, Cmult, RtoC; cbn; ring). field. }
    pose proof (G _ Rq) as A. pose proof (G _ Rq') as B. rewrite B in A. unfold E_unit in A.
    pose proof PI_RGT_0. assert (X : 0 < m_e * c ^ 2 * (2 * PI) / e) by (apply Rdiv_lt_0_compat; [|exact He]; apply Rmult_lt_0_compat; [apply Rmult_lt_0_compat; [exact Hm|nra]|lra]).
    assert (Y : m_e * c ^ 2 * (2 * PI) / e * (1 / 0.8e-6) = m_e * c ^ 2 * (2 * PI) / e * (1 / 1e-6)) by (unfold Rdiv in *; lra).
    apply Rmult_eq_reg_l in Y; lra.
  - set (l := {| pl_a0 := 1; pl_wavelength := 0.8e-6; pl_waist := 1; pl_duration := 1; pl_centroid := 0; pl_focal := 0; pl_propagation := (0, 0, -1); pl_polarization := (1, 0); pl_phi0 := None; pl_zeta := None; pl_beta := None; pl_phi2 := None |}).
    assert (E : exists lz, picmi_laser_profile c m_e e l = Ok lz /\ propag_direction lz = 1).
    { unfold picmi_laser_profile. cbn. destruct (Req_EM_T 0 0); [|lra]. eexists. split; reflexivity. }
    destruct E as (lz & E & D). exists l, lz. do 4 (split; [reflexivity || assumption|]). intros [Di _]. rewrite D in Di. cbn in Di. destruct (Rlt_dec 0 (-1)); lra.
Qed.
Print Assumptions C70_refuted.

(** ** C71: Gaussian bunches *)
(** add_particle_bunch_gaussian: the macroparticles moved ballistically to the time tf have the Gaussian distribution of the
    focal plane: size sig_r and sig_z around zf, transverse momenta n_emit/sig_r, and each has the drawn energy. *)
Theorem C71_focus : forall c sig_r sig_z n_emit gamma0 sig_gamma n N tf zf draws l,
  gaussian_beam c sig_r sig_z n_emit gamma0 sig_gamma n N tf zf false draws = Ok l ->
  (forall d, In d (draws N) -> physical gamma0 sig_gamma sig_r n_emit d <> None /\ 0 < (if Rlt_dec 0 sig_gamma then s_gamma d else gamma0)) ->
  map (fun a => (x_at c tf a, y_at c tf a, z_at c tf a, b_ux a, b_uy a, lorentz_factor a)) l =
  map (fun d => (sig_r * s_x d, sig_r * s_y d, zf + sig_z * s_z d, n_emit / sig_r * s_ux d, n_emit / sig_r * s_uy d,
                 if Rlt_dec 0 sig_gamma then s_gamma d else gamma0)) (draws N).
Proof.
  intros c sr sz em g0 sg n N tf zf draws l H P. rewrite (gaussian_all _ _ _ _ _ _ _ _ _ _ _ _ H (fun d Hd => proj1 (P d Hd))), map_map. apply map_ext_in. intros d Hd.
  destruct (P d Hd) as [Q Pg]. destruct (physical g0 sg sr em d) as [[[[ux uy] uz] ig]|] eqn:E; [|congruence].
  destruct (physical_gamma _ _ _ _ _ _ _ _ _ Pg E) as (-> & -> & G & I & _). unfold x_at, y_at, z_at, lorentz_factor. cbn [b_x b_y b_z b_ux b_uy b_uz].
  rewrite I, G. assert (X : (if Rlt_dec 0 sg then s_gamma d else g0) <> 0) by lra. revert G X. generalize (if Rlt_dec 0 sg then s_gamma d else g0). intros gm G X.
  repeat match goal with |- (_, _) = (_, _) => apply (f_equal2 pair) end; try reflexivity; unfold Rdiv; ring.
Qed.
Print Assumptions C71_focus.
(** A PICMI Gaussian bunch without energy spread has, at t = 0, the requested size, momentum spread, expansion rate, number of
    particles, and a mean position that is the requested one up to the spread of the longitudinal velocities. *)
Theorem C71_picmi : forall c d scale N draws l, 0 < c -> 0 < pb_size_r d -> pb_rms_v_z d = 0 ->
  Rabs (pb_divergence_r d) * pb_size_r d < pb_rms_v_r d / sqrt (1 + (pb_velocity_z d / c) ^ 2) ->
  standard (draws N) ->
  picmi_gaussian_beam c d scale N draws = Ok l -> List.length l = List.length (draws N) ->
  avg (fun a => b_x a ^ 2) l = pb_size_r d ^ 2 /\ avg (fun a => b_y a ^ 2) l = pb_size_r d ^ 2 /\
  avg (fun a => (c * b_ux a) ^ 2) l = pb_rms_v_r d ^ 2 /\ avg (fun a => (c * b_uy a) ^ 2) l = pb_rms_v_r d ^ 2 /\
  avg (fun a => b_x a * (c * b_ux a / lorentz_factor a)) l = pb_divergence_r d * pb_size_r d ^ 2 /\
  avg (fun a => b_y a * (c * b_uy a / lorentz_factor a)) l = pb_divergence_r d * pb_size_r d ^ 2 /\
  fold_right (fun a s => b_w a + s) 0 l = pb_particles d * match scale with Some s => s | None => 1 end /\
  (forall a, In a l -> lorentz_factor a = sqrt (1 + (pb_velocity_z d / c) ^ 2)) /\
  (let gamma0 := sqrt (1 + (pb_velocity_z d / c) ^ 2) in let tf := - (pb_size_r d ^ 2) / (pb_rms_v_r d / gamma0) ^ 2 * pb_divergence_r d in
   map (fun a => b_z a + (c * b_uz a / lorentz_factor a - pb_velocity_z d / gamma0) * tf) l = map (fun s => pb_position_z d + pb_size_z d * s_z s) (draws N)).
Proof.
  intros c d scale N draws l Hc Hr Hz Hdiv ST H HL. unfold picmi_gaussian_beam in H. set (g0 := sqrt (1 + (pb_velocity_z d / c) ^ 2)) in *. rewrite Hz in H.
  assert (G1 : 1 <= g0) by (unfold g0; rewrite <- sqrt_1 at 1; apply sqrt_le_1_alt; pose proof (pow2_ge_0 (pb_velocity_z d / c)); lra).
  set (sr := pb_size_r d) in *. set (sv := pb_rms_v_r d / g0) in *. set (dv := pb_divergence_r d) in *.
  assert (Psv : 0 < sv) by (pose proof (Rabs_pos dv); nra).
  destruct (Req_EM_T sv 0) as [X|_]; [lra|]. set (tf := - (sr ^ 2) / sv ^ 2 * dv) in *. replace (0 / c) with 0 in H by (unfold Rdiv; ring).
  set (s0 := sqrt (sr ^ 2 - (sv * tf) ^ 2)) in *. set (em := g0 * s0 * sv / c) in *. set (zf := pb_position_z d + pb_velocity_z d / g0 * tf) in *.
  set (n := match scale with Some s => pb_particles d * s | None => pb_particles d end) in *.
  assert (Q : (sv * tf) ^ 2 = sr ^ 2 * (dv * sr / sv) ^ 2) by (unfold tf; field; lra).
  assert (B1 : (dv * sr / sv) ^ 2 < 1).
  { rewrite <- (pow2_abs (dv * sr / sv)). unfold Rdiv. rewrite !Rabs_mult, Rabs_inv, (Rabs_right sr), (Rabs_right sv) by lra.
    assert (A1 : Rabs dv * sr * / sv < 1). { apply Rmult_lt_reg_r with sv; [exact Psv|]. replace (Rabs dv * sr * / sv * sv) with (Rabs dv * sr) by (field; lra). lra. }
    assert (A0 : 0 <= Rabs dv * sr * / sv) by (apply Rmult_le_pos; [apply Rmult_le_pos; [apply Rabs_pos|lra]|left; apply Rinv_0_lt_compat; exact Psv]). nra. }
  assert (S2 : 0 < sr ^ 2 - (sv * tf) ^ 2) by (rewrite Q; assert (0 < sr ^ 2) by (apply pow_lt; exact Hr); nra).
  assert (P0 : 0 < s0) by (apply sqrt_lt_R0; exact S2). assert (E0 : s0 ^ 2 = sr ^ 2 - (sv * tf) ^ 2) by (apply pow2_sqrt; lra).
  assert (Ph : forall dd, In dd (draws N) -> physical g0 0 s0 em dd <> None).
  { assert (LL : forall D : list draw, (List.length (flat_map (fun d => match physical g0 0%R s0 em d with Some u => [(d, u)] | None => [] end) D) <= List.length D)%nat /\
        (List.length (flat_map (fun d => match physical g0 0%R s0 em d with Some u => [(d, u)] | None => [] end) D) = List.length D -> forall dd, In dd D -> physical g0 0 s0 em dd <> None)).
    { induction D as [|x D [IH1 IH2]]; [split; [cbn; lia|intros _ dd []]|]. cbn [flat_map]. rewrite app_length. destruct (physical g0 0%R s0 em x) eqn:EE; cbn [List.length]; split; try lia.
      intros Le dd [<-|Hd]; [rewrite EE; discriminate|]. apply IH2; [lia|exact Hd]. }
    apply LL. unfold gaussian_beam in H. cbn [bind] in H. destruct (_ =? 0)%Z; [discriminate|]. injection H as <-. rewrite map_length in HL. exact HL. }
  pose proof (gaussian_all _ _ _ _ _ _ _ _ _ _ _ _ H Ph) as L.
  assert (KU : em / s0 = g0 * sv / c) by (unfold em; field; lra).
  assert (PT : forall dd, In dd (draws N) -> exists uz, physical g0 0 s0 em dd = Some (g0 * sv / c * s_ux dd, g0 * sv / c * s_uy dd, uz, / g0) /\ sqrt (1 + (g0 * sv / c * s_ux dd) ^ 2 + (g0 * sv / c * s_uy dd) ^ 2 + uz ^ 2) = g0).
  { intros dd Hd. destruct (physical g0 0 s0 em dd) as [[[[ux uy] uz] ig]|] eqn:EE; [|exfalso; exact (Ph dd Hd EE)].
    assert (Pg : 0 < (if Rlt_dec 0 0 then s_gamma dd else g0)) by (destruct (Rlt_dec 0 0); lra).
    destruct (physical_gamma _ _ _ _ _ _ _ _ _ Pg EE) as (U1 & U2 & G & I & _). destruct (Rlt_dec 0 0) as [X|_]; [lra|]. rewrite KU in U1, U2. subst ux uy. exists uz. rewrite I, G. split; [reflexivity|reflexivity]. }
  destruct ST as (M1 & M2 & M3 & M4 & M5 & M6).
  assert (LF : forall a, In a l -> lorentz_factor a = g0).
  { intros a Ha. rewrite L in Ha. apply in_map_iff in Ha. destruct Ha as (dd & <- & Hd). destruct (PT dd Hd) as (uz & -> & G). exact G. }
  assert (AV : forall (F : beam -> R) (f : draw -> R), (forall dd uz w, In dd (draws N) -> sqrt (1 + (g0 * sv / c * s_ux dd) ^ 2 + (g0 * sv / c * s_uy dd) ^ 2 + uz ^ 2) = g0 ->
      F {| b_x := s0 * s_x dd - g0 * sv / c * s_ux dd * / g0 * c * tf; b_y := s0 * s_y dd - g0 * sv / c * s_uy dd * / g0 * c * tf; b_z := zf + pb_size_z d * s_z dd - uz * / g0 * c * tf;
           b_ux := g0 * sv / c * s_ux dd; b_uy := g0 * sv / c * s_uy dd; b_uz := uz; b_w := w |} = f dd) -> avg F l = avg f (draws N)).
  { intros F f HF. rewrite L, avg_map. apply avg_ext. intros dd Hd. destruct (PT dd Hd) as (uz & -> & G). apply HF; assumption. }
  assert (N1 : g0 <> 0) by lra. assert (N2 : c <> 0) by lra.
  split; [|split; [|split; [|split; [|split; [|split; [|split; [|split]]]]]]].
  - rewrite (AV _ (fun dd => s0 ^ 2 * s_x dd ^ 2 + (sv * tf) ^ 2 * s_ux dd ^ 2 + (- 2 * s0 * sv * tf) * (s_x dd * s_ux dd))) by (intros; cbn [b_x]; field; auto).
    rewrite avg_lin3, M1, M2, M3, E0. ring.
  - rewrite (AV _ (fun dd => s0 ^ 2 * s_y dd ^ 2 + (sv * tf) ^ 2 * s_uy dd ^ 2 + (- 2 * s0 * sv * tf) * (s_y dd * s_uy dd))) by (intros; cbn [b_y]; field; auto).
    rewrite avg_lin3, M4, M5, M6, E0. ring.
  - rewrite (AV _ (fun dd => (g0 * sv) ^ 2 * s_ux dd ^ 2 + 0 * s_ux dd ^ 2 + 0 * s_ux dd ^ 2)) by (intros; cbn [b_ux]; field; auto).
    rewrite avg_lin3, M2. unfold sv. field. auto.
  - rewrite (AV _ (fun dd => (g0 * sv) ^ 2 * s_uy dd ^ 2 + 0 * s_uy dd ^ 2 + 0 * s_uy dd ^ 2)) by (intros; cbn [b_uy]; field; auto).
    rewrite avg_lin3, M5. unfold sv. field. auto.
  - rewrite (AV _ (fun dd => (s0 * sv) * (s_x dd * s_ux dd) + (- (sv ^ 2 * tf)) * s_ux dd ^ 2 + 0 * s_ux dd ^ 2)) by (intros; unfold lorentz_factor; cbn [b_x b_ux b_uy b_uz]; rewrite H1; field; auto).
    rewrite avg_lin3, M2, M3. unfold tf. field. lra.
  - rewrite (AV _ (fun dd => (s0 * sv) * (s_y dd * s_uy dd) + (- (sv ^ 2 * tf)) * s_uy dd ^ 2 + 0 * s_uy dd ^ 2)) by (intros; unfold lorentz_factor; cbn [b_y b_ux b_uy b_uz]; rewrite H1; field; auto).
    rewrite avg_lin3, M5, M6. unfold tf. field. lra.
  - assert (W : forall a, In a l -> b_w a = n / INR (List.length l)).
    { intros a Ha. rewrite HL. rewrite L in Ha. apply in_map_iff in Ha. destruct Ha as (dd & <- & Hd). destruct (PT dd Hd) as (uz & -> & G). reflexivity. }
    assert (LN : INR (List.length l) <> 0).
    { unfold gaussian_beam in H. cbn [bind] in H. destruct (_ =? 0)%Z eqn:Z0; [discriminate|]. injection H as <-. rewrite map_length. apply not_0_INR. lia. }
    assert (SW : forall (l' : list beam) (w : R), (forall a, In a l' -> b_w a = w) -> fold_right (fun a s => b_w a + s) 0 l' = INR (List.length l') * w).
    { induction l' as [|a l' IH]; intros w Hw; [cbn; ring|]. cbn [fold_right List.length]. rewrite (IH w), (Hw a), S_INR by (intros; try apply Hw; cbn; auto). ring. }
    rewrite (SW l _ W). unfold n. destruct scale; field; exact LN.
  - exact LF.
  - cbv zeta. fold g0 sr sv dv tf. rewrite L, map_map. apply map_ext_in. intros dd Hd. destruct (PT dd Hd) as (uz & -> & G). unfold lorentz_factor. cbn [b_z b_ux b_uy b_uz]. rewrite G. unfold zf. field. auto.
Qed.
Print Assumptions C71_picmi.

(** ** C72: applied fields *)
Import ExtField_Model ExtField_Spec.
(** Without boost, a constant field adds its value to the component of every macroparticle of every species. *)
Theorem C72_constant : forall c v, exists st', add_applied_field c None {| external_fields := []; mirrors := [] |} (PConstant v) = Ok st' /\
  mirrors st' = [] /\
  forall (ptcl : list species) t, apply_all (external_fields st') ptcl t = map (fun s => (fst s, map (fun p => {| x := x p; y := y p; z := z p;
      fEx := fEx p + match v Ex with Some a => a | None => 0 end; fEy := fEy p + match v Ey with Some a => a | None => 0 end; fEz := fEz p + match v Ez with Some a => a | None => 0 end;
      fBx := fBx p + match v Bx with Some a => a | None => 0 end; fBy := fBy p + match v By with Some a => a | None => 0 end; fBz := fBz p + match v Bz with Some a => a | None => 0 end |}) (snd s))) ptcl.
Proof. exact constant_ok. Qed.
Print Assumptions C72_constant.
(** In a boosted frame, the value given for the lab frame is applied as it is: a transverse electric field is neither multiplied by
    gamma nor accompanied by a magnetic field. *)
Theorem C72_boost_refuted : forall c g, 0 < c -> 1 < g -> exists v st', add_applied_field c (Some (boost_converter g)) {| external_fields := []; mirrors := [] |} (PConstant v) = Ok st' /\
  exists p, apply_all (external_fields st') [(0%Z, [p])] 0 <> [(0%Z, [add_field p (transform c g (sqrt (1 - 1 / g ^ 2)) (single Ex 1))])] /\ v Ex = Some 1 /\ (forall f, f <> Ex -> v f = None).
Proof. exact boost_refuted. Qed.
Print Assumptions C72_boost_refuted.
(** An analytic field always raises an exception, whatever the expressions; so does a mirror, with or without boost. *)
Theorem C72_refuted : forall c boost st,
  (forall ex, (exists ft, In ft six /\ ex ft <> None) -> add_applied_field c boost st (PAnalytic ex) = Err TypeError) /\
  (forall z n, exists exn, add_applied_field c boost st (PMirror z n) = Err exn).
Proof. exact applied_refuted. Qed.
Print Assumptions C72_refuted.

(** ** C73: species *)
(** A call of add_species: charge and mass of the new species; it can be repeated for a species with a particle type. *)
Theorem C73_partial : forall e m_e st l st', do_call e m_e st (AddSpecies l) = Ok st' -> NoDup l -> forall i, In i l ->
  exists f, p_fbpic st' i = Some f /\ fs_m f = requested_mass m_e (p_spec st i) /\
    (fs_ion f = None -> fs_q f = requested_charge e (p_spec st i)) /\ (fs_ion f <> None -> fs_q f = Some e) /\
    (ps_table (p_spec st i) <> None -> requested_mass m_e (p_spec st' i) = requested_mass m_e (p_spec st i) /\ requested_charge e (p_spec st' i) = requested_charge e (p_spec st i)).
Proof. exact species_ok. Qed.
Print Assumptions C73_partial.
(** A species without particle type that is added twice loses the mass of its electrons twice. *)
Theorem C73_mass_refuted : forall e m_e, 0 < m_e -> exists st st' f, do_calls e m_e st [AddSpecies [0%nat]; AddSpecies [0%nat]] = Ok st' /\ p_fbpic st' 0%nat = Some f /\
  fs_m f <> requested_mass m_e (p_spec st 0%nat).
Proof.
  intros e m_e H. exists {| p_spec := fun _ => {| ps_table := None; ps_charge_state := Some 1%Z; ps_charge := None; ps_mass := Some (10 * m_e) |}; p_fbpic := fun _ => None; p_inter := [] |}.
  do 2 eexists. split; [reflexivity|]. split; [reflexivity|]. cbn. intros X. injection X. lra.
Qed.
Print Assumptions C73_mass_refuted.
(** Ionization is set up when the target is added first, then the interaction, then the ions (and no other species that
    is still missing takes part in an interaction). *)
Theorem C73_ionization : forall e m_e st src tgt k, src <> tgt -> p_inter st = [] ->
  (exists q m, ps_table (p_spec st src) = Some (q, m)) -> (exists q m, ps_table (p_spec st tgt) = Some (q, m)) -> ps_charge_state (p_spec st src) = Some k ->
  exists st' f, do_calls e m_e st [AddSpecies [tgt]; AddInteraction src tgt; AddSpecies [src]] = Ok st' /\
    p_fbpic st' src = Some f /\ fs_ion f = Some (Some k, tgt) /\ fs_q f = Some e /\ fs_m f = requested_mass m_e (p_spec st src).
Proof. exact ionization_ok. Qed.
Print Assumptions C73_ionization.
(** Any other order fails: when the interaction comes first, the first add_species raises, whichever species it adds; when it
    comes last, nothing is raised but the ions are not ionizable. *)
Theorem C73_order_refuted : forall e m_e st src tgt k, src <> tgt -> p_inter st = [] -> p_fbpic st src = None -> p_fbpic st tgt = None ->
  (exists q m, ps_table (p_spec st src) = Some (q, m)) -> (exists q m, ps_table (p_spec st tgt) = Some (q, m)) -> ps_charge_state (p_spec st src) = Some k ->
  do_calls e m_e st [AddInteraction src tgt; AddSpecies [tgt]; AddSpecies [src]] = Err AttributeError /\
  do_calls e m_e st [AddInteraction src tgt; AddSpecies [src]; AddSpecies [tgt]] = Err RuntimeError /\
  exists st' f, do_calls e m_e st [AddSpecies [tgt]; AddSpecies [src]; AddInteraction src tgt] = Ok st' /\ p_fbpic st' src = Some f /\ fs_ion f = None.
Proof. exact order_refuted. Qed.
Print Assumptions C73_order_refuted.

(** ** C74: time step, smoother and diagnostics *)
(** With a cfl number, in the frame of the simulation c dt is cfl times the smaller of the cell sizes. *)
Theorem C74_cfl : forall c k tss g zmin zmax rmax nz nr dt zmin' zmax' dt', 0 < c -> (match g with Some g => 1 <= g | None => True end) -> (0 < nz)%Z -> (0 < nr)%Z ->
  picmi_dt c (Some k) tss g (zmax - zmin) (rmax - 0) nz nr = Ok dt -> sim_frame g zmin zmax dt = Some (zmin', zmax', dt') ->
  c * dt' = k * Rmin ((zmax' - zmin') / IZR nz) (rmax / IZR nr).
Proof. exact cfl_ok. Qed.
Print Assumptions C74_cfl.
(** The smoother has the requested number of passes in each direction, and the compensators if they are the same in r and z ... *)
Theorem C74_smoother : forall nr nz cr cz, exists s, picmi_smoother (Some (Some (nr, nz), Some (cr, cz))) = Ok s /\
  n_passes_r s = nr /\ n_passes_z s = nz /\ (cr = cz -> comp_r s = cr /\ comp_z s = cz).
Proof. intros nr nz cr cz. eexists. split; [reflexivity|]. cbn. split; [reflexivity|]. split; [reflexivity|]. intros ->. destruct cz; auto. Qed.
Print Assumptions C74_smoother.
(** ... else, the requested compensator is not applied. *)
Theorem C74_smoother_refuted : exists s, picmi_smoother (Some (Some (1, 1)%Z, Some (false, true))) = Ok s /\ comp_z s = false.
Proof. eexists. split; reflexivity. Qed.
Print Assumptions C74_smoother_refuted.
(** A field diagnostic in the frame of the simulation writes exactly the records of the requested quantities, each once. *)
Theorem C74_diagnostic : forall l, exists r, picmi_field_diag false (Some l) = Ok r /\ NoDup r /\ forall q, In q r <-> exists d, In d l /\ In q (records_of d).
Proof. exact diag_ok. Qed.
Print Assumptions C74_diagnostic.
(** A lab-frame diagnostic raises with the default data_list, and whenever a component is named. *)
Theorem C74_lab_refuted : picmi_field_diag true None = Err TypeError /\
  forall l, (exists d, In d l /\ ~ In d ["E"; "B"; "J"; "rho"]%string) -> picmi_field_diag true (Some l) = Err ValueError.
Proof. exact lab_diag_refuted. Qed.
Print Assumptions C74_lab_refuted.

(** The hypotheses are met: a laser at 0.8 micron polarized at 45 degrees, a bunch of four macroparticles that converges, an ion with a target. *)
Example C70_met : exists lz, picmi_laser_profile 1 1 1 {| pl_a0 := 2; pl_wavelength := 0.8e-6; pl_waist := 1; pl_duration := 1; pl_centroid := 0; pl_focal := 3; pl_propagation := (0, 0, 1);
  pl_polarization := (1, 1); pl_phi0 := None; pl_zeta := None; pl_beta := Some 0; pl_phi2 := Some 4 |} = Ok lz.
Proof. unfold picmi_laser_profile, none_or_zero. cbn. destruct (Req_EM_T 0 0); [|lra]. eexists. reflexivity. Qed.
Example C71_met : let d s a b := {| s_gamma := 0; s_x := s; s_y := s; s_z := 0; s_ux := a; s_uy := b |} in
  let l := [d 1 1 1; d 1 (-1) (-1); d (-1) 1 1; d (-1) (-1) (-1)] in standard l /\ (forall x, In x l -> physical 10 0 1 (1 / 2) x <> None).
Proof.
  cbv zeta. split.
  - unfold standard, avg. cbn. repeat split; lra.
  - intros x Hx. unfold physical. destruct (Rlt_dec 0 0); [lra|]. cbn in Hx. destruct Hx as [<-|[<-|[<-|[<-|[]]]]]; cbn; (destruct (Rle_dec _ _) as [_|N]; [discriminate|exfalso; apply N; lra]).
Qed.
Example C73_met : exists st, p_inter st = [] /\ (exists q m, ps_table (p_spec st 0%nat) = Some (q, m)) /\ (exists q m, ps_table (p_spec st 1%nat) = Some (q, m)) /\ ps_charge_state (p_spec st 0%nat) = Some 5%Z.
Proof. exists {| p_spec := fun i => match i with O => {| ps_table := Some (0, 14); ps_charge_state := Some 5%Z; ps_charge := None; ps_mass := None |} | _ => {| ps_table := Some (-1, 1); ps_charge_state := None; ps_charge := None; ps_mass := None |} end; p_fbpic := fun _ => None; p_inter := [] |}.
  cbn. repeat split; eauto. Qed.
Example C74_met : exists dt, picmi_dt 1 (Some 1) None (Some (5 / 4)) 10 10 100 10 = Ok dt /\ picmi_field_diag false (Some ["Ex"; "Ez"; "rho"]%string) = Ok ["E/r"; "E/t"; "E/z"; "rho"]%string.
Proof. eexists. split; reflexivity. Qed.
