(** C44, C45: particle bunches. [on_rank c r]: the communicator as seen by rank r; [to_boosted cl boost l]: the given bunch
    in the frame of the simulation (the transformation itself is C41_particle); [loaded_on cl boost l c r]: the
    macroparticles that add_particle_bunch_from_arrays creates on rank r. *)
From Verif Require Import Base Decomp_Model Decomp_Proofs Boost_Model Inject_Model Load_Model Bunch_Model Bunch_Spec Bunch_Proofs Bunch_Charge.
From Coq Require Import Reals Lra Lia.
From Flocq Require Import IEEE754.BinarySingleNaN.
Open Scope Z_scope.

(** Exact arithmetic: any bunch, any decomposition, any position of the moving window, with or without boost. *)
Theorem C44_exact : forall cl boost l c, valid_comm c -> (0 < c_dz c)%R ->
  exists zmin zmax, get_zmin_zmax c false false false None = Ok (zmin, zmax) /\
  (forall r, 0 <= r < c_size c -> exists x, add_particle_bunch_from_arrays cl (on_rank c r) boost l = Ok x) /\
  Permutation (flat_map (loaded_on cl boost l c) (range (c_size c)))
              (filter (fun p => selected zmin zmax (pz (m_p p))) (to_boosted cl boost l)) /\
  (forall p, In p (to_boosted cl boost l) ->
     ((zmin <= pz (m_p p) < zmax)%R -> exactly_one (c_size c) (fun r => In p (loaded_on cl boost l c r))) /\
     (~ (zmin <= pz (m_p p) < zmax)%R -> no_rank (c_size c) (fun r => In p (loaded_on cl boost l c r)))).
Proof. exact C44_main. Qed.
Print Assumptions C44_exact.

(** With the edges computed in binary64 a particle is kept by exactly one rank unless its position is between the
    upper edge of a rank and the lower edge of the next one. *)
Theorem C44_double_partial : forall c zg dz edges (z : b64), valid_comm c -> (0 <= B2R dz)%R -> is_finite z = true ->
  (forall r, 0 <= r < c_size c -> get_zmin_zmax64 c zg dz true false false (Some r) = Ok (edges r) /\
     is_finite (fst (edges r)) = true /\ is_finite (snd (edges r)) = true) ->
  (forall r, 0 <= r -> r + 1 < c_size c -> ((B2R (snd (edges r)) <= B2R z)%R <-> (B2R (fst (edges (r + 1)%Z)) <= B2R z)%R)) ->
  ((B2R (fst (edges 0%Z)) <= B2R z < B2R (snd (edges (c_size c - 1)%Z)))%R -> exactly_one (c_size c) (fun r => selected64 c zg dz r z = true)) /\
  (~ (B2R (fst (edges 0%Z)) <= B2R z < B2R (snd (edges (c_size c - 1)%Z)))%R -> no_rank (c_size c) (fun r => selected64 c zg dz r z = true)).
Proof.
  intros c zg dz edges z V D Fz E G.
  assert (E1 : forall r, 0 <= r < c_size c -> fst (edges r) = lo64 c zg dz r /\ snd (edges r) = hi64 c zg dz r).
  { intros r Hr. destruct (E r Hr) as [Q _]. rewrite edges64 in Q. injection Q as <-. split; reflexivity. }
  assert (F : forall r, 0 <= r < c_size c -> is_finite (lo64 c zg dz r) = true /\ is_finite (hi64 c zg dz r) = true).
  { intros r Hr. destruct (E r Hr) as (_ & Q1 & Q2), (E1 r Hr) as [<- <-]. auto. }
  assert (Hs : 1 <= c_size c) by (destruct V; lia).
  assert (G' : forall r, 0 <= r -> r + 1 < c_size c -> ((B2R (hi64 c zg dz r) <= B2R z)%R <-> (B2R (lo64 c zg dz (r + 1)%Z) <= B2R z)%R)).
  { intros r Hr Hr'. destruct (E1 r ltac:(lia)) as [_ <-], (E1 (r + 1) ltac:(lia)) as [<- _]. apply G; assumption. }
  destruct (E1 0 ltac:(lia)) as [-> _], (E1 (c_size c - 1) ltac:(lia)) as [_ ->]. split; intros H.
  - apply once64; assumption.
  - apply none64; try assumption. intros. apply G'; assumption.
Qed.
Print Assumptions C44_double_partial.
(** With at most two ranks there is no such position. *)
Theorem C44_double_two_ranks : forall c zg dz edges (z : b64), valid_comm c -> c_size c <= 2 -> (0 <= B2R dz)%R -> is_finite z = true ->
  (forall r, 0 <= r < c_size c -> get_zmin_zmax64 c zg dz true false false (Some r) = Ok (edges r) /\
     is_finite (fst (edges r)) = true /\ is_finite (snd (edges r)) = true) ->
  ((B2R (fst (edges 0%Z)) <= B2R z < B2R (snd (edges (c_size c - 1)%Z)))%R -> exactly_one (c_size c) (fun r => selected64 c zg dz r z = true)) /\
  (~ (B2R (fst (edges 0%Z)) <= B2R z < B2R (snd (edges (c_size c - 1)%Z)))%R -> no_rank (c_size c) (fun r => selected64 c zg dz r z = true)).
Proof.
  intros c zg dz edges z V S D Fz E. apply C44_double_partial; try assumption. intros r Hr Hr'.
  destruct (E r ltac:(lia)) as (Q1 & _ & F1), (E (r + 1) ltac:(lia)) as (Q2 & F2 & _). rewrite edges64 in Q1, Q2.
  injection Q1 as Q1. injection Q2 as Q2. rewrite <- Q1 in *. rewrite <- Q2 in *. cbn [fst snd] in *.
  rewrite (two_ranks c zg dz r V ltac:(lia) Hr Hr' F1 F2). reflexivity.
Qed.
Print Assumptions C44_double_two_ranks.
(** With 400 cells on [-1, 1] and 5 ranks there is a position in the box that no rank keeps and another one that two ranks keep. *)
Definition five : comm :=
  {| c_rank := 0; c_size := 5; c_left := None; c_right := None; c_Nz := 400; c_zmin := (-1)%R; c_dz := (2 / 400)%R; c_nguard := 0; c_nzdamp := 0; c_ninject := 0; c_period := 1 |}.
Theorem C44_double_refuted : exists zmin zmax lost twice : b64, zmin = of_Z64 (-1) /\ zmax = of_Z64 1 /\
  let dz := div64 (sub64 zmax zmin) (of_Z64 400) in
  Bleb zmin lost && Bltb lost zmax = true /\ Bleb zmin twice && Bltb twice zmax = true /\
  map (fun r => selected64 five zmin dz r lost) (range 5) = [false; false; false; false; false] /\
  map (fun r => selected64 five zmin dz r twice) (range 5) = [false; false; true; true; false].
Proof.
  exists (of_Z64 (-1)), (of_Z64 1), (@binary_normalize 53 1024 Hprec64 Hmax64 mode_NE 0x13333333333333 (-53) false),
    (@binary_normalize 53 1024 Hprec64 Hmax64 mode_NE 0x19999999999998 (-55) false).
  repeat split; vm_compute; reflexivity.
Qed.
Print Assumptions C44_double_refuted.

(** The bunch that a rank generates or reads has the requested number of physical particles, whatever was drawn and
    however many unphysical particles were removed; all weights are equal to it up to a positive factor. *)
Theorem C45_total : 
  (forall cl sig_r sig_z n_emit g0 sig_gamma np nm tf zf sy draws l,
    gaussian_beam cl sig_r sig_z n_emit g0 sig_gamma np nm tf zf sy draws = Ok l ->
    total (map b_w l) = np /\ l <> [] /\ forall a, In a l -> exists k : R, (0 < k)%R /\ b_w a = (np * k)%R) /\
  (forall np zo rows l, file_beam np zo rows = Ok l -> total (map b_w l) = np).
Proof. split; [|exact file_total]. intros. split; [eapply gaussian_total; eassumption|]. eapply gaussian_weights; eassumption. Qed.
Print Assumptions C45_total.

(** A bunch read from an openPMD file is centred on z_off (weighted mean); nothing else is changed. *)
Theorem C45_openpmd_centred : forall z_off l l', openpmd_beam z_off l = Ok l' ->
  let total f := fold_right (fun a s => f a + s)%R 0%R in
  (total b_w l' <> 0 /\ total (fun a => b_w a * b_z a) l' / total b_w l' = z_off)%R /\
  map (fun a => (b_x a, b_y a, b_ux a, b_uy a, b_uz a, b_w a)) l' = map (fun a => (b_x a, b_y a, b_ux a, b_uy a, b_uz a, b_w a)) l /\
  exists d, map b_z l' = map (fun a => (b_z a + d)%R) l.
Proof. exact openpmd_centred. Qed.
Print Assumptions C45_openpmd_centred.

(** If every rank has the same bunch (one rank, or a file) and it lies in the box, the ranks together load all of it. *)
Theorem C45_loaded_partial : forall cl boost c l, valid_comm c -> (0 < c_dz c)%R ->
  (forall zmin zmax p, get_zmin_zmax c false false false None = Ok (zmin, zmax) -> In p (to_boosted cl boost l) -> (zmin <= pz (m_p p) < zmax)%R) ->
  total (map m_wt (flat_map (loaded_on cl boost l c) (range (c_size c)))) = total (map b_w l).
Proof. exact loaded_total. Qed.
Print Assumptions C45_loaded_partial.
(** With two ranks a Gaussian bunch can be lost entirely, or loaded twice, because each rank draws its own bunch: [np]
    particles are requested, inside the box, and 0 or 2 np are loaded. *)
Theorem C45_ranks_refuted : forall np, exists draws_lost draws_twice : Z -> R, (forall r, 0 <= draws_lost r < 2 /\ 0 <= draws_twice r < 2)%R /\
  let weight draws r := match add_particle_bunch_gaussian 1 (on_rank wc2 r) None 1 1 0 2 0 np 1 0 0 false (fun r _ => [wd (draws r)]) with
                        | Ok l => total (map m_wt l) | Err _ => (-1)%R end in
  (weight draws_lost 0%Z + weight draws_lost 1%Z = 0)%R /\ (weight draws_twice 0%Z + weight draws_twice 1%Z = 2 * np)%R.
Proof.
  intros np. exists (fun r => if (r =? 0)%Z then 1.5 else 0.5)%R, (fun r => if (r =? 0)%Z then 0.5 else 1.5)%R.
  split; [intros r; destruct (r =? 0); lra|]. intros weight.
  assert (W : forall (d : Z -> R) r, 0 <= r < 2 -> weight d r = (if selected (IZR r) (IZR r + 1) (d r) then np else 0)%R).
  { intros d r Hr. destruct (wload np (d r) r Hr) as (l & El & Tl). unfold weight.
    replace (add_particle_bunch_gaussian 1 (on_rank wc2 r) None 1 1 0 2 0 np 1 0 0 false (fun r _ => [wd (d r)])) with (@Ok (list macro) l); [exact Tl]. }
  rewrite !W by lia. cbn [Z.eqb].
  assert (S : forall a b z, selected a b z = true <-> (a <= z < b)%R) by exact selected_iff.
  assert (S1 : selected 0 (0 + 1) 1.5 = false) by (apply not_true_iff_false; intros Q; apply S in Q; lra).
  assert (S2 : selected 1 (1 + 1) 0.5 = false) by (apply not_true_iff_false; intros Q; apply S in Q; lra).
  assert (S3 : selected 0 (0 + 1) 0.5 = true) by (apply S; lra).
  assert (S4 : selected 1 (1 + 1) 1.5 = true) by (apply S; lra).
  rewrite S1, S2, S3, S4. split; lra.
Qed.
Print Assumptions C45_ranks_refuted.

(** Symmetrization: on every rank, with or without boost, the loaded macroparticles have zero weighted sums of x, y, ux and uy
    (any linear combination); the number of macroparticles must be a multiple of 4. *)
Theorem C45_symmetric : forall cl sig_r sig_z n_emit g0 sig_gamma np nm tf zf draws boost c out cx cy cu cv,
  add_particle_bunch_gaussian cl c boost sig_r sig_z n_emit g0 sig_gamma np nm tf zf true draws = Ok out ->
  nm mod 4 = 0 /\
  total (map (fun m => m_wt m * (cx * px (m_p m) + cy * py (m_p m) + cu * pux (m_p m) + cv * puy (m_p m)))%R out) = 0%R.
Proof.
  intros cl sig_r sig_z n_emit g0 sig_gamma np nm tf zf draws boost c out cx cy cu cv H. unfold add_particle_bunch_gaussian in H.
  destruct (gaussian_beam cl sig_r sig_z n_emit g0 sig_gamma np nm tf zf true (draws (c_rank c))) as [l|] eqn:E; [|discriminate].
  split; [unfold gaussian_beam in E; destruct (Z.eqb_spec (nm mod 4) 0); [assumption|discriminate]|].
  destruct (gaussian_sym _ _ _ _ _ _ _ _ _ _ _ _ E) as [l0 ->]. cbn [bind] in H. unfold add_particle_bunch_from_arrays in H.
  destruct (get_zmin_zmax c true false false (Some (c_rank c))) as [[zmin zmax]|]; [|discriminate]. cbn [bind] in H. injection H as <-.
  exact (sym_zero cl boost l0 (selected zmin zmax) cx cy cu cv).
Qed.
Print Assumptions C45_symmetric.

(** The charge-based helpers pass Q/e: right for Q >= 0, wrong for every Q < 0, whose absolute value is documented to be
    taken; then all weights are negative. *)
Theorem C45_electrons_partial : forall cl e c boost sig_r sig_z n_emit g0 sig_gamma Q N tf zf sy draws out, (0 < e)%R -> (0 <= Q)%R ->
  add_elec_bunch_gaussian cl e c boost sig_r sig_z n_emit g0 sig_gamma Q N tf zf sy draws = Ok out ->
  exists l, gaussian_beam cl sig_r sig_z n_emit g0 sig_gamma (Rabs Q / e) N tf zf sy (draws (c_rank c)) = Ok l /\
    add_particle_bunch_from_arrays cl c boost l = Ok out /\ total (map b_w l) = (Rabs Q / e)%R.
Proof.
  intros cl e c boost sig_r sig_z n_emit g0 sig_gamma Q N tf zf sy draws out He HQ H. rewrite (Rabs_pos_eq Q HQ).
  unfold add_elec_bunch_gaussian, add_particle_bunch_gaussian in H.
  destruct (gaussian_beam cl sig_r sig_z n_emit g0 sig_gamma (Q / e) N tf zf sy (draws (c_rank c))) as [l|] eqn:E; [|discriminate].
  exists l. split; [reflexivity|]. split; [exact H|]. eapply gaussian_total; eassumption.
Qed.
Print Assumptions C45_electrons_partial.
Theorem C45_electrons_refuted : forall cl e c boost sig_r sig_z n_emit g0 sig_gamma Q N tf zf sy draws out, (0 < e)%R -> (Q < 0)%R ->
  add_elec_bunch_gaussian cl e c boost sig_r sig_z n_emit g0 sig_gamma Q N tf zf sy draws = Ok out ->
  forall m, In m out -> (m_wt m < 0)%R.
Proof.
  intros cl e c boost sig_r sig_z n_emit g0 sig_gamma Q N tf zf sy draws out He HQ H m Hm.
  unfold add_elec_bunch_gaussian, add_particle_bunch_gaussian in H.
  destruct (gaussian_beam cl sig_r sig_z n_emit g0 sig_gamma (Q / e) N tf zf sy (draws (c_rank c))) as [l|] eqn:E; [|discriminate].
  cbn [bind] in H. unfold add_particle_bunch_from_arrays in H.
  destruct (get_zmin_zmax c true false false (Some (c_rank c))) as [[zmin zmax]|]; [|discriminate]. cbn [bind] in H. injection H as <-.
  apply filter_In in Hm as [Hm _]. rewrite to_boosted_map in Hm. apply in_map_iff in Hm as [a [<- Ha]]. rewrite tb_w.
  destruct (gaussian_weights _ _ _ _ _ _ _ _ _ _ _ _ _ E) as [_ W]. destruct (W a Ha) as (k & Hk & ->).
  assert (I := Rinv_0_lt_compat e He). assert (Q / e < 0)%R by (unfold Rdiv; nra). nra.
Qed.
Print Assumptions C45_electrons_refuted.
(** Such a call does load particles (one rank). *)
Example C45_electrons_met : exists m, add_elec_bunch_gaussian 1 1 (on_rank wc2 0) None 1 1 0 2 0 (-3) 1 0 0 false (fun _ _ => [wd 0.5]) = Ok [m] /\ m_wt m = (-3)%R.
Proof.
  destruct (wload (-3 / 1) 0.5 0 ltac:(lia)) as (l & El & Tl).
  assert (S : selected 0 (0 + 1) 0.5 = true) by (apply selected_iff; lra). rewrite S in Tl.
  unfold add_elec_bunch_gaussian. rewrite (gaussian_loads 1 None wc2 1 1 0 2 0 (-3 / 1) 1 0 0 false (fun _ _ => [wd 0.5]) _ 0 (wbeam (-3 / 1) 0.5 1)) in *.
  unfold add_particle_bunch_from_arrays, bind in *. cbn [to_boosted map] in *.
  destruct (get_zmin_zmax (on_rank wc2 0) true false false (Some (c_rank (on_rank wc2 0)))) as [[a b]|]; [|discriminate].
  cbn [filter m_p pz b_z] in *. destruct (selected a b (0 + 1 * 0.5)).
  - eexists. split; [reflexivity|]. cbn. lra.
  - injection El as <-. cbn in Tl. lra.
Qed.

(** Cylindrical bunch: the requested number of macroparticles along each direction in every cell whose centre is in the
    requested region and in the local domain, with the requested Lorentz factor and direction. *)
Theorem C45_cylindrical_partial : forall g g0 n p_zmin p_zmax p_rmin p_rmax p_nr p_nz p_nt bw ang,
  (0 < g_dz g)%R -> (0 < g_dr g)%R -> 2 <= g_Nz g -> 2 <= g_Nr g -> 1 <= p_nz -> 1 <= p_nr -> 1 <= p_nt -> (0 < n)%R -> (1 <= g0)%R ->
  exists zlo zhi rlo rhi uz l, add_particle_bunch g g0 n p_zmin p_zmax p_rmin p_rmax p_nr p_nz p_nt bw ang = Ok (uz, l) /\
   (zlo <= zhi /\ rlo <= rhi) /\
   (forall i, 0 <= i < g_Nz g -> zlo <= i < zhi <-> (Rmax (g_zmin_loc g) p_zmin < g_z g + (IZR i + 0.5) * g_dz g < Rmin (g_zmax_loc g) p_zmax)%R) /\
   (forall i, 0 <= i < g_Nr g -> rlo <= i < rhi <-> (p_rmin < 0 + (IZR i + 0.5) * g_dr g < Rmin (g_r_phys g) p_rmax)%R) /\
   Z.of_nat (length l) = ((zhi - zlo) * p_nz) * ((rhi - rlo) * p_nr) * p_nt /\
   sqrt (1 + uz ^ 2) = g0 /\ (if bw then uz <= 0 else 0 <= uz)%R.
Proof. exact cylinder_count. Qed.
Print Assumptions C45_cylindrical_partial.
(** The electron helper ignores the requested number along theta: whenever it differs from the one along z and something is
    loaded, the number of macroparticles is not the one that was requested. *)
Theorem C45_cylindrical_refuted : forall g g0 n p_zmin p_zmax p_rmin p_rmax p_nr p_nz p_nt bw ang uz l uz' l',
  (0 < g_dz g)%R -> (0 < g_dr g)%R -> 2 <= g_Nz g -> 2 <= g_Nr g -> 1 <= p_nz -> 1 <= p_nr -> 1 <= p_nt -> (0 < n)%R -> (1 <= g0)%R ->
  add_elec_bunch g g0 n p_zmin p_zmax p_rmin p_rmax p_nr p_nz p_nt bw ang = Ok (uz, l) ->
  add_particle_bunch g g0 n p_zmin p_zmax p_rmin p_rmax p_nr p_nz p_nt bw ang = Ok (uz', l') ->
  l' <> [] -> p_nt <> p_nz -> length l <> length l'.
Proof.
  intros g g0 n p_zmin p_zmax p_rmin p_rmax p_nr p_nz p_nt bw ang uz l uz' l' H1 H2 H3 H4 H5 H6 H7 H8 H9 El Ep Ne D.
  destruct (cylinder_count g g0 n p_zmin p_zmax p_rmin p_rmax p_nr p_nz p_nz bw ang) as (zlo & zhi & rlo & rhi & u & k & E & [Z1 R1] & Cz & Cr & L & _); try assumption.
  destruct (cylinder_count g g0 n p_zmin p_zmax p_rmin p_rmax p_nr p_nz p_nt bw ang) as (zlo' & zhi' & rlo' & rhi' & u' & k' & E' & _ & Cz' & Cr' & L' & _); try assumption.
  unfold add_elec_bunch in El. rewrite E in El. injection El as -> ->. rewrite E' in Ep. injection Ep as -> ->.
  assert (A : forall t, add_particle_bunch g g0 n p_zmin p_zmax p_rmin p_rmax p_nr p_nz t bw ang = bind (load_uniform (g_z g) (g_dz g) (g_Nz g) (g_dr g) (g_Nr g) (g_zmin_loc g) (g_zmax_loc g) (g_r_phys g)
          p_zmin p_zmax p_rmin p_rmax p_nz p_nr t n ang) (fun l => Ok (if bw then - sqrt (g0 ^ 2 - 1) else sqrt (g0 ^ 2 - 1), l)%R)) by reflexivity.
  (* both calls select the same cells *)
  destruct (Load_Proofs.adapt_spec (g_z g) (g_dz g) H1 (g_Nz g) (Rmax (g_zmin_loc g) p_zmin) (Rmin (g_zmax_loc g) p_zmax) p_nz 0 H3 H5 ltac:(lia)) as (a1 & a2 & a3 & a4 & Ea & ? & ? & Ha3 & Ha4).
  destruct (Load_Proofs.adapt_spec 0 (g_dr g) H2 (g_Nr g) p_rmin (Rmin (g_r_phys g) p_rmax) p_nr 0 H4 H6 ltac:(lia)) as (b1 & b2 & b3 & b4 & Eb & ? & ? & Hb3 & Hb4).
  rewrite A in E, E'. unfold load_uniform in E, E'. rewrite Ea in E, E'. cbn [bind] in E, E'. rewrite Eb in E, E'. cbn [bind] in E, E'.
  injection E as _ Ek. injection E' as _ Ek'.
  assert (Dz : a1 < a2). { destruct (Z_lt_le_dec a1 a2); [assumption|]. exfalso. apply Ne. rewrite <- Ek'. assert (a2 - a1 = 0) as -> by lia. reflexivity. }
  assert (Dr : b1 < b2). { destruct (Z_lt_le_dec b1 b2); [assumption|]. exfalso. apply Ne. rewrite <- Ek'. assert (b2 - b1 = 0) as -> by lia. unfold generate_evenly_spaced. rewrite Z.mul_0_l, Z.mul_0_r. reflexivity. }
  destruct (Ha3 Dz) as [-> ->], (Hb3 Dr) as [-> ->].
  assert (IZR a1 < IZR a2)%R by (apply IZR_lt; lia). assert (IZR b1 < IZR b2)%R by (apply IZR_lt; lia). assert (B0 := IZR_le 0 b1 ltac:(lia)).
  assert (N1 := gen_count ((a2 - a1) * p_nz) (g_z g + IZR a1 * g_dz g) (g_z g + IZR a2 * g_dz g) ((b2 - b1) * p_nr) (0 + IZR b1 * g_dr g) (0 + IZR b2 * g_dr g) p_nz n ang
    ltac:(nia) ltac:(nia) ltac:(lia) ltac:(nra) ltac:(nra) ltac:(nra) H8).
  assert (N2 := gen_count ((a2 - a1) * p_nz) (g_z g + IZR a1 * g_dz g) (g_z g + IZR a2 * g_dz g) ((b2 - b1) * p_nr) (0 + IZR b1 * g_dr g) (0 + IZR b2 * g_dr g) p_nt n ang
    ltac:(nia) ltac:(nia) ltac:(lia) ltac:(nra) ltac:(nra) ltac:(nra) H8).
  rewrite Ek in N1. rewrite Ek' in N2. intros El. rewrite El in N1. rewrite N1 in N2.
  assert (P1 : 0 < (a2 - a1) * p_nz) by nia. assert (P2 : 0 < (b2 - b1) * p_nr) by nia.
  set (x := (a2 - a1) * p_nz) in *. set (y := (b2 - b1) * p_nr) in *. assert (P3 : 0 < x * y) by nia. clear -N2 P3 D. nia.
Qed.
Print Assumptions C45_cylindrical_refuted.

(** The hypotheses are met: ten cells, three ranks (Decomp_Props), and a grid on which cell (1, 0) is loaded (C53_met). *)
Example C44_met : valid_comm five /\ (0 < c_dz five)%R /\
  map (fun r => match get_zmin_zmax64 five (of_Z64 (-1)) (div64 (of_Z64 2) (of_Z64 400)) true false false (Some r) with
                | Ok (a, b) => is_finite a && is_finite b && Bltb a b | Err _ => false end) (range 5) = [true; true; true; true; true].
Proof. split; [unfold valid_comm; cbn; lia|]. split; [cbn [c_dz five]; lra|]. vm_compute. reflexivity. Qed.
