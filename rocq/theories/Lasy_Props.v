(** C90: laser pulses read from a lasy file, and the choice of the method for adding a laser. *)
From Coq Require Import ZArith List Reals Lra Lia String.
From Coquelicot Require Import Complex.
From Flocq Require Import Core.
From Verif Require Import Base Fourier_Lib Boost_Model Antenna_Model Lasy_Model Lasy_Spec Lasy_Proofs.
Import ListNotations.
Open Scope R_scope.

(** Cylindrical geometry: the field is that of the envelope interpolated linearly in t and r between the nodes of the file, with the angular modes of the
    file, the carrier and the polarization of the file; the time axis starts at t_start; 0 outside. Holds off the axis, for a grid that starts on the axis. *)
Theorem C90_cylindrical f t_start ds dr s nm nt nr : recent f -> f_geometry f = "thetaMode"%string -> f_spacing f = (ds, dr, s) ->
  f_shape f = (2 * Z.of_nat nm + 1, Z.of_nat nt, Z.of_nat nr)%Z -> snd (fst (f_offset f)) = 0 ->
  0 < ds * f_unit f -> 0 < dr * f_unit f -> (1 <= nt)%nat -> (1 <= nr)%nat ->
  exists l, from_lasy_file f t_start = Ok l /\ forall r th z t, 0 < r ->
    (within (f_unit f) 0 ds nt (t - t_start) -> within (f_unit f) (snd (fst (f_offset f))) dr nr r ->
      E_field l (r * cos th) (r * sin th) z t = Some (field_of f t_start
        (linear (f_unit f) 0 ds nt (t - t_start) (fun it => linear (f_unit f) (snd (fst (f_offset f))) dr nr r (fun ir => angular f nm th it ir))) t)) /\
    (~ (within (f_unit f) 0 ds nt (t - t_start) /\ within (f_unit f) (snd (fst (f_offset f))) dr nr r) ->
      E_field l (r * cos th) (r * sin th) z t = Some (0, 0)).
Proof.
  intros V G SP SH OFF PT PR NT NR. unfold from_lasy_file. rewrite (recent_ok f V), G. cbn [bind String.eqb Ascii.eqb Bool.eqb]. eexists. split; [reflexivity|].
  intros r th z t Hr. rewrite OFF. assert (SP' : exists s, f_spacing f = (ds, dr, s)) by eauto. split.
  - intros W1 W2. apply field_eq. apply theta_in; auto.
  - intros N. erewrite field_eq by (apply (theta_out f ds dr nm nt nr); auto). unfold field_of, Re. do 2 f_equal; cbn; ring.
Qed.
Print Assumptions C90_cylindrical.

(** Cartesian geometry, where gridUnitSI is 1 (or the offsets are 0). *)
Theorem C90_cartesian f t_start ds dy dx t0 ymin xmin nt ny nx : recent f -> f_geometry f = "cartesian"%string -> f_spacing f = (ds, dy, dx) ->
  f_shape f = (Z.of_nat nt, Z.of_nat ny, Z.of_nat nx) -> f_offset f = (t0, ymin, xmin) -> f_unit f = 1 \/ (xmin = 0 /\ ymin = 0) ->
  0 < ds * f_unit f -> 0 < dy * f_unit f -> 0 < dx * f_unit f -> (1 <= nt)%nat -> (1 <= ny)%nat -> (1 <= nx)%nat ->
  exists l, from_lasy_file f t_start = Ok l /\ forall x y z t,
    (within (f_unit f) 0 ds nt (t - t_start) -> within (f_unit f) ymin dy ny y -> within (f_unit f) xmin dx nx x ->
      E_field l x y z t = Some (field_of f t_start
        (linear (f_unit f) 0 ds nt (t - t_start) (fun it => linear (f_unit f) ymin dy ny y (fun iy => linear (f_unit f) xmin dx nx x (fun ix =>
           f_data f (Z.of_nat it) (Z.of_nat iy) (Z.of_nat ix))))) t)) /\
    (~ (within (f_unit f) 0 ds nt (t - t_start) /\ within (f_unit f) ymin dy ny y /\ within (f_unit f) xmin dx nx x) -> E_field l x y z t = Some (0, 0)).
Proof.
  intros V G SP SH OFF UN PT PY PX NT NY NX. unfold from_lasy_file. rewrite (recent_ok f V), G. cbn [bind String.eqb Ascii.eqb Bool.eqb]. eexists. split; [reflexivity|].
  intros x y z t. split.
  - intros W1 W2 W3. apply field_eq. eapply cart_in; eauto.
  - intros N. erewrite field_eq by (eapply (cart_out f ds dy dx t0 ymin xmin nt ny nx); eauto). unfold field_of, Re. do 2 f_equal; cbn; ring.
Qed.
Print Assumptions C90_cartesian.
Definition ex_file (geometry : string) (offset : R * R * R) (unit : R) (shape : Z * Z * Z) (data : Z -> Z -> Z -> C) : lfile :=
  {| f_software := Some "lasy"%string; f_version := Some [Some 0; Some 5; Some 1]%Z; f_geometry := geometry; f_omega := 0; f_pol := (RtoC 1, RtoC 0);
     f_offset := offset; f_spacing := (1, 1, 1); f_unit := unit; f_shape := shape; f_data := data |}.
Lemma ex_recent g o u s d : recent (ex_file g o u s d).
Proof. exists 0%Z, 5%Z, 1%Z. split; [reflexivity|]. split; [reflexivity|]. lia. Qed.
(** A file with a mode 1 and three nodes along t and r; its value at a node, and between two nodes *)
Example C90_met : let f := ex_file "thetaMode" (-7, 0, 0) 1 (3, 3, 3)%Z (fun i j k => if (i =? 2)%Z then RtoC (IZR k) else RtoC 0) in
  recent f /\ snd (fst (f_offset f)) = 0 /\ within 1 0 1 3 1 /\ within 1 0 1 3 (3 / 2) /\ ~ within 1 0 1 3 2 /\
  linear 1 0 1 3 1 (fun it => linear 1 0 1 3 (3 / 2) (fun ir => angular f 1 (PI / 2) it ir)) = RtoC (3 / 2).
Proof.
  cbv zeta. split; [apply ex_recent|]. split; [reflexivity|]. unfold within, node. simpl INR. split; [lra|]. split; [lra|]. split; [lra|].
  unfold linear, node. simpl csum. simpl INR. unfold angular. simpl csum. simpl f_data. rewrite !Rmult_1_l, sin_PI2, cos_PI2.
  repeat match goal with |- context [tent ?u] => first [rewrite (tent_0 u) by lra | rewrite (tent_pos u) by lra | rewrite (tent_neg u) by lra] end.
  apply injective_projections; cbn; field.
Qed.

Example C90_cartesian_met : let f := ex_file "cartesian" (-7, -1, -1) 1 (3, 3, 3)%Z (fun i j k => RtoC (IZR (i + j + k))) in
  recent f /\ f_unit f = 1 /\ within 1 0 1 3 1 /\ within 1 (-1) 1 3 (1 / 2) /\ ~ within 1 (-1) 1 3 1.
Proof. cbv zeta. split; [apply ex_recent|]. split; [reflexivity|]. unfold within, node. simpl INR. repeat split; lra. Qed.
(** On the antenna, the field of a file in cylindrical geometry is always defined: no virtual particle is on the axis. *)
Theorem C90_antenna f t_start l cl r_e e eps0 pd z0 v dr Nr Nm npr epsilon boost a p z t ds drs s nm nt nr :
  from_lasy_file f t_start = Ok l -> recent f -> f_geometry f = "thetaMode"%string -> f_spacing f = (ds, drs, s) ->
  f_shape f = (2 * Z.of_nat nm + 1, Z.of_nat nt, Z.of_nat nr)%Z -> snd (fst (f_offset f)) = 0 -> 0 < ds * f_unit f -> 0 < drs * f_unit f -> (1 <= nt)%nat -> (1 <= nr)%nat ->
  0 < dr -> (0 < npr)%Z -> antenna_init cl r_e e eps0 pd z0 v dr Nr Nm npr epsilon boost = Ok a -> In p (a_ptcl a) ->
  exists Ex Ey, E_field l (a_bx p) (a_by p) z t = Some (Ex, Ey).
Proof.
  intros L V G SP SH OFF PT PR NT NR Hdr Hnpr A Hp.
  assert (R : exists r th, 0 < r /\ a_bx p = r * cos th /\ a_by p = r * sin th).
  { unfold antenna_init in A. destruct (match boost with Some _ => _ | None => _ end); [discriminate A|]. injection A as <-. cbn [a_ptcl] in Hp.
    apply in_flat_map in Hp. destruct Hp as [it [_ Hp]]. apply in_map_iff in Hp. destruct Hp as [ir [<- Hir]]. cbn [a_bx a_by]. eexists. eexists. split; [|split; reflexivity].
    apply in_range in Hir. apply Rmult_lt_0_compat.
    - apply Rmult_lt_0_compat; [exact Hdr|]. apply Rinv_0_lt_compat. apply (IZR_lt 0); lia.
    - assert (0 <= IZR ir) by (apply (IZR_le 0); lia). lra. }
  destruct R as [r [th [Hr [-> ->]]]].
  destruct (C90_cylindrical f t_start ds drs s nm nt nr V G SP SH OFF PT PR NT NR) as [l' [L' H]]. rewrite L in L'. injection L' as <-.
  destruct (H r th z t Hr) as [H1 H2].
  assert (D : within (f_unit f) 0 ds nt (t - t_start) /\ within (f_unit f) (snd (fst (f_offset f))) drs nr r \/ ~ (within (f_unit f) 0 ds nt (t - t_start) /\ within (f_unit f) (snd (fst (f_offset f))) drs nr r)).
  { unfold within. destruct (Rle_dec (node (f_unit f) 0 ds 0) (t - t_start)); [|tauto]. destruct (Rlt_dec (t - t_start) (node (f_unit f) 0 ds (nt - 1))); [|tauto].
    destruct (Rle_dec (node (f_unit f) (snd (fst (f_offset f))) drs 0) r); [|tauto]. destruct (Rlt_dec r (node (f_unit f) (snd (fst (f_offset f))) drs (nr - 1))); tauto. }
  destruct D as [[W1 W2]|D]; [rewrite (H1 W1 W2)|rewrite (H2 D)].
  - eexists. eexists. unfold field_of. reflexivity.
  - eauto.
Qed.
Print Assumptions C90_antenna.
Example C90_antenna_met : exists a, antenna_init 1 1 1 1 1 0 0 1 2 2 1 1 None = Ok a /\ a_ptcl a <> [].
Proof. eexists. split; [reflexivity|]. cbn [a_ptcl]. discriminate. Qed.
(** On the axis itself it is not defined as soon as there is a mode other than 0. *)
Theorem C90_axis_refuted : exists f l t, recent f /\ f_geometry f = "thetaMode"%string /\ snd (fst (f_offset f)) = 0 /\ from_lasy_file f 0 = Ok l /\
  within (f_unit f) 0 1 3 t /\ within (f_unit f) 0 1 3 0 /\ E_field l 0 0 0 t = None.
Proof.
  set (f := ex_file "thetaMode" (0, 0, 0) 1 (3, 3, 3)%Z (fun _ _ _ => RtoC 0)). exists f. eexists. exists 0. split; [apply ex_recent|]. split; [reflexivity|]. split; [reflexivity|].
  split; [reflexivity|]. unfold within, node. simpl INR. cbn [f_unit f ex_file]. split; [lra|]. split; [lra|].
  unfold E_field. cbn [l_interp l_tstart]. unfold theta_interp. cbn [f_spacing f_unit f_shape f ex_file].
  replace (sqrt (0 * 0 + 0 * 0)) with 0 by (rewrite Rmult_0_r, Rplus_0_r, sqrt_0; reflexivity).
  replace (0 * (1 / (1 * 1))) with (IZR 0) by (simpl; lra). replace ((0 - 0) * (1 / (1 * 1))) with (IZR 0) by (simpl; lra). rewrite Zfloor_IZR.
  change ((0 <? 0) || (3 - 1 <? 0 + 1) || (0 <? 0) || (3 - 1 <? 0 + 1))%Z with false. cbv iota.
  change (map Z.of_nat (seq 1 (Z.to_nat (3 / 2 + 1 - 1)))) with [1%Z]. cbn [fold_left]. destruct (Req_EM_T 0 0); [reflexivity|contradiction].
Qed.
Print Assumptions C90_axis_refuted.

(** openPMD positions are (offset + i*spacing)*gridUnitSI: the offsets of a cartesian file are read without gridUnitSI. *)
Theorem C90_unit_refuted : exists f l v, recent f /\ f_geometry f = "cartesian"%string /\ f_offset f = (0, 0, -1) /\ f_spacing f = (1, 1, 1) /\ f_shape f = (3, 3, 3)%Z /\
  from_lasy_file f 0 = Ok l /\ node (f_unit f) (-1) 1 1 = 0 /\ E_field l 0 0 0 0 = Some v /\ v <> field_of f 0 (f_data f 0 0 1) 0.
Proof.
  set (f := ex_file "cartesian" (0, 0, -1) 2 (3, 3, 3)%Z (fun _ _ k => RtoC (IZR k))). exists f. eexists. eexists. split; [apply ex_recent|]. split; [reflexivity|].
  split; [reflexivity|]. split; [reflexivity|]. split; [reflexivity|]. split; [reflexivity|]. split; [unfold node; cbn; lra|].
  assert (Z0 : Zfloor ((0 - 0) * (1 / (1 * 2))) = 0%Z) by (replace ((0 - 0) * (1 / (1 * 2))) with (IZR 0) by (simpl; lra); apply Zfloor_IZR).
  assert (Z1 : Zfloor ((0 - -1) * (1 / (1 * 2))) = 0%Z) by (apply Zfloor_imp; simpl; lra).
  split.
  { unfold E_field. cbn [l_interp l_tstart]. unfold cart_interp. cbn [f_spacing f_unit f_shape f_offset f_data f ex_file]. rewrite Z0, Z1.
    change ((0 <? 0) || (3 - 1 <? 0 + 1) || (0 <? 0) || (3 - 1 <? 0 + 1) || (0 <? 0) || (3 - 1 <? 0 + 1))%Z with false. cbv iota. reflexivity. }
  unfold field_of. cbn [f_omega f_pol f_offset f_data f ex_file fst snd l_omega l_tmin l_tstart l_pol]. intros E. apply (f_equal fst) in E. cbn [fst] in E.
  unfold cis, Re in E. rewrite !Rmult_0_l, Ropp_0 in E. cbn in E. rewrite ?Ropp_0, ?Rmult_0_l, ?cos_0, ?sin_0 in E. lra.
Qed.
Print Assumptions C90_unit_refuted.
(** The position of the first node along r is not read: a grid of cell centres (first node at half a cell) is shifted. *)
Theorem C90_radial_offset_refuted : exists f l v, recent f /\ f_geometry f = "thetaMode"%string /\ f_offset f = (0, 1 / 2, 0) /\ f_spacing f = (1, 1, 1) /\ f_shape f = (1, 3, 3)%Z /\
  f_unit f = 1 /\ from_lasy_file f 0 = Ok l /\ node (f_unit f) (1 / 2) 1 0 = 1 / 2 /\ E_field l (1 / 2) 0 0 0 = Some v /\ v <> field_of f 0 (f_data f 0 0 0) 0.
Proof.
  set (f := ex_file "thetaMode" (0, 1 / 2, 0) 1 (1, 3, 3)%Z (fun _ _ k => RtoC (IZR k))). exists f. eexists. eexists. split; [apply ex_recent|]. split; [reflexivity|].
  split; [reflexivity|]. split; [reflexivity|]. split; [reflexivity|]. split; [reflexivity|]. split; [reflexivity|]. split; [unfold node; cbn; lra|].
  assert (Z0 : Zfloor ((0 - 0) * (1 / (1 * 1))) = 0%Z) by (replace ((0 - 0) * (1 / (1 * 1))) with (IZR 0) by (simpl; lra); apply Zfloor_IZR).
  assert (Z1 : Zfloor (1 / 2 * (1 / (1 * 1))) = 0%Z) by (apply Zfloor_imp; simpl; lra).
  split.
  { unfold E_field. cbn [l_interp l_tstart]. unfold theta_interp. cbn [f_spacing f_unit f_shape f_offset f_data f ex_file].
    replace (sqrt (1 / 2 * (1 / 2) + 0 * 0)) with (1 / 2) by (rewrite Rmult_0_r, Rplus_0_r; symmetry; apply sqrt_square; lra). rewrite Z0, Z1.
    change ((0 <? 0) || (3 - 1 <? 0 + 1) || (0 <? 0) || (3 - 1 <? 0 + 1))%Z with false. cbv iota. change (Z.to_nat (1 / 2 + 1 - 1)) with 0%nat. cbn [seq map fold_left]. reflexivity. }
  unfold field_of. cbn [f_omega f_pol f_offset f_data f ex_file fst snd l_omega l_tmin l_tstart l_pol]. intros E. apply (f_equal fst) in E. cbn [fst] in E.
  unfold cis, Re, bil in E. rewrite ?Rmult_0_l, ?Ropp_0 in E. cbn in E. rewrite ?Ropp_0, ?Rmult_0_l, ?cos_0, ?sin_0 in E. lra.
Qed.
Print Assumptions C90_radial_offset_refuted.

(** t_start is a pure delay; z plays no part. *)
Theorem C90_delay f t_start l l0 x y z z' t : from_lasy_file f t_start = Ok l -> from_lasy_file f 0 = Ok l0 -> E_field l x y z t = E_field l0 x y z' (t - t_start).
Proof.
  unfold from_lasy_file. destruct (check_version f); [|discriminate]. cbn [bind].
  destruct (String.eqb _ _); [|destruct (String.eqb _ _); [|discriminate]]; intros H H0; injection H as <-; injection H0 as <-; unfold E_field; cbn [l_interp l_tstart l_omega l_tmin l_pol];
    rewrite Rminus_0_r; reflexivity.
Qed.
Print Assumptions C90_delay.

(** The files that are accepted: those of lasy, from version 0.3.0 on, in one of the two geometries. *)
Theorem C90_version f a b c t_start : f_version f = Some [Some a; Some b; Some c] ->
  ((exists l, from_lasy_file f t_start = Ok l) <-> recent f /\ (f_geometry f = "thetaMode" \/ f_geometry f = "cartesian")%string) /\
  ((exists l, from_lasy_file f t_start = Ok l) \/ from_lasy_file f t_start = Err RuntimeError).
Proof.
  intros E. assert (K : check_version f = Ok tt /\ recent f \/ check_version f = Err RuntimeError /\ ~ recent f).
  { unfold check_version, recent. rewrite E. destruct (f_software f) as [s|]; [|right; split; [reflexivity|intros [? [? [? [X _]]]]; discriminate X]].
    cbn [ints bind tuple_ge]. destruct (String.eqb_spec s "lasy") as [->|N]; [|right; split; [reflexivity|intros [? [? [? [X _]]]]; congruence]]. cbn [andb].
    assert (D : forall P : Prop, P \/ ~ P -> (P <-> (0 < a \/ a = 0 /\ 3 < b \/ a = 0 /\ b = 3 /\ 0 <= c)%Z) -> P /\ (exists a0 b0 c0, Some "lasy"%string = Some "lasy"%string /\ Some [Some a; Some b; Some c] = Some [Some a0; Some b0; Some c0] /\ (0 < a0 \/ a0 = 0 /\ 3 < b0 \/ a0 = 0 /\ b0 = 3 /\ 0 <= c0)%Z)
       \/ ~ P /\ ~ (exists a0 b0 c0, Some "lasy"%string = Some "lasy"%string /\ Some [Some a; Some b; Some c] = Some [Some a0; Some b0; Some c0] /\ (0 < a0 \/ a0 = 0 /\ 3 < b0 \/ a0 = 0 /\ b0 = 3 /\ 0 <= c0)%Z)).
    { intros P [HP|HP] I; [left|right]; split; auto; [exists a, b, c; tauto|]. intros [a0 [b0 [c0 [_ [X Y]]]]]. injection X as <- <- <-. tauto. }
    set (T := if (a =? 0)%Z then if (b =? 3)%Z then if (c =? 0)%Z then true else (0 <? c)%Z else (3 <? b)%Z else (0 <? a)%Z).
    destruct (D (T = true)) as [[X Y]|[X Y]]; [destruct T; auto| |left|right].
    - unfold T. destruct (Z.eqb_spec a 0), (Z.eqb_spec b 3), (Z.eqb_spec c 0); rewrite ?Z.ltb_lt; intuition lia.
    - split; [rewrite X; reflexivity|exact Y].
    - split; [destruct T; [contradiction X; reflexivity|reflexivity]|exact Y]. }
  unfold from_lasy_file. destruct K as [[-> R]|[-> R]]; cbn [bind].
  - destruct (String.eqb_spec (f_geometry f) "thetaMode") as [G|G]; [split; [split; eauto|eauto]|].
    destruct (String.eqb_spec (f_geometry f) "cartesian") as [G'|G']; [split; [split; eauto|eauto]|].
    split; [split; [intros [l X]; discriminate X|intros [_ [X|X]]; contradiction]|auto].
  - split; [split; [intros [l X]; discriminate X|tauto]|auto].
Qed.
Print Assumptions C90_version.
(** A development version (0.4.0.dev1) is refused, with a ValueError. *)
Theorem C90_dev_version_refuted : exists f, f_software f = Some "lasy"%string /\ f_version f = Some [Some 0; Some 4; Some 0; None]%Z /\ from_lasy_file f 0 = Err ValueError.
Proof.
  exists {| f_software := Some "lasy"%string; f_version := Some [Some 0; Some 4; Some 0; None]%Z; f_geometry := "cartesian"%string; f_omega := 0; f_pol := (RtoC 1, RtoC 0);
     f_offset := (0, 0, 0); f_spacing := (1, 1, 1); f_unit := 1; f_shape := (3, 3, 3)%Z; f_data := fun _ _ _ => RtoC 0 |}. split; [reflexivity|]. split; reflexivity.
Qed.
Print Assumptions C90_dev_version_refuted.
(** Such a profile can only be emitted by an antenna at rest. *)
Theorem C90_method gamma_boost method z0 v o : add_laser_pulse {| p_lasy := true; p_dir := 1 |} gamma_boost method z0 v = Ok o ->
  method = "antenna"%string /\ v = 0 /\ exists z b, z0 = Some z /\ o = Antenna {| p_lasy := true; p_dir := 1 |} z 0 b.
Proof.
  unfold add_laser_pulse. cbn [p_lasy p_dir]. destruct gamma_boost as [g|]; [destruct (Req_EM_T g 1)|]; cbn [bind Z.eqb Pos.eqb];
  (destruct (String.eqb_spec method "direct"); [discriminate|]); (destruct (String.eqb_spec method "antenna"); [|discriminate]);
  (destruct z0 as [z|]; [|discriminate]); destruct (Req_EM_T v 0) as [->|]; cbn [andb]; intros E; try discriminate E; injection E as <-; split; eauto.
Qed.
Print Assumptions C90_method.

(** add_laser(method='antenna') with no z0_antenna: "If not provided, then the z0_antenna is set to zf"; in fact an exception. *)
Theorem C90_default_antenna_refuted zf v fw : add_laser None "antenna" fw (Some zf) None v = Err ValueError.
Proof. destruct fw; reflexivity. Qed.
Print Assumptions C90_default_antenna_refuted.
