From Verif Require Import Base Boost_Model Boost_Spec Boost_Proofs ExtField_Model ExtField_Spec.
From Coq Require Import Reals Lra Lia.
Open Scope R_scope.

Lemma fold_species (fs : list (fieldtype * R)) e t : forall s, fold_left (fun (s : species) fa => (fst s, map (fun p => apply_one e t p fa) (snd s))) fs s =
  (fst s, map (fun p => fold_left (apply_one e t) fs p) (snd s)).
Proof.
  induction fs as [|a fs IH]; intros [i l]; cbn [fold_left fst snd]; [rewrite map_id; reflexivity|]. rewrite IH. cbn [fst snd]. rewrite map_map. reflexivity.
Qed.
Lemma apply_species_eq e t s : apply_species e t s =
  if match ext_species e with None => true | Some i => Z.eqb (fst s) i end then (fst s, map (fun p => fold_left (apply_one e t) (ext_fields e) p) (snd s)) else s.
Proof.
  unfold apply_species. destruct (match ext_species e with None => true | Some i => Z.eqb (fst s) i end); [|reflexivity].
  destruct (Z.leb_spec (Z.of_nat (length (snd s))) 0) as [H|H]; [|apply fold_species].
  destruct s as [i [|p l]]; [reflexivity|cbn in H; lia].
Qed.
(** In the boosted frame the function is evaluated at the lab coordinates. *)
Lemma lab_event c g ev : 0 < c -> 1 <= g -> g <> 1 ->
  let b := sqrt (1 - 1 / g ^ 2) in let ev' := lorentz c g b ev in
  forall f F a l, lab_func c (Some g) f F (e_x ev') (e_y ev') (e_z ev') (e_t ev') a l = f F (e_x ev) (e_y ev) (e_z ev) (e_t ev) a l.
Proof.
  intros Hc Hg N b ev' f F a l. destruct (converter_ok g Hg) as (H1 & H2 & H3). cbn [boost_converter gamma0 beta0] in *. fold b in H2, H3.
  unfold lab_func, boosted. destruct (Req_EM_T g 1) as [E|_]; [contradiction|]. fold b. unfold ev', lorentz; cbn [e_x e_y e_z e_t]. f_equal.
  - transitivity (g * g * (1 - b * b) * e_z ev); [field; lra|rewrite H3; ring].
  - transitivity (g * g * (1 - b * b) * e_t ev); [field; lra|rewrite H3; ring].
Qed.
Lemma boost_fields c g f ft a l sp e : 0 < c -> 1 <= g -> external_field_init c (fun F x y z t a l => F + a * f x y z t l) ft a l sp (Some g) = Ok e ->
  let b := sqrt (1 - 1 / g ^ 2) in forall ev p, let ev' := lorentz c g b ev in x p = e_x ev' -> y p = e_y ev' -> z p = e_z ev' ->
  fold_left (apply_one e (e_t ev')) (ext_fields e) p = add_field p (transform c g b (single ft (a * f (e_x ev) (e_y ev) (e_z ev) (e_t ev) l))).
Proof.
  intros Hc Hg E b ev p ev' Px Py Pz. destruct (Req_EM_T g 1) as [G1|N].
  - assert (B0 : b = 0). { unfold b. rewrite G1. replace (1 - 1 / 1 ^ 2) with 0 by field. apply sqrt_0. }
    destruct ev as [t0 x0 y0 z0]. unfold ev', lorentz in *; cbn [e_x e_y e_z e_t] in *. rewrite B0, G1 in *.
    replace (1 * (z0 - 0 * c * t0)) with z0 in * by ring. replace (1 * (t0 - 0 * z0 / c)) with t0 by (field; lra).
    unfold external_field_init, lab_func, amplitudes, boosted in E. destruct (Req_EM_T 1 1) as [_|X]; [|contradiction].
    destruct p as [px py pz a1 a2 a3 a4 a5 a6]. cbn [x y z] in *. subst px py pz.
    destruct ft; try discriminate; injection E as <-; unfold transform, single, add_field, apply_one; cbn; f_equal; field; lra.
  - assert (LF := lab_event c g ev Hc Hg N). cbv zeta in LF. fold b ev' in LF. rewrite <- Px, <- Py, <- Pz in LF.
    unfold external_field_init in E. unfold amplitudes in E. unfold boosted in E. destruct (Req_EM_T g 1) as [X|_]; [contradiction|]. fold b in E.
    destruct p as [px py pz a1 a2 a3 a4 a5 a6]. cbn [x y z] in *.
    destruct ft; try discriminate; injection E as <-; cbn [ext_fields fold_left]; unfold apply_one; cbn [fst snd get set ext_func ext_scale x y z fEx fEy fEz fBx fBy fBz];
    rewrite ?LF; unfold transform, single, add_field; cbn; f_equal; field; lra.
Qed.
Lemma no_boost c f ft a l sp e gb : gb = None \/ gb = Some 1 -> external_field_init c f ft a l sp gb = Ok e ->
  forall t p, fold_left (apply_one e t) (ext_fields e) p = set ft (f (get ft p) (x p) (y p) (z p) t a l) p.
Proof.
  intros G E t p. unfold external_field_init, lab_func, amplitudes, boosted in E.
  assert (X : match gb with None => None | Some g => if Req_EM_T g 1 then None else Some g end = None) by (destruct G as [-> | ->]; [reflexivity|destruct (Req_EM_T 1 1); [reflexivity|contradiction]]).
  rewrite X in E. destruct ft; try discriminate; injection E as <-; reflexivity.
Qed.

Definition applies (sp : option Z) (s : species) : bool := match sp with None => true | Some i => Z.eqb (fst s) i end.
Lemma init_species c f ft a l sp gb e : external_field_init c f ft a l sp gb = Ok e -> ext_species e = sp.
Proof. unfold external_field_init. destruct ft; intros E; try discriminate; injection E as <-; reflexivity. Qed.
Lemma expression_eq c f ft a l sp gb e ptcl t : external_field_init c f ft a l sp gb = Ok e ->
  apply_expression e ptcl t = map (fun s => if applies sp s then (fst s, map (fun p => fold_left (apply_one e t) (ext_fields e) p) (snd s)) else s) ptcl.
Proof. intros E. unfold apply_expression. apply map_ext. intros s. rewrite apply_species_eq, (init_species _ _ _ _ _ _ _ _ E). reflexivity. Qed.
