(** C42: external fields given in the lab frame. *)
From Verif Require Import Base Boost_Model Boost_Spec Boost_Proofs ExtField_Model ExtField_Spec ExtField_Proofs.
From Coq Require Import Reals Lra Lia.
Open Scope R_scope.

(** The user's function has the documented form F + amplitude * f(x, y, z, t, length_scale). The particle p of species s is, at boosted
    time t', at the image of the lab event ev. Then its fields get exactly the Lorentz transform of the lab field with the
    single component ft, evaluated at ev. The other species are left alone. *)
Theorem C42_boost : forall c g f ft a l sp e, 0 < c -> 1 <= g ->
  external_field_init c (fun F x y z t a l => F + a * f x y z t l) ft a l sp (Some g) = Ok e ->
  let b := sqrt (1 - 1 / g ^ 2) in
  forall i ev p, let ev' := lorentz c g b ev in x p = e_x ev' -> y p = e_y ev' -> z p = e_z ev' ->
  forall before after s s', 
  exists l1 l2 l3 l4, apply_expression e (before ++ (i, s ++ p :: s') :: after) (e_t ev') = l1 ++ (i, l2 ++ (if match sp with None => true | Some j => Z.eqb i j end
     then add_field p (transform c g b (single ft (a * f (e_x ev) (e_y ev) (e_z ev) (e_t ev) l))) else p) :: l3) :: l4 /\
     length l1 = length before /\ length l2 = length s /\ length l3 = length s' /\ length l4 = length after.
Proof.
  intros c g f ft a l sp e Hc Hg E b i ev p ev' Px Py Pz before after s s'.
  pose proof (boost_fields c g f ft a l sp e Hc Hg E ev p Px Py Pz) as B.
  rewrite (expression_eq _ _ _ _ _ _ _ _ _ _ E), map_app. cbn [map]. unfold applies at 2. cbn [fst snd].
  destruct (match sp with None => true | Some j => Z.eqb i j end).
  - rewrite map_app. cbn [map]. fold b ev' in B. rewrite B. do 4 eexists. split; [reflexivity|]. rewrite !map_length. auto.
  - do 4 eexists. split; [reflexivity|]. rewrite !map_length. auto.
Qed.
Print Assumptions C42_boost.

(** Without boost, any function is applied to its own component, with the simulation's coordinates. *)
Theorem C42_lab : forall c f ft a l sp gb e, gb = None \/ gb = Some 1 -> external_field_init c f ft a l sp gb = Ok e ->
  forall ptcl t, apply_expression e ptcl t =
  map (fun s => if match sp with None => true | Some j => Z.eqb (fst s) j end
       then (fst s, map (fun p => set ft (f (get ft p) (x p) (y p) (z p) t a l) p) (snd s)) else s) ptcl.
Proof.
  intros c f ft a l sp gb e G E ptcl t. rewrite (expression_eq _ _ _ _ _ _ _ _ _ _ E). apply map_ext. intros s. unfold applies.
  destruct (match sp with None => true | Some j => Z.eqb (fst s) j end); [|reflexivity]. f_equal. apply map_ext. intros p. eapply no_boost; eassumption.
Qed.
Print Assumptions C42_lab.

(** Exactly the names of the six components are accepted; another one is a ValueError. *)
Theorem C42_names : forall c f ft a l sp gb, if match ft with OtherField => true | _ => false end
  then external_field_init c f ft a l sp gb = Err ValueError else exists e, external_field_init c f ft a l sp gb = Ok e.
Proof. intros. destruct ft; try reflexivity; eexists; reflexivity. Qed.
Print Assumptions C42_names.

(** A particle on the image of a lab event, in a frame with b = 3/5; a By wiggler also gives an Ex. *)
Example C42_met : let b := sqrt (1 - 1 / (5 / 4) ^ 2) in let ev' := lorentz 1 (5 / 4) b {| e_t := 0; e_x := 1; e_y := 2; e_z := 4 |} in
  e_z ev' = 5 /\ e_t ev' = - 3 /\ Ex' (transform 1 (5 / 4) b (single By 4)) = - 3.
Proof.
  assert (B : sqrt (1 - 1 / (5 / 4) ^ 2) = 3 / 5). { replace (1 - 1 / (5 / 4) ^ 2) with ((3 / 5) ^ 2) by field. apply sqrt_pow2. lra. }
  cbv zeta. rewrite B. cbn. lra.
Qed.
