(** C55: storing and reloading fields; selecting particles. *)
From Verif Require Import Base Store_Model Store_Spec Store_Proofs.
From Coq Require Import Reals String List Lra Lia.
From Coquelicot Require Import Complex.
Open Scope R_scope.

(** Every mode m >= 1 of every field comes back exactly, whatever the dataset contained before; of the mode 0 the real
    part comes back, and the grid gets back its bounds. *)
Theorem C55_fields_partial : forall Nm Nr (mode : Z -> farray) old sgn zmin dz Nz m iz ir, (0 <= m < Nm)%Z -> (0 <= ir < Nr)%Z ->
  load_field (write_dataset Nm mode old) Nr m sgn iz ir = (if (m =? 0)%Z then RtoC (fst (mode 0%Z iz ir)) else mode m iz ir) /\
  load_bounds (info zmin dz Nz) = (zmin, zmin + IZR Nz * dz).
Proof.
  intros Nm Nr mode old sgn zmin dz Nz m iz ir Hm Hr. split.
  - unfold load_field, get_field. replace (Nr + ir >=? Nr)%Z with true by (symmetry; rewrite Z.geb_leb; apply Z.leb_le; lia). replace (Nr + ir - Nr)%Z with ir by lia.
    destruct (m =? 0)%Z eqn:M; [rewrite write_mode0; reflexivity|]. apply Z.eqb_neq in M. destruct (write_mode Nm mode old m ir iz ltac:(lia)) as [-> ->].
    rewrite Rmult_0_r, cos_0, sin_0. replace (IZR m * (PI / (2 * IZR m))) with (PI / 2) by (field; apply (IZR_neq m 0); exact M). rewrite cos_PI2, sin_PI2.
    destruct (mode m iz ir) as [a b]. apply injective_projections; cbn; field.
  - unfold load_bounds, info. rewrite minus_IZR. f_equal; field.
Qed.
Print Assumptions C55_fields_partial.
(** So the fields come back exactly when the mode 0 is real ... *)
Theorem C55_fields : forall Nm Nr (mode : Z -> farray) old sgn, (forall iz ir, snd (mode 0%Z iz ir) = 0) ->
  forall m iz ir, (0 <= m < Nm)%Z -> (0 <= ir < Nr)%Z -> load_field (write_dataset Nm mode old) Nr m sgn iz ir = mode m iz ir.
Proof.
  intros Nm Nr mode old sgn R0 m iz ir Hm Hr. destruct (C55_fields_partial Nm Nr mode old sgn 0 0 0 m iz ir Hm Hr) as [-> _].
  destruct (Z.eqb_spec m 0); [|reflexivity]. subst. rewrite (surjective_pairing (mode 0%Z iz ir)) at 2. rewrite R0. reflexivity.
Qed.
Print Assumptions C55_fields.
(** ... and an imaginary part of the mode 0 is always lost. *)
Theorem C55_mode0_refuted : forall Nm Nr (mode : Z -> farray) old sgn iz ir, (0 < Nm)%Z -> (0 <= ir < Nr)%Z ->
  (load_field (write_dataset Nm mode old) Nr 0 sgn iz ir = mode 0%Z iz ir <-> snd (mode 0%Z iz ir) = 0).
Proof.
  intros Nm Nr mode old sgn iz ir Hm Hr. destruct (C55_fields_partial Nm Nr mode old sgn 0 0 0 0 iz ir ltac:(lia) Hr) as [-> _]. cbn [Z.eqb].
  split; [intros <-; reflexivity|]. intros H. rewrite (surjective_pairing (mode 0%Z iz ir)) at 2. rewrite H. reflexivity.
Qed.
Print Assumptions C55_mode0_refuted.

(** Selection: there is one list of particles, in the order of the ranks and of the particles in each rank, such that every
    written dataset is the list of the values of that quantity for these particles (times m c for the momenta of massive
    species); a particle is kept exactly when it is strictly within all the bounds, and drawn if there is a subsampling. *)
Theorem C55_selection : forall cc sub select (ranks : list (species * list R)) m,
  (forall s draws, In (s, draws) ranks -> List.length draws = List.length (s_ptcl s) /\ s_m s = m /\
     forall rules q b, select = Some rules -> In (q, b) rules -> available s q) ->
  exists keep : particle * R -> bool,
  let all := List.concat (map (fun '(s, draws) => combine (s_ptcl s) draws) ranks) in
  let L := map fst (filter keep all) in
  (forall p u, keep (p, u) = true <-> (forall rules, select = Some rules -> within rules p) /\ (forall f, sub = Some f -> u < f)) /\
  forall q buf, (forall s draws, In (s, draws) ranks -> available s q) -> List.length buf = List.length L ->
  written cc sub select ranks q buf = Ok (map (fun p => value q p * unit_of cc m q) L).
Proof.
  intros cc sub select ranks m H. set (rules := match select with None => [] | Some r => r end).
  exists (fun x => (drawn sub x && forallb (fun r => rule_ok r (fst x)) rules)%bool). cbv zeta. split.
  - intros p u. rewrite Bool.andb_true_iff, within_rules. cbn [fst]. unfold rules, drawn. cbn [snd]. split.
    + intros [A B]. split; [intros r ->; exact B|intros f ->; apply Rltb_true; exact A].
    + intros [A B]. split; [destruct sub as [f|]; [apply Rltb_true, B; reflexivity|reflexivity]|]. destruct select as [r|]; [apply A; reflexivity|intros q lo hi []].
  - intros q buf V Lb. unfold written.
    rewrite (all_ok_map _ (fun '(s, draws) => map (fun p => value q p * unit_of cc m q) (kept sub rules s draws))).
    2:{ intros [s draws] I. destruct (H s draws I) as (L & <- & A). destruct (selection_kept sub draws select s L A) as (a & -> & _ & M). cbn [bind].
        rewrite local_kept by (exact (V s draws I)). unfold rules. rewrite M. reflexivity. }
    cbn [bind]. f_equal.
    assert (E : List.concat (map (fun '(s, draws) => map (fun p => value q p * unit_of cc m q) (kept sub rules s draws)) ranks) =
      map (fun p => value q p * unit_of cc m q) (map fst (filter (fun x => (drawn sub x && forallb (fun r => rule_ok r (fst x)) rules)%bool) (List.concat (map (fun '(s, draws) => combine (s_ptcl s) draws) ranks))))).
    { clear. induction ranks as [|[s draws] l IH]; [reflexivity|]. cbn [map List.concat]. rewrite filter_app, !map_app, IH. f_equal. f_equal. unfold kept. rewrite <- filter_comp.
      clear. induction (filter (drawn sub) (combine (s_ptcl s) draws)) as [|x l IH]; [reflexivity|]. cbn. destruct (forallb (fun r => rule_ok r (fst x)) rules); cbn; rewrite IH; reflexivity. }
    rewrite <- E. apply gather_concat. rewrite Lb, E. symmetry. apply map_length.
Qed.
Print Assumptions C55_selection.

(** Three ranks, one of them empty; the particle exactly at the bound is not kept. *)
Example C55_met : exists cc select (ranks : list (species * list R)), (forall s draws, In (s, draws) ranks -> List.length draws = List.length (s_ptcl s) /\ s_m s = 2 /\
     forall rules q b, select = Some rules -> In (q, b) rules -> available s q) /\
  written cc None select ranks "ux" [0; 0] = Ok [4 * (2 * cc); 5 * (2 * cc)].
Proof.
  set (p := fun v (q : string) => if (q =? "ux")%string then v else 1). set (sp := fun l => {| s_ptcl := l; s_m := 2; s_has := fun _ => true |}).
  exists 3, (Some [("ux", (Some 3, None)); ("gamma", (None, Some 2))]%string), [(sp [p 3; p 4], [0; 0]); (sp [], []); (sp [p 5], [0])]. split.
  - intros s draws [E|[E|[E|[]]]]; injection E as <- <-; (split; [reflexivity|split; [reflexivity|intros; reflexivity]]).
  - cbn. unfold Rltb. replace (1 / 1) with 1 by field. repeat (destruct Rlt_dec; try (exfalso; lra)). cbn. repeat (destruct Rlt_dec; try (exfalso; lra)); reflexivity.
Qed.
