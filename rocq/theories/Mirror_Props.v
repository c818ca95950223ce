(** C47: mirrors. *)
From Verif Require Import Base Decomp_Model Decomp_Proofs Mirror_Model Mirror_Spec Mirror_Proofs.
From Coq Require Import Reals Lra Lia.
From Flocq Require Import Core.Raux.
Open Scope R_scope.

(** What a mirror does on a rank, exactly: it zeroes E and B (and their PML parts) of the selected modes in the
    floor((z_end - z_start)/dz) rows that precede the row of z_start, if z_start is in the grid of this rank; every other
    value is unchanged. Partial: the claim is about the cells between z_start and z_end. *)
Theorem C47_slab_partial : forall {A} (zero : A) cl mi c t (l : list igrid) zmin zmax n g f,
  get_zmin_zmax c true true true (Some (c_rank c)) = Ok (zmin, zmax) ->
  0 < c_dz c -> Forall (fun g => ig_dz g = c_dz c) l -> nth_error l n = Some g ->
  let zs := mirror_z cl mi t (m_start mi) in let ze := mirror_z cl mi t (m_end mi) in zs <= ze ->
  exists l' g', set_fields_to_zero zero cl mi c t l = Ok l' /\ length l' = length l /\ nth_error l' n = Some g' /\
  ig_pml g' = ig_pml g /\ ig_dz g' = ig_dz g /\
  (forall iz ir, concerned mi (Z.of_nat n) g f -> zmin <= zs < zmax ->
     (Zfloor ((zs - zmin) / c_dz c) - Zfloor ((ze - zs) / c_dz c) <= iz < Zfloor ((zs - zmin) / c_dz c))%Z -> (0 <= iz)%Z -> ig_arr g' f iz ir = zero) /\
  (forall iz ir, ~ (concerned mi (Z.of_nat n) g f /\ zmin <= zs < zmax /\
     (Zfloor ((zs - zmin) / c_dz c) - Zfloor ((ze - zs) / c_dz c) <= iz < Zfloor ((zs - zmin) / c_dz c))%Z /\ (0 <= iz)%Z) -> ig_arr g' f iz ir = ig_arr g f iz ir).
Proof. exact @mirror_exact. Qed.
Print Assumptions C47_slab_partial.

(** In a boosted frame, the planes z_start and z_end of that slab are the Lorentz transforms of the planes at rest in the lab: the
    event that has the lab position z (at whatever lab time T) and the boosted time t has the boosted position used. *)
Theorem C47_boosted_plane : forall cl mi g t z T, m_gamma mi = Some g -> 1 <= g -> 0 < cl ->
  let beta := sqrt (1 - 1 / g ^ 2) in t = g * (T - beta * z / cl) -> mirror_z cl mi t z = g * (z - beta * cl * T).
Proof.
  intros cl mi g t z T M G C beta ->. unfold mirror_z. rewrite M. fold beta.
  assert (B2 : beta * beta = 1 - 1 / g ^ 2).
  { apply sqrt_sqrt. assert (/ g ^ 2 <= 1) by (rewrite <- Rinv_1; apply Rinv_le_contravar; [lra|nra]). unfold Rdiv. lra. }
  replace (1 / g * z - beta * cl * (g * (T - beta * z / cl))) with (1 / g * z - g * beta * cl * T + g * (beta * beta) * z) by (field; lra).
  rewrite B2. field. lra.
Qed.
Print Assumptions C47_boosted_plane.

(** The claim fails for every mirror: whatever the mirror, the decomposition and the fields, no value at a cell whose centre
    is between z_start and z_end is changed. *)
Theorem C47_never_between_refuted : forall {A} (zero : A) cl mi c t (l : list igrid) zmin zmax n g f iz ir,
  get_zmin_zmax c true true true (Some (c_rank c)) = Ok (zmin, zmax) ->
  0 < c_dz c -> Forall (fun g => ig_dz g = c_dz c) l -> nth_error l n = Some g ->
  let zs := mirror_z cl mi t (m_start mi) in let ze := mirror_z cl mi t (m_end mi) in
  zs <= centre zmin (c_dz c) iz <= ze ->
  exists l' g', set_fields_to_zero zero cl mi c t l = Ok l' /\ nth_error l' n = Some g' /\ ig_arr g' f iz ir = ig_arr g f iz ir.
Proof.
  intros A zero cl mi c t l zmin zmax n g f iz ir Hz D U Hn zs ze [H1 H2].
  destruct (mirror_exact zero cl mi c t l zmin zmax n g f Hz D U Hn ltac:(unfold zs, ze in *; lra)) as (l' & g' & E & _ & N & _ & _ & _ & Q).
  exists l', g'. split; [exact E|]. split; [exact N|]. apply Q. intros (_ & _ & [_ J] & _). exact (above zmin (c_dz c) zs iz D H1 J).
Qed.
Print Assumptions C47_never_between_refuted.

(** A grid of 8 rows on [0, 8), a field equal to 1 everywhere, a mirror from 3 to 5: rows 3 and 4 keep the value 1, and
    rows 1 and 2, which are not between z_start and z_end, are zeroed; a mirror from 3 to 3.9 zeroes nothing. *)
Definition ex_comm : comm :=
  {| c_rank := 0; c_size := 1; c_left := Some 0%Z; c_right := Some 0%Z; c_Nz := 8; c_zmin := 0; c_dz := 1; c_nguard := 0; c_nzdamp := 0; c_ninject := 0; c_period := 1 |}.
Definition ex_interp : list (@igrid Z) := [ {| ig_pml := false; ig_dz := 1; ig_arr := fun _ _ _ => 1%Z |} ].
Definition row_after (z_end : R) (iz : Z) : option Z :=
  match bind (mirror_init 3 z_end None All) (fun mi => set_fields_to_zero 0%Z 1 mi ex_comm 0 ex_interp) with
  | Ok [g] => Some (ig_arr g Er iz 0) | _ => None end.
Lemma ex_rows z_end : 3 <= z_end -> forall iz, (0 <= iz)%Z -> row_after z_end iz =
  Some (if ((3 - Zfloor (z_end - 3) <=? iz) && (iz <? 3))%Z then 0 else 1)%Z.
Proof.
  intros He iz Hi. unfold row_after. cbn [mirror_init bind].
  destruct (mirror_exact 0%Z 1 {| m_start := 3; m_end := z_end; m_gamma := None; m_modes := None |} ex_comm 0 ex_interp (0 + IZR 0 * 1) (0 + IZR 0 * 1 + IZR 8 * 1) 0
    {| ig_pml := false; ig_dz := 1; ig_arr := fun _ _ _ => 1%Z |} Er) as (l' & g' & E & L & N & _ & _ & Q1 & Q2);
    [reflexivity|cbn; lra|repeat constructor|reflexivity|cbn; lra|].
  rewrite E. destruct l' as [|x [|]]; try discriminate. cbn in N. injection N as ->.
  cbn [mirror_z m_gamma m_start m_end c_dz ex_comm] in Q1, Q2.
  replace ((3 - (0 + 0 * 1)) / 1) with 3 in Q1, Q2 by field. replace ((z_end - 3) / 1) with (z_end - 3) in Q1, Q2 by field. rewrite (Zfloor_IZR 3) in Q1, Q2.
  destruct (Z.leb_spec (3 - Zfloor (z_end - 3)) iz), (Z.ltb_spec iz 3); cbn [andb].
  1: rewrite Q1; [reflexivity|split; exact I|lra|lia|lia].
  all: rewrite Q2; [reflexivity|intros (_ & _ & J & _); lia].
Qed.
Theorem C47_refuted : exists z_start z_end, z_start = 3 /\ z_end = 5 /\
  z_start < centre 0 1 3 < z_end /\ z_start < centre 0 1 4 < z_end /\ centre 0 1 1 < z_start /\ centre 0 1 2 < z_start /\
  map (row_after z_end) (range 8) = map Some [1; 0; 0; 1; 1; 1; 1; 1]%Z /\
  map (row_after (39 / 10)) (range 8) = map Some [1; 1; 1; 1; 1; 1; 1; 1]%Z.
Proof.
  exists 3, 5. unfold centre. do 6 (split; [lra|]). change (range 8) with [0; 1; 2; 3; 4; 5; 6; 7]%Z. cbn [map].
  rewrite !ex_rows by first [lra|lia]. replace (5 - 3) with 2 by ring. rewrite (Zfloor_IZR 2).
  replace (Zfloor (39 / 10 - 3)) with 0%Z by (symmetry; apply Zfloor_imp; cbn; lra). split; reflexivity.
Qed.
Print Assumptions C47_refuted.
