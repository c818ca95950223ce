(** C62: the push of the fields is the exact solution of Maxwell's equations. *)
From Verif Require Import Base Fourier_Lib Deposit_Model Cross_Model Psatd_Model Psatd_Spec Psatd_Proofs Psatd_Vacuum Psatd_Extra Psatd_Props
  Maxwell_Spec Maxwell_Proofs Maxwell_Flow Maxwell_Push.
From Coq Require Import Reals Lra Lia.
From Coquelicot Require Import Coquelicot.
Open Scope C_scope.

(** Standard scheme: every mode, any current, charge densities that are consistent with it. *)
Theorem C62_standard : forall c mu_0 epsilon_0 tr kz kr dt s E' B', constants c mu_0 epsilon_0 -> (0 < dt)%R ->
  gauss epsilon_0 kz kr s -> div kz kr (B_of s) = 0 ->
  conserves Standard kz dt (rho_prev s) (rho_next s) (div kz kr (J_of s)) ->
  let s' := push c mu_0 epsilon_0 (psatd_coeffs c mu_0 epsilon_0 None false kz kr dt) tr kz kr s in
  evolves c epsilon_0 Standard kz kr dt (J_of s) (E_of s) (B_of s) E' B' <-> E' = E_of s' /\ B' = B_of s'.
Proof.
  intros c mu_0 epsilon_0 tr kz kr dt s E' B' (Hc & He & Hmu) Hd G D Q.
  apply (push_iff c mu_0 epsilon_0 Hc He Hmu Standard); auto; [cbn [speed]; nra|]. intros [N _]. cbn [speed] in N. lra.
Qed.
Print Assumptions C62_standard.
(** When the charge densities are not used (use_true_rho = False), they do not matter. *)
Theorem C62_no_rho : forall c mu_0 epsilon_0 kz kr dt s E' B', constants c mu_0 epsilon_0 -> (0 < dt)%R -> div kz kr (B_of s) = 0 ->
  let s' := push c mu_0 epsilon_0 (psatd_coeffs c mu_0 epsilon_0 None false kz kr dt) false kz kr s in
  evolves c epsilon_0 Standard kz kr dt (J_of s) (E_of s) (B_of s) E' B' <-> E' = E_of s' /\ B' = B_of s'.
Proof.
  intros c mu_0 epsilon_0 kz kr dt s E' B' (Hc & He & Hmu) Hd D.
  apply (push_iff_no_rho c mu_0 epsilon_0 Hc He Hmu Standard); auto; [cbn [speed]; nra|]. intros [N _]. cbn [speed] in N. lra.
Qed.
Print Assumptions C62_no_rho.
(** A whole run of the standard scheme. *)
Theorem C62_run : forall c mu_0 epsilon_0 cc tr kz kr dt xs s E' B', constants c mu_0 epsilon_0 -> (0 < dt)%R ->
  gauss epsilon_0 kz kr s -> div kz kr (B_of s) = 0 -> all_conserve Standard kz kr dt (rho_prev s) xs ->
  exists s', field_steps c mu_0 epsilon_0 (psatd_coeffs c mu_0 epsilon_0 None false kz kr dt) cc tr false false kz kr xs s = Ok s' /\
  (evolves_all c epsilon_0 Standard kz kr dt xs (E_of s) (B_of s) E' B' <-> E' = E_of s' /\ B' = B_of s').
Proof.
  intros c mu_0 epsilon_0 cc tr kz kr dt xs s E' B' X Hd G D Q.
  destruct (C33_standard c mu_0 epsilon_0 cc tr kz kr dt xs s X Hd G Q) as (s' & R & _). exists s'. split; [exact R|]. destruct X as (Hc & He & Hmu).
  apply (steps_exact c mu_0 epsilon_0 Hc He Hmu Standard cc tr kz kr dt xs Hd); auto; [cbn [speed]; nra|]. intros [N _]. cbn [speed] in N. lra.
Qed.
Print Assumptions C62_run.

(** Moving schemes. Missing are speeds of c and above, and the modes for which kz V dt is a multiple of 2 pi
    (not 0), where it is false (C62_refuted); on the grid, C33_no_resonance excludes them. *)
Theorem C62_partial : forall c mu_0 epsilon_0 f tr kz kr dt s E' B', constants c mu_0 epsilon_0 -> (0 < dt)%R ->
  (Rabs (speed f) < c)%R -> ~ resonant f kz dt -> div kz kr (B_of s) = 0 ->
  (tr = true -> gauss epsilon_0 kz kr s /\ conserves f kz dt (rho_prev s) (rho_next s) (div kz kr (J_of s))) ->
  let s' := push c mu_0 epsilon_0 (psatd_coeffs c mu_0 epsilon_0 (frame_V f) (frame_gal f) kz kr dt) tr kz kr s in
  evolves c epsilon_0 f kz kr dt (J_of s) (E_of s) (B_of s) E' B' <-> E' = E_of s' /\ B' = B_of s'.
Proof.
  intros c mu_0 epsilon_0 f tr kz kr dt s E' B' (Hc & He & Hmu) Hd V N D Q. assert (W : (speed f ^ 2 < c ^ 2)%R) by (apply Rabs_def2 in V; nra).
  destruct tr.
  - destruct (Q eq_refl). apply (push_iff c mu_0 epsilon_0 Hc He Hmu f); auto.
  - apply (push_iff_no_rho c mu_0 epsilon_0 Hc He Hmu f); auto.
Qed.
Print Assumptions C62_partial.
Theorem C62_run_partial : forall c mu_0 epsilon_0 f cc tr kz kr dt xs s E' B', constants c mu_0 epsilon_0 -> (0 < dt)%R ->
  (Rabs (speed f) < c)%R -> ~ resonant f kz dt ->
  gauss epsilon_0 kz kr s -> div kz kr (B_of s) = 0 -> all_conserve f kz kr dt (rho_prev s) xs ->
  exists s', field_steps c mu_0 epsilon_0 (psatd_coeffs c mu_0 epsilon_0 (frame_V f) (frame_gal f) kz kr dt) cc tr false false kz kr xs s = Ok s' /\
  (evolves_all c epsilon_0 f kz kr dt xs (E_of s) (B_of s) E' B' <-> E' = E_of s' /\ B' = B_of s').
Proof.
  intros c mu_0 epsilon_0 f cc tr kz kr dt xs s E' B' X Hd V N G D Q.
  destruct (C33_partial c mu_0 epsilon_0 f cc tr kz kr dt xs s X Hd V N G Q) as (s' & R & _). exists s'. split; [exact R|]. destruct X as (Hc & He & Hmu).
  apply (steps_exact c mu_0 epsilon_0 Hc He Hmu f cc tr kz kr dt xs Hd); auto. apply Rabs_def2 in V; nra.
Qed.
Print Assumptions C62_run_partial.

(** A resonant mode: the push gives fields that are not a solution. *)
Theorem C62_refuted : forall c mu_0 epsilon_0, constants c mu_0 epsilon_0 ->
  exists V kz kr dt s, (0 < V < c)%R /\ (0 < dt)%R /\ gauss epsilon_0 kz kr s /\ div kz kr (B_of s) = 0 /\
  conserves (Galilean V) kz dt (rho_prev s) (rho_next s) (div kz kr (J_of s)) /\
  let s' := push c mu_0 epsilon_0 (psatd_coeffs c mu_0 epsilon_0 (Some V) true kz kr dt) true kz kr s in
  ~ evolves c epsilon_0 (Galilean V) kz kr dt (J_of s) (E_of s) (B_of s) (E_of s') (B_of s').
Proof.
  intros c mu_0 epsilon_0 (Hc & He & Hmu). exists (c / 2)%R, 1%R, (3 / 4)%R, (res_dt c), (res_state epsilon_0).
  assert (Hd : (0 < res_dt c)%R) by (unfold res_dt; pose proof PI_RGT_0; apply Rdiv_lt_0_compat; lra).
  split; [lra|]. split; [exact Hd|]. split; [apply res_gauss; auto|]. split; [unfold div, B_of, res_state; cbn [vp vm vz Bp Bm Bz]; ring|].
  assert (Q : conserves (Galilean (c / 2)) 1 (res_dt c) (rho_prev (res_state epsilon_0)) (rho_next (res_state epsilon_0)) (div 1 (3 / 4) (J_of (res_state epsilon_0)))) by (apply res_conserves; auto).
  split; [exact Q|]. intros s' X. apply (res_not_gauss c mu_0 epsilon_0 Hc He).
  apply (evolves_gauss c epsilon_0 He (Galilean (c / 2)) 1 (3 / 4) (res_dt c) (res_state epsilon_0)); auto. apply res_gauss; auto.
Qed.
Print Assumptions C62_refuted.

(** ** Concrete cases. The Galilean run of C33_met has div B = 0. *)
Example C62_met : div 1 (3 / 4) (B_of (res_state 1)) = 0 /\ gauss 1 1 (3 / 4) (res_state 1).
Proof. split; [unfold div, B_of, res_state; cbn [vp vm vz Bp Bm Bz]; ring|apply res_gauss; lra]. Qed.
(** A uniform current builds up a field E = - J t / epsilon_0. *)
Example C62_met_uniform : evolves 1 2 Standard 0 0 3 {| vp := 0; vm := 0; vz := 4 |} {| vp := 0; vm := 0; vz := 0 |} {| vp := 0; vm := 0; vz := 0 |}
  {| vp := 0; vm := 0; vz := - 6 |} {| vp := 0; vm := 0; vz := 0 |}.
Proof.
  exists (fun t => {| vp := 0; vm := 0; vz := RtoC (- 2 * t) |}), (fun t => {| vp := 0; vm := 0; vz := 0 |}).
  assert (Z : forall t (l : C), l = 0 -> der (fun _ => RtoC 0) t l) by (intros t l ->; split; cbn; auto_derive; auto).
  split; [|repeat split; apply vec_ext; cbn [vp vm vz]; auto; rewrite <- ?RtoC_opp; apply f_equal; ring].
  intros t. cbn [drift current]. split; (split; [|split]); cbn [vadd vscal curl vp vm vz]; try (apply Z; apply injective_projections; simpl; field).
  split; simpl; auto_derive; auto; field.
Qed.
