From Coq Require Import ZArith Reals List String Lra Lia Permutation.
From Verif Require Import Base Decomp_Model Boost_Model Bunch_Model Bunch_Proofs Pdiag_Model Pdiag_Spec Pfile_Model Pfile_Spec Pfile_Proofs Trip_Spec.
Import ListNotations.
Open Scope R_scope.

Lemma reads_fun t p l l' : reads t p l -> reads t p l' -> l = l'.
Proof.
  intros (u & U & H) (u' & U' & H'). rewrite U in U'. injection U' as <-.
  destruct H as [(d & D & ->)|(v & n & D & V & N & ->)], H' as [(d' & D' & ->)|(v' & n' & D' & V' & N' & ->)]; rewrite D in D'; try discriminate D'.
  - injection D' as <-. reflexivity.
  - rewrite V in V'. injection V' as <-. rewrite N in N'. injection N' as N'. apply INR_eq in N'. subst n'. reflexivity.
Qed.
Definition beam_of (p : pt) : beam := {| b_x := x p; b_y := y p; b_z := z p; b_ux := ux p; b_uy := uy p; b_uz := uz p; b_w := w p |}.
Lemma beams k : k <> 0 -> forall (l : list pt) (bs : list beam), map x l = map b_x bs -> map y l = map b_y bs -> map z l = map b_z bs -> map w l = map b_w bs ->
  map (fun p => k * ux p) l = map (fun a => k * b_ux a) bs -> map (fun p => k * uy p) l = map (fun a => k * b_uy a) bs -> map (fun p => k * uz p) l = map (fun a => k * b_uz a) bs ->
  bs = map beam_of l.
Proof.
  intros K. induction l as [|p l IH]; intros [|b bs] A B C D E F G; cbn [map] in *; try discriminate A; [reflexivity|].
  injection A as A A'. injection B as B B'. injection C as C C'. injection D as D D'. injection E as E E'. injection F as F F'. injection G as G G'.
  apply Rmult_eq_reg_l in E; [|exact K]. apply Rmult_eq_reg_l in F; [|exact K]. apply Rmult_eq_reg_l in G; [|exact K].
  f_equal; [|apply IH; assumption]. destruct b. unfold beam_of. cbn in *. congruence.
Qed.
Lemma scale {A B} k (f : A -> R) (g : B -> R) l m : map f l = map g m -> map (fun a => k * f a) l = map (fun a => k * g a) m.
Proof. intros E. rewrite <- (map_map f (Rmult k)), E, map_map. reflexivity. Qed.
Lemma sum_beams f l : fold_right Rplus 0 (map f (map beam_of l)) = total (fun p => f (beam_of p)) l.
Proof. unfold total. rewrite map_map. reflexivity. Qed.
Lemma centred z_off l : total w l <> 0 ->
  openpmd_beam z_off (map beam_of l) = Ok (map (fun p => {| b_x := x p; b_y := y p; b_z := z p - centroid l + z_off; b_ux := ux p; b_uy := uy p; b_uz := uz p; b_w := w p |}) l).
Proof.
  intros N. unfold openpmd_beam. cbv zeta. rewrite !sum_beams. cbn [beam_of b_w b_z]. fold (total w l). destruct (Req_EM_T _ 0) as [E|_]; [contradiction|].
  f_equal. rewrite map_map. reflexivity.
Qed.
Lemma copies z_off l cl boost : (forall p, In p l -> consistent p) ->
  to_boosted cl boost (map (fun p => {| b_x := x p; b_y := y p; b_z := z p - centroid l + z_off; b_ux := ux p; b_uy := uy p; b_uz := uz p; b_w := w p |}) l)
  = map (fun p => in_frame cl boost (copy_of (z_off - centroid l) p)) l.
Proof.
  intros H. unfold to_boosted. rewrite map_map. apply map_ext_in. intros p I. cbn. unfold copy_of, in_frame. cbn. rewrite (H p I).
  replace (z p - centroid l + z_off) with (z p + (z_off - centroid l)) by ring. reflexivity.
Qed.
Lemma shifted_mean s l : total w l <> 0 -> total (fun p => (z p + s) * w p) l / total w l = centroid l + s.
Proof.
  intros N. unfold centroid. assert (E : total (fun p => (z p + s) * w p) l = total (fun p => z p * w p) l + s * total w l).
  { unfold total. clear N. induction l as [|p l IH]; cbn [map fold_right]; [ring|]. rewrite IH. ring. }
  rewrite E. field. exact N.
Qed.
