(** Proofs for C93. *)
From Coq Require Import Reals Lra Lia.
From Coquelicot Require Import Complex.
From Verif Require Import Base Fourier_Lib Hankel_Model ModK_Model Decomp_Model StReach_Model StReach_Spec.
Import ListNotations.
Open Scope C_scope.

Section Conv.
Variable N : nat.
Hypothesis HN : (0 < N)%nat.

Lemma dft_impulse k : dft N impulse k = 1.
Proof.
  unfold dft. rewrite (csum_single N _ 0%nat HN).
  - unfold impulse; simpl. replace (- (2 * PI * 0 * INR k / INR N))%R with 0%R; [rewrite cis_0; ring|].
    field. apply not_0_INR. lia.
  - intros j _ Hj. unfold impulse. destruct (Nat.eqb_spec j 0); [contradiction|ring].
Qed.
Lemma response_idft G i : response N G i = idft N G i.
Proof.
  unfold response, advance, idft. f_equal. apply csum_ext. intros k _. rewrite dft_impulse. ring.
Qed.
Lemma idft_mod G (d : Z) :
  idft N G (Z.to_nat (d mod Z.of_nat N)) = csum N (fun k => G k * cis (2 * PI * IZR d * INR k / INR N)) / RtoC (INR N).
Proof.
  unfold idft. f_equal. apply csum_ext. intros k _. f_equal.
  assert (P : (0 < INR N)%R) by (apply lt_0_INR; auto).
  pose proof (Z.mod_pos_bound d (Z.of_nat N) ltac:(lia)) as B.
  replace (2 * PI * IZR d * INR k / INR N)%R with (2 * PI * IZR (d * Z.of_nat k) / INR N)%R
    by (rewrite mult_IZR, <- INR_IZR_INZ; field; lra).
  rewrite INR_IZR_INZ, Z2Nat.id by lia.
  replace (2 * PI * IZR (d mod Z.of_nat N) * INR k / INR N)%R with (2 * PI * IZR ((d mod Z.of_nat N) * Z.of_nat k) / INR N)%R
    by (rewrite mult_IZR, <- INR_IZR_INZ; field; lra).
  rewrite (cis_mod N (d * Z.of_nat k)), (cis_mod N (d mod Z.of_nat N * Z.of_nat k)) by auto.
  rewrite Z.mul_mod_idemp_l by lia. reflexivity.
Qed.
Lemma conv G f j :
  advance N G f j = csum N (fun m => response N G (Z.to_nat ((Z.of_nat j - Z.of_nat m) mod Z.of_nat N)) * f m).
Proof.
  assert (P : (0 < INR N)%R) by (apply lt_0_INR; auto).
  unfold advance, idft at 1. unfold Cdiv. rewrite <- csum_scal_r.
  rewrite (csum_ext N _ (fun k => csum N (fun m => G k * cis (2 * PI * IZR (Z.of_nat j - Z.of_nat m) * INR k / INR N) * / RtoC (INR N) * f m))).
  - rewrite csum_swap. apply csum_ext. intros m _. rewrite csum_scal_r. f_equal.
    rewrite response_idft, idft_mod. rewrite csum_scal_r. reflexivity.
  - intros k _. unfold dft. rewrite <- csum_scal, <- !csum_scal_r. apply csum_ext. intros m _.
    replace (2 * PI * IZR (Z.of_nat j - Z.of_nat m) * INR k / INR N)%R with (2 * PI * INR j * INR k / INR N + - (2 * PI * INR m * INR k / INR N))%R
      by (rewrite minus_IZR, <- !INR_IZR_INZ; field; lra).
    rewrite cis_add. ring.
Qed.
Lemma Cmod_csum n f : (Cmod (csum n f) <= sum n (fun k => Cmod (f k)))%R.
Proof.
  induction n as [|n IH]; cbn [csum sum]; [rewrite Cmod_0; lra|].
  eapply Rle_trans; [apply Cmod_triangle|]. lra.
Qed.
Lemma sum_le n f g : (forall k, (k < n)%nat -> (f k <= g k)%R) -> (sum n f <= sum n g)%R.
Proof. induction n as [|n IH]; intros H; cbn [sum]; [lra|]. apply Rplus_le_compat; [apply IH; intros; apply H; lia|apply H; lia]. Qed.
Lemma sum_scal n a f : sum n (fun k => (a * f k)%R) = (a * sum n f)%R.
Proof. induction n as [|n IH]; cbn [sum]; [ring|]. rewrite IH. ring. Qed.
Lemma sum_ext n f g : (forall k, (k < n)%nat -> f k = g k) -> sum n f = sum n g.
Proof. induction n as [|n IH]; intros H; cbn [sum]; auto. rewrite IH, H; auto. Qed.
Lemma sum_plus n f g : sum n (fun k => (f k + g k)%R) = (sum n f + sum n g)%R.
Proof. induction n as [|n IH]; cbn [sum]; [ring|]. rewrite IH. ring. Qed.
Lemma csum_RtoC n (f : nat -> R) : csum n (fun k => RtoC (f k)) = RtoC (sum n f).
Proof. induction n as [|n IH]; cbn [csum sum]; auto. rewrite IH, RtoC_plus. reflexivity. Qed.
Lemma csum_minus n f g : csum n f - csum n g = csum n (fun k => f k - g k).
Proof. induction n as [|n IH]; cbn [csum]; [ring|]. rewrite <- IH. ring. Qed.

Lemma local G n eps f g j : (0 <= eps)%R ->
  (forall i, (n <= i)%nat -> (i + n <= N)%nat -> (Cmod (response N G i) <= eps)%R) ->
  (forall m, (m < N)%nat -> ~ apart N n m j -> f m = g m) ->
  (Cmod (advance N G f j - advance N G g j)%C <= eps * sum N (fun m => Cmod (f m - g m)%C))%R.
Proof.
  intros He HG Hfg. rewrite !conv, csum_minus. eapply Rle_trans; [apply Cmod_csum|].
  rewrite <- sum_scal. apply sum_le. intros m Hm. cbv beta.
  set (i := Z.to_nat ((Z.of_nat j - Z.of_nat m) mod Z.of_nat N)).
  replace (response N G i * f m - response N G i * g m) with (response N G i * (f m - g m)) by ring.
  rewrite Cmod_mult. pose proof (Cmod_ge_0 (f m - g m)).
  pose proof (Z.mod_pos_bound (Z.of_nat j - Z.of_nat m) (Z.of_nat N) ltac:(lia)) as B.
  destruct (Z_le_dec (Z.of_nat n) ((Z.of_nat j - Z.of_nat m) mod Z.of_nat N)) as [A1|A1].
  1: destruct (Z_le_dec ((Z.of_nat j - Z.of_nat m) mod Z.of_nat N) (Z.of_nat N - Z.of_nat n)) as [A2|A2].
  1: { apply Rmult_le_compat_r; auto. apply HG; unfold i; lia. }
  all: rewrite (Hfg m Hm) by (unfold apart; lia); replace (g m - g m) with (RtoC 0) by ring; rewrite Cmod_0; lra.
Qed.

Lemma Cmod_sq z : RtoC (Cmod z ^ 2) = z * Cconj z.
Proof.
  destruct z as [a b]. unfold Cmod, Cconj, Cmult; cbn [fst snd]. rewrite pow2_sqrt by nra.
  unfold RtoC. f_equal; ring.
Qed.
Lemma Cmult_conj (a b : C) : Cconj (a * b) = Cconj a * Cconj b.
Proof. unfold Cconj, Cmult; cbn. f_equal; ring. Qed.
Lemma Cconj_div (a b : C) : b <> 0 -> Cconj (a / b) = Cconj a / Cconj b.
Proof.
  intros H. assert (H' : Cconj b <> 0).
  { intros E. apply H. destruct b as [x y]. assert (E1 := f_equal fst E). assert (E2 := f_equal snd E). cbn in E1, E2. unfold RtoC. f_equal; lra. }
  assert (Cconj (a / b) * Cconj b = Cconj a). { rewrite <- Cmult_conj. f_equal. field. exact H. }
  rewrite <- H0. field. exact H'.
Qed.
Lemma Cconj_R x : Cconj (RtoC x) = RtoC x.
Proof. unfold Cconj, RtoC; cbn. f_equal. ring. Qed.
Lemma parseval G : sum N (fun i => (Cmod (idft N G i) ^ 2)%R) = (sum N (fun k => (Cmod (G k) ^ 2)%R) / INR N)%R.
Proof.
  assert (P : (0 < INR N)%R) by (apply lt_0_INR; auto). pose proof (INR_C_nonzero N HN) as Z0.
  apply RtoC_inj. rewrite RtoC_div by lra. rewrite <- !csum_RtoC.
  rewrite (csum_ext N _ (fun i => csum N (fun k => csum N (fun l => G k * Cconj (G l) * cis (2 * PI * IZR (Z.of_nat k - Z.of_nat l) * INR i / INR N))) * / (RtoC (INR N) * RtoC (INR N)))).
  - rewrite csum_scal_r. rewrite csum_swap.
    rewrite (csum_ext N _ (fun k => RtoC (INR N) * RtoC (Cmod (G k) ^ 2))).
    + rewrite csum_scal. field. auto.
    + intros k Hk. rewrite csum_swap. rewrite (csum_single N _ k Hk).
      * rewrite csum_scal, orthogonality by auto. rewrite Z.sub_diag, Z.mod_0_l by lia. simpl Z.eqb. cbv iota. rewrite <- Cmod_sq. ring.
      * intros l Hl D. rewrite csum_scal, orthogonality by auto.
        destruct (Z.eqb_spec ((Z.of_nat k - Z.of_nat l) mod Z.of_nat N) 0) as [E|E]; [|ring].
        exfalso. apply Z.mod_divide in E; [|lia]. destruct E as [q E]. assert (q = 0)%Z by nia. lia.
  - intros i Hi. rewrite Cmod_sq. unfold idft. rewrite Cconj_div by auto. rewrite Cconj_R, csum_conj.
    transitivity (csum N (fun k => G k * cis (2 * PI * INR i * INR k / INR N)) * csum N (fun k => Cconj (G k * cis (2 * PI * INR i * INR k / INR N))) * / (RtoC (INR N) * RtoC (INR N))); [field; auto|].
    f_equal. rewrite <- csum_scal_r. apply csum_ext. intros k Hk. rewrite <- csum_scal. apply csum_ext. intros l Hl.
    rewrite Cmult_conj, <- cis_neg.
    replace (2 * PI * IZR (Z.of_nat k - Z.of_nat l) * INR i / INR N)%R with (2 * PI * INR i * INR k / INR N + - (2 * PI * INR i * INR l / INR N))%R
      by (rewrite minus_IZR, <- !INR_IZR_INZ; field; lra).
    rewrite cis_add. ring.
Qed.
Lemma mirror G i : (i <= N)%nat -> idft N (fun k => Cconj (G k)) (N - i) = Cconj (idft N G i).
Proof.
  intros Hi. assert (P : (0 < INR N)%R) by (apply lt_0_INR; auto). pose proof (INR_C_nonzero N HN) as Z0.
  unfold idft. rewrite Cconj_div by auto. rewrite Cconj_R, csum_conj. f_equal. apply csum_ext. intros k _.
  rewrite Cmult_conj. f_equal. rewrite <- cis_neg, minus_INR by auto.
  replace (2 * PI * (INR N - INR i) * INR k / INR N)%R with (- (2 * PI * INR i * INR k / INR N) + 2 * PI * IZR (Z.of_nat k))%R
    by (rewrite <- INR_IZR_INZ; field; lra).
  apply cis_period.
Qed.
Lemma Cmod_conj z : Cmod (Cconj z) = Cmod z.
Proof. unfold Cmod, Cconj; cbn. f_equal. ring. Qed.

Lemma symbol_conj w kp T d kz : Cconj (symbol w kp T d kz) = symbol w kp T (- d) kz.
Proof.
  unfold symbol. rewrite Cmult_conj, Cconj_R, <- cis_neg. do 2 f_equal. ring.
Qed.
Lemma response_mirror w kz kp T d i : (i <= N)%nat ->
  Cmod (response N (fun n => symbol w kp T d (kz n)) i) = Cmod (response N (fun n => symbol w kp T (- d) (kz n)) (N - i)).
Proof.
  intros Hi. rewrite !response_idft. rewrite <- Cmod_conj, <- mirror by auto. f_equal. unfold idft. f_equal. apply csum_ext. intros k _.
  rewrite symbol_conj. reflexivity.
Qed.
Lemma total_mirror kz kp T d i : (i <= N)%nat -> total N kz kp T d i = total N kz kp T (- d) (N - i).
Proof. intros Hi. unfold total. rewrite !(response_mirror _ kz kp T d i Hi). reflexivity. Qed.
Lemma total_sq kz kp T d i : (total N kz kp T d i ^ 2 =
  Cmod (response N (fun n => symbol Ccos kp T d (kz n)) i) ^ 2 + Cmod (response N (fun n => symbol Csinz kp T d (kz n)) i) ^ 2 +
  Cmod (response N (fun n => symbol Csinp kp T d (kz n)) i) ^ 2)%R.
Proof. unfold total. apply pow2_sqrt. repeat apply Rplus_le_le_0_compat; apply pow2_ge_0. Qed.
Lemma wave_pos kp kz : (kp <> 0 -> 0 < wave kp kz)%R.
Proof. intros H. apply sqrt_lt_R0. assert (0 < kp ^ 2)%R by (destruct (Rdichotomy _ _ H); nra). pose proof (pow2_ge_0 kz). lra. Qed.
Lemma symbol_mod w kp T d kz : Cmod (symbol w kp T d kz) = Rabs match w with
         | Ccos => cos (wave kp kz * T)
         | Csinz => sin (wave kp kz * T) * kz / wave kp kz
         | Csinp => sin (wave kp kz * T) * kp / wave kp kz
         end.
Proof. unfold symbol. rewrite Cmod_mult, Cmod_cis, Cmod_R. apply Rmult_1_l. Qed.
Lemma symbols_one kp T d kz : kp <> 0%R ->
  (Cmod (symbol Ccos kp T d kz) ^ 2 + Cmod (symbol Csinz kp T d kz) ^ 2 + Cmod (symbol Csinp kp T d kz) ^ 2 = 1)%R.
Proof.
  intros H. rewrite !symbol_mod, !pow2_abs. pose proof (wave_pos kp kz H) as W.
  assert (W2 : (wave kp kz ^ 2 = kz ^ 2 + kp ^ 2)%R).
  { unfold wave. apply pow2_sqrt. pose proof (pow2_ge_0 kz). pose proof (pow2_ge_0 kp). lra. }
  set (w := wave kp kz) in *. pose proof (sin2_cos2 (w * T)) as E. unfold Rsqr in E.
  transitivity (cos (w * T) ^ 2 + sin (w * T) ^ 2 * ((kz ^ 2 + kp ^ 2) / w ^ 2))%R; [field; lra|].
  rewrite <- W2. replace (w ^ 2 / w ^ 2)%R with 1%R by (field; lra). lra.
Qed.
Lemma sum_one n : sum n (fun _ => 1%R) = INR n.
Proof. induction n as [|n IH]; [reflexivity|]. cbn [sum]. rewrite IH, S_INR. reflexivity. Qed.
Lemma energy kz kp T d : kp <> 0%R -> sum N (fun i => (total N kz kp T d i ^ 2)%R) = 1%R.
Proof.
  intros H. assert (P : (0 < INR N)%R) by (apply lt_0_INR; auto).
  rewrite (sum_ext N _ (fun i => ((Cmod (idft N (fun n => symbol Ccos kp T d (kz n)) i) ^ 2 + Cmod (idft N (fun n => symbol Csinz kp T d (kz n)) i) ^ 2) +
    Cmod (idft N (fun n => symbol Csinp kp T d (kz n)) i) ^ 2)%R)) by (intros k _; rewrite total_sq, !response_idft; reflexivity).
  rewrite !sum_plus, !parseval.
  transitivity (sum N (fun n => ((Cmod (symbol Ccos kp T d (kz n)) ^ 2 + Cmod (symbol Csinz kp T d (kz n)) ^ 2) + Cmod (symbol Csinp kp T d (kz n)) ^ 2)%R) / INR N)%R.
  - rewrite !sum_plus. field. lra.
  - rewrite (sum_ext N _ (fun _ => 1%R)) by (intros; apply symbols_one; auto). rewrite sum_one. field. lra.
Qed.
End Conv.

Lemma total_ge0 N kz kp T d i : (0 <= total N kz kp T d i)%R.
Proof. apply sqrt_pos. Qed.
Lemma response_le_total N w kz kp T d i : (Cmod (response N (fun n => symbol w kp T d (kz n)) i) <= total N kz kp T d i)%R.
Proof.
  assert (A : (forall x s, 0 <= x -> x ^ 2 <= s -> x <= sqrt s)%R).
  { intros x s Hx Hs. rewrite <- (sqrt_pow2 x) at 1 by auto. apply sqrt_le_1_alt. exact Hs. }
  unfold total.
  set (a := response N (fun n => symbol Ccos kp T d (kz n)) i). set (b := response N (fun n => symbol Csinz kp T d (kz n)) i).
  set (e := response N (fun n => symbol Csinp kp T d (kz n)) i).
  pose proof (pow2_ge_0 (Cmod a)). pose proof (pow2_ge_0 (Cmod b)). pose proof (pow2_ge_0 (Cmod e)).
  destruct w; apply A; try apply Cmod_ge_0; fold a b e; lra.
Qed.

(** ** The model computes [total] *)
Open Scope R_scope.
Definition drift (c cdt : R) (v : option R) (ug : bool) : R :=
  if ug then match v with Some v => Rabs v * cdt / c | None => 0 end else 0.
Lemma first_below_spec x l : forall i,
  (exists n, (n < length l)%nat /\ first_below x l i = Ok (i + Z.of_nat n)%Z /\ nth n l 0 < x /\ forall m, (m < n)%nat -> x <= nth m l 0) \/
  (first_below x l i = Err IndexError /\ forall m, (m < length l)%nat -> x <= nth m l 0).
Proof.
  induction l as [|a l IH]; intros i; cbn [first_below length].
  - right. split; [reflexivity|intros; lia].
  - destruct (Rlt_dec a x) as [H|H].
    + left. exists 0%nat. split; [lia|]. split; [f_equal; lia|]. split; [exact H|intros; lia].
    + destruct (IH (i + 1)%Z) as [(n & A & B & D & E)|[A B]].
      * left. exists (S n). split; [lia|]. split; [rewrite B; f_equal; lia|]. split; [exact D|].
        intros [|m] Hm; cbn [nth]; [lra|apply E; lia].
      * right. split; [exact A|]. intros [|m] Hm; cbn [nth]; [lra|apply B; lia].
Qed.
Lemma combine_map_l (A B C D : Type) (f : A -> B) (g : A -> C) (l : list A) : combine (map f l) (map g l) = map (fun x => (f x, g x)) l.
Proof. induction l as [|a l IH]; simpl; [|rewrite IH]; reflexivity. Qed.
Lemma combine_self (A B : Type) (g : A -> B) (l : list A) : combine l (map g l) = map (fun x => (x, g x)) l.
Proof. induction l as [|a l IH]; simpl; [|rewrite IH]; reflexivity. Qed.
Lemma np_ifft_map (X : Type) (x0 : X) (g : X -> Complex.C) l : (0 < length l)%nat ->
  np_ifft (map g l) = map (response (length l) (fun n => g (nth n l x0))) (seq 0 (length l)).
Proof.
  intros Hl. unfold np_ifft. rewrite map_length. apply map_ext_in. intros i _. rewrite response_idft by auto.
  unfold idft. f_equal. apply csum_ext. intros k Hk. f_equal. rewrite (nth_indep _ _ (g x0)) by (rewrite map_length; auto). apply map_nth.
Qed.
Lemma k_pos kp kz : kp <> 0 -> 0 < k_of kp kz.
Proof. intros H. exact (wave_pos kp kz H). Qed.
Lemma reach_alpha c kz kp T v ug : kp <> 0 -> c <> 0 -> (0 < length kz)%nat -> (ug = true -> v <> None) ->
  stencil_reach c kz kp T v ug =
  first_below tiny (map (total (length kz) (fun n => nth n kz 0) kp T (drift c T v ug)) (seq 0 (length kz / 2))) 0.
Proof.
  intros Hk Hc Hl Hv. unfold stencil_reach.
  set (th := fun q => match v with Some v' => if ug then cis (Rabs v' * q * T / c / 2) else RtoC 1 | None => RtoC 1 end).
  assert (E : theta_of c v ug T kz = Ok (map th kz)).
  { unfold theta_of, th. destruct ug.
    - destruct v as [v|]; [reflexivity|]. exfalso. apply Hv; reflexivity.
    - f_equal. apply map_ext. intros q. destruct v; reflexivity. }
  assert (Hth : forall q, Cmult (th q) (th q) = cis (drift c T v ug * q)).
  { intros q. unfold th, drift. destruct ug; [destruct v as [v|]|].
    - rewrite <- cis_add. f_equal. field. exact Hc.
    - exfalso. apply Hv; reflexivity.
    - replace (0 * q) with 0 by ring. rewrite cis_0. destruct v; apply Cmult_1_l. }
  rewrite E. cbn [bind]. rewrite combine_self.
  set (x := map (fun q => (q, th q)) kz). assert (Lx : length x = length kz) by (unfold x; apply map_length).
  rewrite !(np_ifft_map _ (0, th 0)) by lia. rewrite Lx.
  unfold alpha_of. rewrite !combine_map_l by exact Complex.C. rewrite map_map, map_length, seq_length. cbn [fst snd].
  rewrite map_map. rewrite firstn_map. f_equal.
  assert (F : firstn (length kz / 2) (seq 0 (length kz)) = seq 0 (length kz / 2)).
  { assert (length kz / 2 <= length kz)%nat by (apply Nat.div_le_upper_bound; lia).
    replace (length kz) with (length kz / 2 + (length kz - length kz / 2))%nat at 2 by lia.
    rewrite seq_app, firstn_app, seq_length, Nat.sub_diag. rewrite firstn_O, app_nil_r.
    rewrite <- (seq_length (length kz / 2) 0) at 1. apply firstn_all. }
  rewrite F. apply map_ext_in. intros i _.
  assert (Q : forall n, (n < length kz)%nat -> nth n x (0, th 0) = (nth n kz 0, th (nth n kz 0))).
  { intros n _. unfold x. rewrite (map_nth (fun q => (q, th q)) kz 0 n). reflexivity. }
  assert (R : forall G w, (forall q, G (q, th q) = symbol w kp T (drift c T v ug) q) ->
     response (length kz) (fun n => G (nth n x (0, th 0))) i = response (length kz) (fun n => symbol w kp T (drift c T v ug) (nth n kz 0)) i).
  { intros G w HG. rewrite !response_idft by lia. unfold idft. f_equal. apply csum_ext. intros k Hk'. rewrite Q, HG by auto. reflexivity. }
  rewrite (R (cos_coef kp T) Ccos), (R (sin_z_coef kp T) Csinz), (R (sin_perp_coef kp T) Csinp).
  - fold (total (length kz) (fun n => nth n kz 0) kp T (drift c T v ug) i). apply Rabs_pos_eq, total_ge0.
  - intros q. unfold sin_perp_coef, symbol. cbn [fst snd]. pose proof (k_pos kp q Hk). destruct (Req_EM_T (k_of kp q) 0) as [A|A]; [lra|].
    rewrite Hth. do 2 f_equal. fold (wave kp q). change (k_of kp q) with (wave kp q) in *. field. exact A.
  - intros q. unfold sin_z_coef, symbol. cbn [fst snd]. pose proof (k_pos kp q Hk). destruct (Req_EM_T (k_of kp q) 0) as [A|A]; [lra|].
    rewrite Hth. do 2 f_equal. change (k_of kp q) with (wave kp q) in *. field. exact A.
  - intros q. unfold cos_coef, symbol. cbn [fst snd]. rewrite Hth. reflexivity.
Qed.

(** ** The wave numbers of a grid of 1, 2 and 4 cells *)
Lemma orders n_order ks dz : (0 < n_order)%Z -> Z.Even n_order -> get_modified_k ks n_order dz = Ok (map (modified_k (Z.to_nat (n_order / 2)) dz) ks).
Proof.
  intros Hp [m ->]. unfold get_modified_k.
  replace (2 * m =? -1)%Z with false by (symmetry; apply Z.eqb_neq; lia).
  replace ((2 * m) mod 2 =? 1)%Z with false by (symmetry; apply Z.eqb_neq; rewrite Z.mul_comm, Z.mod_mul; lia).
  replace (2 * m <=? 0)%Z with false by (symmetry; apply Z.leb_gt; lia). reflexivity.
Qed.
Lemma modk_zero m dz k : (forall n : nat, sin (k * INR n * dz) = 0) -> modified_k m dz k = 0.
Proof.
  intros H. unfold modified_k. induction (seq 1 m) as [|n l IH]; cbn [fold_right]; [reflexivity|].
  rewrite IH, H. unfold Rdiv. ring.
Qed.
Lemma sin_nPI n : sin (INR n * PI) = 0.
Proof.
  apply sin_eq_0_1. exists (Z.of_nat n). rewrite <- INR_IZR_INZ. reflexivity.
Qed.
Lemma grid1 dz : map (kz_true 1 dz) (range 1) = [kz_true 1 dz 0].
Proof. reflexivity. Qed.
Lemma grid2 n_order dz : (0 < n_order)%Z -> Z.Even n_order -> dz <> 0 ->
  get_modified_k (map (kz_true 2 dz) (range 2)) n_order dz = Ok [0; 0].
Proof.
  intros H1 H2 Hd. rewrite orders by auto. change (range 2) with [0; 1]%Z. cbn [map]. f_equal. f_equal; [|f_equal]; apply modk_zero; intros n.
  - unfold kz_true. cbn. replace (2 * PI * (0 / (2 * dz)) * INR n * dz) with 0 by (field; auto). apply sin_0.
  - unfold kz_true. cbn. replace (2 * PI * (-1 / (2 * dz)) * INR n * dz) with (- (INR n * PI)) by (field; auto). rewrite sin_neg, sin_nPI. ring.
Qed.
Lemma grid4 dz : dz <> 0 -> get_modified_k (map (kz_true 4 dz) (range 4)) 2 dz = Ok [0; 1 / dz; 0; - (1 / dz)].
Proof.
  intros Hd. rewrite orders by (try lia; exists 1%Z; reflexivity). change (range 4) with [0; 1; 2; 3]%Z.
  change (Z.to_nat (2 / 2)) with 1%nat. cbn [map]. f_equal.
  assert (E : forall k, modified_k 1 dz k = sin (k * dz) / dz).
  { intros k. unfold modified_k. cbn [seq fold_right stencil_coef]. replace (INR 1) with 1 by reflexivity. replace (k * 1 * dz) with (k * dz) by ring. field. exact Hd. }
  rewrite !E. unfold kz_true. cbn [Z.ltb Z.compare Z.mul Pos.mul Pos.compare Pos.compare_cont Z.sub Z.add Z.opp Z.pos_sub Pos.pred_double Z.pred_double Z.succ_double Z.double].
  f_equal; [|f_equal; [|f_equal; [|f_equal]]].
  - replace (2 * PI * (0 / (4 * dz)) * dz) with 0 by (field; auto). rewrite sin_0. field; auto.
  - replace (2 * PI * (1 / (4 * dz)) * dz) with (PI / 2) by (field; auto). rewrite sin_PI2. field; auto.
  - replace (2 * PI * (-2 / (4 * dz)) * dz) with (- PI) by (field; auto). rewrite sin_neg, sin_PI. field; auto.
  - replace (2 * PI * (-1 / (4 * dz)) * dz) with (- (PI / 2)) by (field; auto). rewrite sin_neg, sin_PI2. field; auto.
Qed.
Lemma total2 T d kz : kz 0%nat = 0 -> kz 1%nat = 0 -> total 2 kz (1 / 2) T d 0 = 1.
Proof.
  intros E0 E1. assert (W : wave (1 / 2) 0 = 1 / 2).
  { unfold wave. replace (0 ^ 2 + (1 / 2) ^ 2) with ((1 / 2) ^ 2) by ring. apply sqrt_pow2. lra. }
  assert (Rr : forall w, response 2 (fun n => symbol w (1 / 2) T d (kz n)) 0 = symbol w (1 / 2) T d 0).
  { intros w. rewrite response_idft by lia. unfold idft. cbn [csum]. rewrite E0, E1.
    replace (2 * PI * INR 0 * INR 0 / INR 2) with 0 by (simpl; field). replace (2 * PI * INR 0 * INR 1 / INR 2) with 0 by (simpl; field).
    rewrite cis_0. replace (INR 2) with 2 by (simpl; ring). replace (RtoC 2) with (Cplus (RtoC 1) (RtoC 1)) by (rewrite <- RtoC_plus; f_equal; ring). field. intros Q. apply (f_equal fst) in Q. cbn in Q. lra. }
  unfold total. rewrite !Rr, symbols_one by lra. apply sqrt_1.
Qed.

Open Scope C_scope.
Lemma quarter i k : cis (2 * PI * INR i * INR k / INR 4) = cpow Ci (i * k).
Proof.
  replace Ci with (cis (PI / 2)) by (unfold cis, Ci; rewrite cos_PI2, sin_PI2; reflexivity).
  rewrite cpow_cis, mult_INR. f_equal. replace (INR 4) with 4%R by (simpl; ring). field.
Qed.
Lemma Ci2 : Ci * Ci = - (1).
Proof. unfold Ci, Cmult, Copp, RtoC; cbn. f_equal; ring. Qed.
Lemma idft4_0 G : idft 4 G 0 = (G 0%nat + G 1%nat + G 2%nat + G 3%nat) / RtoC 4.
Proof.
  unfold idft. cbn [csum]. rewrite !quarter. cbn [Nat.mul cpow]. replace (INR 4) with 4%R by (simpl; ring). f_equal. ring.
Qed.
Lemma idft4_1 G : idft 4 G 1 = (G 0%nat - G 2%nat + Ci * (G 1%nat - G 3%nat)) / RtoC 4.
Proof.
  unfold idft. cbn [csum]. rewrite !quarter. cbn [Nat.mul Nat.add cpow]. replace (INR 4) with 4%R by (simpl; ring). f_equal.
  transitivity (G 0%nat + G 1%nat * Ci + G 2%nat * (Ci * Ci) + G 3%nat * ((Ci * Ci) * Ci)); [ring|]. rewrite Ci2. ring.
Qed.
Lemma idft4_2 G : idft 4 G 2 = (G 0%nat - G 1%nat + G 2%nat - G 3%nat) / RtoC 4.
Proof.
  unfold idft. cbn [csum]. rewrite !quarter. cbn [Nat.mul Nat.add cpow]. replace (INR 4) with 4%R by (simpl; ring). f_equal.
  transitivity (G 0%nat + G 1%nat * (Ci * Ci) + G 2%nat * ((Ci * Ci) * (Ci * Ci)) + G 3%nat * ((Ci * Ci) * (Ci * Ci) * (Ci * Ci))); [ring|]. rewrite Ci2. ring.
Qed.
Open Scope R_scope.
Lemma symbol0 w kp T kz : symbol w kp T 0 kz = RtoC match w with
         | Ccos => cos (wave kp kz * T) | Csinz => sin (wave kp kz * T) * kz / wave kp kz | Csinp => sin (wave kp kz * T) * kp / wave kp kz end.
Proof. unfold symbol. replace (0 * kz) with 0 by ring. rewrite cis_0. apply Cmult_1_l. Qed.
Definition kz4 (n : nat) : R := nth n [0; 7 / 48; 0; - (7 / 48)] 0.
Lemma wave_0 : wave (1 / 2) 0 = 1 / 2.
Proof. unfold wave. replace (0 ^ 2 + (1 / 2) ^ 2) with ((1 / 2) ^ 2) by ring. apply sqrt_pow2. lra. Qed.
Lemma wave_1 : wave (1 / 2) (7 / 48) = 25 / 48.
Proof. unfold wave. replace ((7 / 48) ^ 2 + (1 / 2) ^ 2) with ((25 / 48) ^ 2) by field. apply sqrt_pow2. lra. Qed.
Lemma wave_3 : wave (1 / 2) (- (7 / 48)) = 25 / 48.
Proof. unfold wave. replace ((- (7 / 48)) ^ 2 + (1 / 2) ^ 2) with ((25 / 48) ^ 2) by field. apply sqrt_pow2. lra. Qed.
Lemma resp4 w T : forall i, response 4 (fun n => symbol w (1 / 2) T 0 (kz4 n)) i = idft 4 (fun n => symbol w (1 / 2) T 0 (kz4 n)) i.
Proof. intros i. apply response_idft. lia. Qed.
Lemma four : RtoC 4 <> RtoC 0.
Proof. intros Q. apply RtoC_inj in Q. lra. Qed.
(** in terms of the values at kz = 0 and 7/48 *)
Lemma total4_1 T : sin (25 / 48 * T) = 0 -> total 4 kz4 (1 / 2) T 0 1 = 0.
Proof.
  intros Hs. unfold total. rewrite !resp4, !idft4_1. unfold kz4. cbn [nth]. rewrite !symbol0, wave_0, wave_1, wave_3, Hs.
  replace (0 * (7 / 48) / (25 / 48)) with 0 by field. replace (0 * - (7 / 48) / (25 / 48)) with 0 by field.
  replace (0 * (1 / 2) / (25 / 48)) with 0 by field.
  match goal with |- sqrt (Cmod ?a ^ 2 + Cmod ?b ^ 2 + Cmod ?e ^ 2) = 0 =>
    replace a with (RtoC 0) by (field; apply four); replace b with (RtoC 0) by (field; apply four); replace e with (RtoC 0) by (field; apply four) end.
  rewrite Cmod_0. replace (0 ^ 2 + 0 ^ 2 + 0 ^ 2) with 0 by ring. apply sqrt_0.
Qed.
Lemma cos4_0 T : Cmod (response 4 (fun n => symbol Ccos (1 / 2) T 0 (kz4 n)) 0) = Rabs ((cos (1 / 2 * T) + cos (25 / 48 * T)) / 2).
Proof.
  rewrite resp4, idft4_0. unfold kz4. cbn [nth]. rewrite !symbol0, wave_0, wave_1, wave_3. rewrite <- Cmod_R. f_equal.
  rewrite <- !RtoC_plus, <- RtoC_div by lra. f_equal. field.
Qed.
Lemma sinp4_2 T : sin (25 / 48 * T) = 0 -> Cmod (response 4 (fun n => symbol Csinp (1 / 2) T 0 (kz4 n)) 2) = Rabs (sin (1 / 2 * T) / 2).
Proof.
  intros Hs. rewrite resp4, idft4_2. unfold kz4. cbn [nth]. rewrite !symbol0, wave_0, wave_1, wave_3, Hs. rewrite <- Cmod_R. f_equal.
  rewrite <- !RtoC_minus, <- RtoC_plus, <- RtoC_minus, <- RtoC_div by lra. f_equal. field.
Qed.
Lemma sin25 : 1 / 16 <= sin (PI / 25).
Proof.
  pose proof PI_RGT_0 as P.
  assert (D : forall y, 0 <= y <= PI / 2 -> 0 <= sin y /\ sin (2 * y) <= 2 * sin y).
  { intros y Hy. assert (0 <= sin y) by (apply sin_ge_0; lra). split; [assumption|]. rewrite sin_2a. pose proof (COS_bound y). nra. }
  destruct (D (PI / 25)) as [_ D1]; [lra|]. destruct (D (2 * (PI / 25))) as [_ D2]; [lra|]. destruct (D (2 * (2 * (PI / 25)))) as [_ D3]; [lra|].
  assert (S6 : sin (PI / 6) <= sin (2 * (2 * (2 * (PI / 25))))) by (apply sin_incr_1; lra).
  rewrite sin_PI6 in S6. lra.
Qed.
Lemma tiny_small : 0 < tiny < 1 / 100.
Proof. unfold tiny. split; [apply Rdiv_lt_0_compat; [lra|apply pow_lt; lra]|]. lra. Qed.
Lemma drift0 c T v : drift c T v false = 0.
Proof. reflexivity. Qed.
