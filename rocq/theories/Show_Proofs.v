From Coq Require Import ZArith Reals List String Lra Lia.
From Flocq Require Import Core.
From Verif Require Import Base Show_Model Show_Spec.
Import ListNotations.
Open Scope R_scope.

Lemma divmod60_ok x : let '(q, r) := divmod60 x in x = 60 * q + r /\ 0 <= r < 60 /\ q = IZR (Zfloor (x / 60)).
Proof.
  unfold divmod60. pose proof (Zfloor_lb (x / 60)). pose proof (Zfloor_ub (x / 60)). split; [ring|]. split; [|reflexivity].
  set (q := IZR (Zfloor (x / 60))) in *. assert (x = 60 * (x / 60)) by field. split; lra.
Qed.
Lemma hms_ok x : 0 <= x -> shows x (hms x).
Proof.
  intros Hx. unfold hms. pose proof (divmod60_ok x) as D1. destruct (divmod60 x) as [m s] eqn:E1. destruct D1 as (X & S & M).
  pose proof (divmod60_ok m) as D2. destruct (divmod60 m) as [h m'] eqn:E2. destruct D2 as (Y & M' & H).
  assert (Hm : (0 <= Zfloor (x / 60))%Z) by (apply Zfloor_lub; cbn; apply Rmult_le_pos; lra).
  assert (Hm0 : 0 <= m) by (rewrite M; apply IZR_le; exact Hm).
  assert (Hh : (0 <= Zfloor (m / 60))%Z) by (apply Zfloor_lub; cbn; apply Rmult_le_pos; lra).
  assert (Em : m' = IZR (Zfloor (x / 60) - 60 * Zfloor (m / 60))) by (rewrite minus_IZR, mult_IZR, <- M, <- H; lra).
  unfold shows. rewrite H, Em, !Ztrunc_IZR. rewrite Ztrunc_floor by lra.
  set (a := Zfloor (x / 60)) in *. set (c := Zfloor (m / 60)) in *.
  assert (B : (0 <= a - 60 * c < 60)%Z) by (rewrite Em in M'; destruct M' as [M1 M2]; apply le_IZR in M1; apply lt_IZR in M2; lia).
  assert (C : (0 <= Zfloor s < 60)%Z).
  { split; [apply Zfloor_lub; cbn; lra|]. pose proof (Zfloor_lb s). apply lt_IZR. lra. }
  split; [lia|]. rewrite !plus_IZR, !mult_IZR, minus_IZR, mult_IZR. pose proof (Zfloor_lb s). pose proof (Zfloor_ub s). rewrite M in X. split; lra.
Qed.
Lemma scale lo a hi n : 0 <= n -> lo <= a <= hi -> lo * n <= a * n <= hi * n.
Proof. intros. split; apply Rmult_le_compat_r; tauto. Qed.

Section P.
Context {S : Type} (rnd : R -> R) (clk : nat -> R) (N : nat) (HR : rounding (Z.of_nat N) rnd).
Notation NZ := (Z.of_nat N).
Lemma full_ok i : (0 <= i < NZ)%Z -> let f := Ztrunc (rnd (rnd (rnd (IZR (i + 1) * 1) / IZR NZ) * IZR 35)) in (0 <= f <= 35)%Z /\ ((i + 1 = NZ)%Z -> f = 35%Z) /\
  ((forall x, rnd x = x) -> IZR f <= 35 * (IZR (i + 1) / IZR NZ) < IZR f + 1).
Proof.
  intros Hi. destruct HR as [Mo In]. cbv zeta. rewrite Rmult_1_r, (In (i + 1)%Z) by lia.
  assert (HN : 0 < IZR NZ) by (apply (IZR_lt 0); lia).
  assert (A : 0 <= rnd (IZR (i + 1) / IZR NZ) <= 1).
  { split.
    - rewrite <- (In 0%Z) by lia. apply Mo. apply Rmult_le_pos; [apply (IZR_le 0); lia|left; apply Rinv_0_lt_compat, HN].
    - rewrite <- (In 1%Z) by lia. apply Mo. apply Rmult_le_reg_r with (IZR NZ); [exact HN|]. unfold Rdiv. rewrite Rmult_assoc, Rinv_l, Rmult_1_l, Rmult_1_r by lra. apply IZR_le. lia. }
  set (q := rnd (IZR (i + 1) / IZR NZ)) in *.
  assert (B : 0 <= rnd (q * 35) <= 35).
  { split; [rewrite <- (In 0%Z) by lia; apply Mo; lra|]. rewrite <- (In 35%Z) at 2 by lia. apply Mo. lra. }
  split; [|split].
  - rewrite Ztrunc_floor by lra. split; [apply Zfloor_lub; cbn; lra|]. pose proof (Zfloor_lb (rnd (q * 35))). apply le_IZR. lra.
  - intros E. assert (Q : q = 1).
    { unfold q. rewrite E. replace (IZR NZ / IZR NZ) with 1 by (field; lra). apply (In 1%Z). lia. }
    rewrite Q, Rmult_1_l, (In 35%Z) by lia. apply Ztrunc_IZR.
  - intros X. rewrite Ztrunc_floor by lra. pose proof (Zfloor_lb (rnd (q * 35))) as U. pose proof (Zfloor_ub (rnd (q * 35))) as V. rewrite (X (q * 35)) in *.
    unfold q in *. rewrite X in *. lra.
Qed.

(** the bar before iteration i *)
Record bar_ok (i : nat) (b : bar) : Prop := {
  o_N : b_N b = NZ; o_avg : b_avg b = 20%Z; o_Nb : b_Nbars b = 35%Z; o_st : b_start b = clk 0; o_pr : b_prev b = clk i;
  o_tot : (0 < i)%nat -> b_total b = clk i - clk 0;
  o_at : (3 <= i)%nat -> forall lo hi, (forall j, (1 <= j < i - 1)%nat -> lo <= duration clk j <= hi) -> lo <= b_avg_tps b <= hi }.
Lemma time_ok i b : bar_ok i b -> let b' := bar_time (Z.of_nat i) (clk (i + 1)) b in bar_ok (i + 1) b' /\ b_i b' = Z.of_nat i /\
  b_tps b' = clk (i + 1)%nat - clk i /\ b_eta b' = (if (i <? 20)%nat then None else Some (b_avg_tps b' * IZR (NZ - Z.of_nat i))).
Proof.
  intros [O1 O2 O3 O4 O5 O6 O7]. cbv zeta. split; [constructor; cbn; try assumption; try congruence|].
  - intros Hi lo hi H. destruct (Z.of_nat i <=? 2)%Z eqn:E.
    + apply Z.leb_le in E. assert (i = 2)%nat by lia. subst i. rewrite O5. apply (H 1%nat). lia.
    + apply Z.leb_gt in E. rewrite O2, O5. assert (A : lo <= b_avg_tps b <= hi) by (apply O7; [lia|intros j Hj; apply H; lia]).
      specialize (H (i - 1)%nat ltac:(lia)). unfold duration in H. replace (i - 1 + 2)%nat with (i + 1)%nat in H by lia. replace (i - 1 + 1)%nat with i in H by lia. lra.
  - split; [reflexivity|]. split; [cbn; rewrite O5; reflexivity|]. unfold bar_time. cbn [b_eta b_avg_tps]. rewrite O2, O1. destruct (Nat.ltb_spec i 20), (Z.ltb_spec (Z.of_nat i) 20); try lia; reflexivity.
Qed.
Definition line_ok (i : nat) (l : line) : Prop := match i with O => l = Compiling | _ => right_bar rnd clk NZ i l end.
Lemma print_ok i b : (i < N)%nat -> bar_ok i b -> line_ok i (print_progress rnd (bar_time (Z.of_nat i) (clk (i + 1)) b)).
Proof.
  intros Hi B. pose proof (time_ok i b B) as T. cbv zeta in T. set (b' := bar_time _ _ b) in *. clearbody b'. destruct T as ([O1 O2 O3 O4 O5 O6 O7] & Ei & Et & Ee).
  unfold print_progress. rewrite Ei. destruct i as [|i']; [reflexivity|]. set (i := Datatypes.S i') in *. cbn [line_ok].
  destruct (Z.eqb_spec (Z.of_nat i) 0); [lia|]. rewrite O1, O3. pose proof (full_ok (Z.of_nat i) ltac:(lia)) as Hf. cbv zeta in Hf.
  set (f := Ztrunc (rnd _)) in *. clearbody f. unfold right_bar. do 4 eexists. split; [reflexivity|]. destruct Hf as (F1 & F2 & F3). split; [lia|]. split; [exact F2|]. split; [exact F3|]. split.
  - rewrite Ee. destruct (Nat.ltb_spec i 20); cbn; [assumption|]. split; [assumption|]. intros lo hi Hlo H0.
    exists (b_avg_tps b' * IZR (NZ - Z.of_nat i)).
    assert (A : lo <= b_avg_tps b' <= hi) by (apply O7; [lia|intros j Hj; apply H0; lia]).
    assert (P : 0 <= IZR (NZ - Z.of_nat i)) by (apply (IZR_le 0); lia).
    split; [|apply scale; assumption]. apply hms_ok. apply Rmult_le_pos; [lra|exact P].
  - intros Hd. rewrite Et. unfold duration in *. replace (i - 1 + 2)%nat with (i + 1)%nat in * by lia. replace (i - 1 + 1)%nat with i in * by lia.
    rewrite Ztrunc_floor by lra. pose proof (Zfloor_lb ((clk (i + 1)%nat - clk i) * 1000)). pose proof (Zfloor_ub ((clk (i + 1)%nat - clk i) * 1000)). lra.
Qed.
Lemma loop_ok body : forall n i b (s : S) out s' b' out', (i + n = N)%nat -> bar_ok i b -> length out = i -> (forall j l, nth_error out j = Some l -> line_ok j l) ->
  loop rnd clk true body n i b s out = Ok (s', b', out') -> bar_ok N b' /\ length out' = N /\ forall j l, nth_error out' j = Some l -> line_ok j l.
Proof.
  induction n as [|n IH]; intros i b s out s' b' out' Hn B L O; cbn [loop].
  - intros E. injection E as <- <- <-. assert (E : i = N) by lia. rewrite <- E. split; [exact B|]. split; [exact L|exact O].
  - destruct (body (Z.of_nat i) s) as [s1|e]; [|discriminate]. cbn [bind]. apply IH; [lia|apply (time_ok i b B)|rewrite app_length; cbn; lia|].
    intros j l Hj. destruct (Nat.lt_ge_cases j i).
    + rewrite nth_error_app1 in Hj by lia. apply O. exact Hj.
    + rewrite nth_error_app2 in Hj by lia. destruct (j - length out)%nat eqn:E; [|destruct n0; discriminate]. injection Hj as <-. assert (j = i) by lia. subst j. apply print_ok; [lia|exact B].
Qed.
Lemma loop_same body : forall n i b (s : S) out b0 out0, 
  match loop rnd clk true body n i b s out, loop rnd clk false body n i b0 s out0 with Ok (x, y, _), Ok (x', _, _) => x = x' /\ b_N y = b_N b | Err e, Err e' => e = e' | _, _ => False end.
Proof.
  induction n as [|n IH]; intros i b s out b0 out0; cbn [loop]; [split; reflexivity|]. destruct (body (Z.of_nat i) s) as [s1|e]; [|reflexivity]. cbn [bind].
  exact (IH (i + 1)%nat (bar_time (Z.of_nat i) (clk (i + 1)) b) s1 (out ++ [print_progress rnd (bar_time (Z.of_nat i) (clk (i + 1)) b)]) b0 out0).
Qed.
Lemma transparent show rank pre body post (s : S) : N <> O -> result (step rnd clk show rank pre body post N s) = result (step rnd clk false rank pre body post N s).
Proof.
  intros HN. unfold step. cbn [andb]. destruct (show && (rank =? 0)%Z)%bool; [|reflexivity]. destruct (pre s) as [s1|e]; [|reflexivity]. cbn [bind].
  pose proof (loop_same body N 0 (bar_init NZ (clk 0)) s1 [] (bar_init NZ (clk 0)) []) as L.
  destruct (loop rnd clk true body N 0 _ s1 []) as [[[x y] z]|e], (loop rnd clk false body N 0 _ s1 []) as [[[x' y'] z']|e']; try contradiction; [|subst; reflexivity].
  destruct L as [<- Hb]. cbn [bind]. destruct (post x) as [s2|e]; [|reflexivity]. cbn [bind]. unfold print_summary. rewrite Hb. cbn [b_N bar_init].
  destruct (Z.eqb_spec NZ 0); [lia|]. destruct (hms (b_total y)) as [[h m] q]. reflexivity.
Qed.
Lemma shown_ok pre body post (s : S) s' out : N <> O -> step rnd clk true 0 pre body post N s = Ok (s', out) ->
  exists lines h m q ms, out = lines ++ [Summary h m q ms] /\ length lines = N /\ (forall i l, nth_error lines i = Some l -> line_ok i l) /\
  (0 <= clk N - clk 0 -> shows (clk N - clk 0) (h, m, q) /\ IZR ms <= 1000 * ((clk N - clk 0) / INR N) < IZR ms + 1).
Proof.
  intros HN. unfold step. cbn [andb Z.eqb]. destruct (pre s) as [s1|e]; [|discriminate]. cbn [bind].
  destruct (loop rnd clk true body N 0 _ s1 []) as [[[x y] z]|e] eqn:E; [|discriminate]. cbn [bind]. destruct (post x) as [s2|e]; [|discriminate]. cbn [bind].
  apply loop_ok in E; [|lia|constructor; cbn; try reflexivity; intros; lia|reflexivity|intros [|j] l Hj; discriminate].
  destruct E as ([O1 O2 O3 O4 O5 O6 O7] & L & A). unfold print_summary. rewrite O1. destruct (Z.eqb_spec NZ 0); [lia|]. rewrite O6 by lia.
  destruct (hms (clk N - clk 0%nat)) as [[h m] q] eqn:Eh. cbn [bind]. intros H. injection H as <- <-. do 5 eexists. split; [reflexivity|]. split; [exact L|]. split; [exact A|].
  intros P. split; [rewrite <- Eh; apply hms_ok, P|]. rewrite <- INR_IZR_INZ.
  assert (Q : 0 < INR N) by (apply lt_0_INR; lia). assert (0 <= (clk N - clk 0%nat) / INR N) by (apply Rmult_le_pos; [exact P|left; apply Rinv_0_lt_compat, Q]).
  rewrite Ztrunc_floor by lra. pose proof (Zfloor_lb ((clk N - clk 0%nat) / INR N * 1000)). pose proof (Zfloor_ub ((clk N - clk 0%nat) / INR N * 1000)). lra.
Qed.
End P.

(** exact arithmetic and double precision *)
Lemma rounding_exact N : rounding N (fun x => x). Proof. split; auto. Qed.
Lemma rounding_binary64 N : (N <= 2 ^ 53)%Z -> rounding N (round radix2 (FLT_exp (-1074) 53) ZnearestE).
Proof.
  intros H. split; [intros; apply round_le; [apply FLT_exp_valid; reflexivity|apply valid_rnd_N|assumption]|].
  intros n Hn. apply round_generic; [apply valid_rnd_N|]. destruct (Z.eq_dec n (2 ^ 53)) as [->|Ne].
  - replace (IZR (2 ^ 53)) with (bpow radix2 53) by reflexivity. apply generic_format_bpow. unfold FLT_exp. lia.
  - apply generic_format_FLT. exists (Float radix2 n 0).
    + unfold F2R. cbn. ring.
    + cbn -[Z.pow]. rewrite Z.abs_eq by lia. lia.
    + cbn. lia.
Qed.
