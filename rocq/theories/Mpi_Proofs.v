From Verif Require Import Base Decomp_Model Mpi_Model.
Open Scope Z_scope.

Definition idx (i : instr) : nat :=
  match i with ISend Lf => 0 | IRecv Lf => 1 | ISend Rt => 2 | IRecv Rt => 3
  | WaitRecv Lf => 4 | WaitSend Lf => 5 | WaitRecv Rt => 6 | WaitSend Rt => 7 end.

Lemma instr_pc n i : nth_error program n = Some i -> n = idx i.
Proof. do 8 (destruct n as [|n]; [intros H; injection H as <-; reflexivity|]). destruct n; discriminate. Qed.

Lemma pc_instr n : (n < 8)%nat -> exists i, nth_error program n = Some i /\ n = idx i.
Proof.
  intros H. destruct (nth_error program n) as [i|] eqn:E.
  - exists i. split; [reflexivity|]. apply instr_pc, E.
  - apply nth_error_None in E. simpl in E. lia.
Qed.

Lemma nb_range b size s r d : 0 <= r < size -> nb b size s r = Some d -> 0 <= d < size.
Proof.
  unfold nb, left_proc, right_proc. destruct s, b;
  [destruct (Z.eqb_spec r 0)|destruct (Z.eqb_spec r 0)|
   destruct (Z.eqb_spec r (size - 1))|destruct (Z.eqb_spec r (size - 1))];
  intros Hr Hd; try discriminate; injection Hd as <-; lia.
Qed.

Lemma nb_sym b size s r d : 0 <= r < size -> nb b size s r = Some d -> nb b size (opp s) d = Some r.
Proof.
  unfold nb, left_proc, right_proc, opp. intros Hr.
  destruct s, b;
  [destruct (Z.eqb_spec r 0)|destruct (Z.eqb_spec r 0)|
   destruct (Z.eqb_spec r (size - 1))|destruct (Z.eqb_spec r (size - 1))];
  intros Hd; try discriminate; injection Hd as <-;
  match goal with |- context [?x =? ?y] => destruct (Z.eqb_spec x y) end;
  try lia; f_equal; lia.
Qed.

Lemma opp_opp s : opp (opp s) = s.
Proof. destruct s; reflexivity. Qed.
Lemma tag_opp s : tag_recv (opp s) = tag_send s.
Proof. destruct s; reflexivity. Qed.
Lemma side_eqb_spec s t : reflect (s = t) (side_eqb s t).
Proof. destruct s, t; constructor; congruence. Qed.

Section P.
  Context {M : Type}.
  Variables (b : zbound) (size : Z) (K : nat).
  Notation state := (state M).

  Definition p_send s := idx (ISend s).
  Definition p_recv s := idx (IRecv s).
  Definition p_wr s := idx (WaitRecv s).
  Definition p_ws s := idx (WaitSend s).

  Record Inv (st : state) : Prop := {
    I_pc : forall r, 0 <= r < size -> (pc st r < 8)%nat /\ (rnd st r <= K)%nat /\
             (rnd st r = K -> pc st r = O);
    I_link : forall r s d, 0 <= r < size -> nb b size s r = Some d ->
             sent st r s = got st d (opp s) ++ chan st r d (tag_send s);
    I_sent : forall r s d, 0 <= r < size -> nb b size s r = Some d ->
             length (sent st r s) = (rnd st r + if Nat.leb (pc st r) (p_send s) then 0 else 1)%nat;
    I_got : forall r s d, 0 <= r < size -> nb b size s r = Some d ->
             match rst st r s with
             | RIdle => ((pc st r <= p_recv s)%nat /\ length (got st r s) = rnd st r) \/
                        ((p_wr s < pc st r)%nat /\ length (got st r s) = S (rnd st r))
             | RPosted => (p_recv s < pc st r <= p_wr s)%nat /\ length (got st r s) = rnd st r
             | RDone => (p_recv s < pc st r <= p_wr s)%nat /\ length (got st r s) = S (rnd st r)
             end;
    I_pend : forall r s, 0 <= r < size -> pend st r s = true ->
             nb b size s r <> None /\ (p_send s < pc st r <= p_ws s)%nat
  }.

  Lemma Inv_init : Inv init_state.
  Proof.
    constructor; cbn; intros; try lia; auto; try discriminate.
  Qed.

  Ltac norm := unfold upd, upd2, upd3, p_send, p_recv, p_wr, p_ws in *; cbn [idx] in *.

  Lemma Inv_step e st st' : Inv st -> step b size K e st st' -> Inv st'.
  Proof.
    intros [Hpc Hlink Hsent Hgot Hpend] Hst.
    destruct Hst as [r i Hr Hk Hi Hn | r s d m Hr Hk Hi Hn | r s d Hr Hk Hi Hn
      | r s d Hr Hk Hi Hn Hd | r s d Hr Hk Hi Hn Hp | d o a m q Hd Hpo Hn Hc | r s d Hr Hp Hn Hc].
    - (* skip *)
      apply instr_pc in Hi. pose proof (Hpc r Hr) as (Hp8 & Hrk & Hk0).
      constructor; cbn [adv pc rnd chan rst pend sent got].
      + intros r' Hr'. unfold upd. destruct (Z.eqb_spec r' r) as [->|]; [|apply Hpc; lia].
        rewrite Hi. destruct i as [[]|[]|[]|[]]; cbn [idx length program Nat.eqb]; lia.
      + exact Hlink.
      + intros r' s' d' Hr' Hn'. rewrite (Hsent _ _ _ Hr' Hn'). unfold upd.
        destruct (Z.eqb_spec r' r) as [->|]; [|reflexivity]. rewrite Hi.
        destruct i as [[]|[]|[]|[]], s'; cbn in *; try congruence; lia.
      + intros r' s' d' Hr' Hn'. specialize (Hgot _ _ _ Hr' Hn'). unfold upd.
        destruct (Z.eqb_spec r' r) as [->|]; [|exact Hgot]. rewrite Hi in *.
        destruct (rst st r s'), i as [[]|[]|[]|[]], s'; cbn in *; try congruence; lia.
      + intros r' s' Hr' Hp'. specialize (Hpend _ _ Hr' Hp'). unfold upd.
        destruct (Z.eqb_spec r' r) as [->|]; [|exact Hpend]. rewrite Hi in *.
        destruct Hpend as [Hne Hpd]. split; [exact Hne|].
        destruct i as [[]|[]|[]|[]], s'; cbn in *; try congruence; lia.
    - (* send *)
      apply instr_pc in Hi. pose proof (Hpc r Hr) as (Hp8 & Hrk & Hk0).
      constructor; cbn [adv do_send pc rnd chan rst pend sent got].
      + intros r' Hr'. unfold upd. destruct (Z.eqb_spec r' r) as [->|]; [|apply Hpc; lia].
        rewrite Hi. destruct s; cbn [idx length program Nat.eqb]; lia.
      + intros r' s' d' Hr' Hn'. pose proof (Hlink _ _ _ Hr' Hn') as HL. unfold upd2, upd3.
        destruct (Z.eqb_spec r' r) as [->|]; [|exact HL].
        destruct (side_eqb_spec s' s) as [->|Hss]; cbn [andb].
        * rewrite Hn in Hn'. injection Hn' as <-. rewrite !Z.eqb_refl. cbn [andb].
          rewrite HL, app_assoc. reflexivity.
        * replace (tag_send s' =? tag_send s) with false by (destruct s, s'; try congruence; reflexivity).
          rewrite andb_false_r. exact HL.
      + intros r' s' d' Hr' Hn'. pose proof (Hsent _ _ _ Hr' Hn') as HL. unfold upd, upd2.
        destruct (Z.eqb_spec r' r) as [->|]; [|exact HL]. rewrite Hi in *.
        destruct (side_eqb_spec s' s) as [->|Hss]; cbn [andb].
        * rewrite app_length, HL. destruct s; cbn; lia.
        * rewrite HL. destruct s, s'; try congruence; cbn; lia.
      + intros r' s' d' Hr' Hn'. specialize (Hgot _ _ _ Hr' Hn'). unfold upd.
        destruct (Z.eqb_spec r' r) as [->|]; [|exact Hgot]. rewrite Hi in *.
        destruct (rst st r s'), s, s'; cbn in *; try congruence; lia.
      + intros r' s' Hr'. unfold upd, upd2. specialize (Hpend r' s' Hr').
        destruct (Z.eqb_spec r' r) as [->|]; [|exact Hpend]. rewrite Hi in *.
        destruct (side_eqb_spec s' s) as [->|Hss]; cbn [andb]; intros Hp'.
        * split; [congruence|]. destruct s; cbn; lia.
        * destruct (Hpend Hp') as [Hne Hpd]. split; [exact Hne|].
          destruct s, s'; cbn in *; try congruence; lia.
    - (* recv *)
      apply instr_pc in Hi. pose proof (Hpc r Hr) as (Hp8 & Hrk & Hk0).
      constructor; cbn [adv set_rst pc rnd chan rst pend sent got].
      + intros r' Hr'. unfold upd. destruct (Z.eqb_spec r' r) as [->|]; [|apply Hpc; lia].
        rewrite Hi. destruct s; cbn [idx length program Nat.eqb]; lia.
      + exact Hlink.
      + intros r' s' d' Hr' Hn'. rewrite (Hsent _ _ _ Hr' Hn'). unfold upd.
        destruct (Z.eqb_spec r' r) as [->|]; [|reflexivity]. rewrite Hi.
        destruct s, s'; cbn in *; try congruence; lia.
      + intros r' s' d' Hr' Hn'. specialize (Hgot _ _ _ Hr' Hn'). unfold upd, upd2.
        destruct (Z.eqb_spec r' r) as [->|]; [|exact Hgot]. rewrite Hi in *.
        destruct (side_eqb_spec s' s) as [->|Hss]; cbn [andb].
        * destruct (rst st r s), s; cbn in *; lia.
        * destruct (rst st r s'), s, s'; cbn in *; try congruence; lia.
      + intros r' s' Hr' Hp'. specialize (Hpend _ _ Hr' Hp'). unfold upd.
        destruct (Z.eqb_spec r' r) as [->|]; [|exact Hpend]. rewrite Hi in *.
        destruct Hpend as [Hne Hpd]. split; [exact Hne|].
        destruct s, s'; cbn in *; try congruence; lia.
    - (* wait recv *)
      apply instr_pc in Hi. pose proof (Hpc r Hr) as (Hp8 & Hrk & Hk0).
      constructor; cbn [adv set_rst pc rnd chan rst pend sent got].
      + intros r' Hr'. unfold upd. destruct (Z.eqb_spec r' r) as [->|]; [|apply Hpc; lia].
        rewrite Hi. destruct s; cbn [idx length program Nat.eqb]; lia.
      + exact Hlink.
      + intros r' s' d' Hr' Hn'. rewrite (Hsent _ _ _ Hr' Hn'). unfold upd.
        destruct (Z.eqb_spec r' r) as [->|]; [|reflexivity]. rewrite Hi.
        destruct s, s'; cbn in *; try congruence; lia.
      + intros r' s' d' Hr' Hn'. specialize (Hgot _ _ _ Hr' Hn'). unfold upd, upd2.
        destruct (Z.eqb_spec r' r) as [->|]; [|exact Hgot]. rewrite Hi in *.
        destruct (side_eqb_spec s' s) as [->|Hss]; cbn [andb].
        * rewrite Hd in Hgot. destruct s; cbn in *; lia.
        * destruct (rst st r s'), s, s'; cbn in *; try congruence; lia.
      + intros r' s' Hr' Hp'. specialize (Hpend _ _ Hr' Hp'). unfold upd.
        destruct (Z.eqb_spec r' r) as [->|]; [|exact Hpend]. rewrite Hi in *.
        destruct Hpend as [Hne Hpd]. split; [exact Hne|].
        destruct s, s'; cbn in *; try congruence; lia.
    - (* wait send *)
      apply instr_pc in Hi. pose proof (Hpc r Hr) as (Hp8 & Hrk & Hk0).
      constructor; cbn [adv pc rnd chan rst pend sent got].
      + intros r' Hr'. unfold upd. destruct (Z.eqb_spec r' r) as [->|]; [|apply Hpc; lia].
        rewrite Hi. destruct s; cbn [idx length program Nat.eqb]; lia.
      + exact Hlink.
      + intros r' s' d' Hr' Hn'. rewrite (Hsent _ _ _ Hr' Hn'). unfold upd.
        destruct (Z.eqb_spec r' r) as [->|]; [|reflexivity]. rewrite Hi.
        destruct s, s'; cbn in *; try congruence; lia.
      + intros r' s' d' Hr' Hn'. specialize (Hgot _ _ _ Hr' Hn'). unfold upd.
        destruct (Z.eqb_spec r' r) as [->|]; [|exact Hgot]. rewrite Hi in *.
        destruct (rst st r s'), s, s'; cbn in *; try congruence; lia.
      + intros r' s' Hr' Hp'. specialize (Hpend _ _ Hr' Hp'). unfold upd.
        destruct (Z.eqb_spec r' r) as [->|]; [|exact Hpend]. rewrite Hi in *.
        destruct Hpend as [Hne Hpd]. split; [exact Hne|].
        destruct s, s'; cbn in *; try congruence; lia.
    - (* deliver *)
      pose proof (nb_range _ _ _ _ _ Hd Hn) as Ha.
      pose proof (nb_sym _ _ _ _ _ Hd Hn) as Hs.
      constructor; cbn [deliver pc rnd chan rst pend sent got].
      + exact Hpc.
      + intros r' s' d' Hr' Hn'. pose proof (Hlink _ _ _ Hr' Hn') as HL. unfold upd2, upd3.
        destruct (Z.eqb_spec d' d) as [->|]; [|rewrite andb_false_r; exact HL].
        destruct (side_eqb_spec (opp s') o) as [<-|Hss]; cbn [andb].
        * pose proof (nb_sym _ _ _ _ _ Hr' Hn') as Hs'. rewrite Hn in Hs'. injection Hs' as ->.
          rewrite tag_opp in *. rewrite !Z.eqb_refl. cbn [andb].
          rewrite HL, Hc, <- app_assoc. reflexivity.
        * replace (tag_send s' =? tag_recv o) with false
            by (destruct o, s'; cbn in *; try congruence; reflexivity).
          rewrite andb_false_r. exact HL.
      + exact Hsent.
      + intros r' s' d' Hr' Hn'. specialize (Hgot _ _ _ Hr' Hn'). unfold upd2.
        destruct (Z.eqb_spec r' d) as [->|]; [|exact Hgot].
        destruct (side_eqb_spec s' o) as [->|Hss]; cbn [andb]; [|exact Hgot].
        rewrite Hpo in Hgot. rewrite app_length. cbn [length]. lia.
      + exact Hpend.
    - (* completion *)
      constructor; cbn [set_pend pc rnd chan rst pend sent got]; auto.
      intros r' s' Hr'. unfold upd2. destruct ((r' =? r) && side_eqb s' s); [discriminate|].
      intros Hp'. apply Hpend; auto.
  Qed.

  Lemma Inv_steps n st : steps b size K n init_state st -> Inv st.
  Proof.
    intros H. remember init_state as s0 eqn:E. induction H as [st|n st st' st'' H IH Hs].
    - subst. apply Inv_init.
    - apply (Inv_step true st'); auto.
  Qed.

  (** Delivered data. *)
  Lemma delivered st r s d i : Inv st -> 0 <= r < size -> nb b size s r = Some d ->
    (i < rnd st r)%nat ->
    exists m, nth_error (got st r s) i = Some m /\ nth_error (sent st d (opp s)) i = Some m.
  Proof.
    intros [Hpc Hlink Hsent Hgot Hpend] Hr Hn Hi.
    pose proof (nb_range _ _ _ _ _ Hr Hn) as Hd. pose proof (nb_sym _ _ _ _ _ Hr Hn) as Hn'.
    pose proof (Hlink _ _ _ Hd Hn') as HL. rewrite opp_opp in HL.
    assert (Hlen : (i < length (got st r s))%nat).
    { specialize (Hgot _ _ _ Hr Hn). destruct (rst st r s); lia. }
    destruct (nth_error (got st r s) i) as [m|] eqn:E.
    - exists m. split; [reflexivity|]. rewrite HL, nth_error_app1 by exact Hlen. exact E.
    - apply nth_error_None in E. lia.
  Qed.

  Lemma got_length st r s d : Inv st -> 0 <= r < size -> nb b size s r = Some d ->
    rnd st r = K -> length (got st r s) = K.
  Proof.
    intros [Hpc Hlink Hsent Hgot Hpend] Hr Hn Hk. specialize (Hgot _ _ _ Hr Hn).
    destruct (Hpc r Hr) as (_ & _ & H0). rewrite (H0 Hk), Hk in Hgot.
    destruct (rst st r s), s; cbn in *; lia.
  Qed.

  (** Rank with minimal progress. *)
  Lemma min_rank (f : Z -> nat) : 0 < size ->
    exists r, 0 <= r < size /\ forall r', 0 <= r' < size -> (f r <= f r')%nat.
  Proof.
    intros Hs. assert (G : forall n, 0 <= n -> exists r, 0 <= r <= n /\ forall r', 0 <= r' <= n -> (f r <= f r')%nat).
    { apply natlike_ind.
      - exists 0. split; [lia|]. intros r' Hr'. replace r' with 0 by lia. lia.
      - intros n Hn (r & Hr & Hmin). destruct (le_lt_dec (f r) (f (Z.succ n))) as [Hle|Hlt].
        + exists r. split; [lia|]. intros r' Hr'. destruct (Z.eq_dec r' (Z.succ n)) as [->|]; [exact Hle|].
          apply Hmin. lia.
        + exists (Z.succ n). split; [lia|]. intros r' Hr'. destruct (Z.eq_dec r' (Z.succ n)) as [->|]; [lia|].
          assert (f r <= f r')%nat by (apply Hmin; lia). lia. }
    destruct (G (size - 1) ltac:(lia)) as (r & Hr & Hm). exists r. split; [lia|].
    intros r' Hr'. apply Hm. lia.
  Qed.

  Lemma progress st : M -> 0 < size -> Inv st -> ~ finished size K st -> exists st', step b size K false st st'.
  Proof.
    intros m0 Hsz HI Hnf. pose proof HI as [Hpc Hlink Hsent Hgot Hpend].
    destruct (min_rank (fun r => 8 * rnd st r + pc st r)%nat Hsz) as (r & Hr & Hmin).
    assert (Hrk : (rnd st r < K)%nat).
    { destruct (le_lt_dec K (rnd st r)) as [Hle|Hlt]; [|exact Hlt]. exfalso. apply Hnf.
      intros r' Hr'. specialize (Hmin r' Hr'). pose proof (Hpc r' Hr'). pose proof (Hpc r Hr). lia. }
    destruct (Hpc r Hr) as (Hp8 & _ & _).
    destruct (pc_instr _ Hp8) as (i & Hi & Hpi).
    destruct (nb b size (side_of i) r) as [d|] eqn:Hn;
      [|exists (adv st r); apply st_skip with i; auto].
    pose proof (nb_range _ _ _ _ _ Hr Hn) as Hd. pose proof (nb_sym _ _ _ _ _ Hr Hn) as Hn'.
    pose proof (Hmin d Hd) as Hm. destruct (Hpc d Hd) as (Hp8' & _ & _).
    destruct i as [s|s|s|s]; cbn [side_of] in Hn, Hn'.
    - exists (adv (do_send st r d s m0) r). apply st_send; auto.
    - exists (adv (set_rst st r s RPosted) r). apply st_recv with d; auto.
    - destruct (rst st r s) eqn:Er.
      + exfalso. specialize (Hgot _ _ _ Hr Hn). rewrite Er, Hpi in Hgot.
        destruct s; cbn in Hgot; lia.
      + pose proof (Hgot _ _ _ Hr Hn) as Hg. rewrite Er in Hg.
        pose proof (Hsent _ _ _ Hd Hn') as Hs. pose proof (Hlink _ _ _ Hd Hn') as HL.
        rewrite opp_opp in HL.
        destruct (chan st d r (tag_send (opp s))) as [|m q] eqn:Ec.
        * exfalso. apply (f_equal (@length M)) in HL. rewrite app_length in HL. cbn [length] in HL.
          rewrite Hpi in *. destruct s; cbn in *; destruct (pc st d) as [|[|[|[|[|[|[|]]]]]]]; cbn in *; lia.
        * exists (deliver st r s d m q). apply st_deliver; auto.
          rewrite <- (opp_opp s), tag_opp. exact Ec.
      + exists (adv (set_rst st r s RIdle) r). apply st_waitr with d; auto.
    - destruct (pend st r s) eqn:Ep; [|exists (adv st r); apply st_waits with s d; auto].
      pose proof (Hlink _ _ _ Hr Hn) as HL. pose proof (Hsent _ _ _ Hr Hn) as Hs.
      pose proof (Hgot _ _ _ Hd Hn') as Hg.
      destruct (chan st r d (tag_send s)) as [|m q] eqn:Ec;
        [exists (set_pend st r s false); apply st_complete with d; auto|].
      destruct (rst st d (opp s)) eqn:Er.
      + exfalso. apply (f_equal (@length M)) in HL. rewrite app_length in HL. cbn [length] in HL.
        rewrite Hpi in *. destruct s; cbn in *; lia.
      + exists (deliver st d (opp s) r m q). apply st_deliver; auto. rewrite tag_opp. exact Ec.
      + exfalso. apply (f_equal (@length M)) in HL. rewrite app_length in HL. cbn [length] in HL.
        rewrite Hpi in *. destruct s; cbn in *; lia.
  Qed.

  (** Every execution is finite: a potential that grows at each step and is bounded. *)
  Definition b2n (x : bool) : nat := if x then O else 1%nat.
  Definition phi (st : state) (r : Z) : nat :=
    (2 * (8 * rnd st r + pc st r) + length (got st r Lf) + length (got st r Rt)
     + b2n (pend st r Lf) + b2n (pend st r Rt))%nat.
  Definition Phi (st : state) : nat := list_sum (map (phi st) (range size)).

  Lemma sum_grow (f g : Z -> nat) l r : NoDup l -> In r l -> (f r < g r)%nat ->
    (forall r', r' <> r -> (f r' <= g r')%nat) -> (list_sum (map f l) < list_sum (map g l))%nat.
  Proof.
    intros Hnd Hin Hlt Hle. induction l as [|x l IH]; [destruct Hin|].
    inversion Hnd as [|? ? Hx Hnd']; subst. cbn [map list_sum fold_right].
    change (fold_right plus 0%nat (map f l)) with (list_sum (map f l)).
    change (fold_right plus 0%nat (map g l)) with (list_sum (map g l)).
    destruct Hin as [->|Hin].
    - assert (list_sum (map f l) <= list_sum (map g l))%nat; [|lia].
      clear IH Hnd Hnd'. induction l as [|y l IH]; [cbn; lia|]. cbn.
      assert (f y <= g y)%nat by (apply Hle; intros ->; apply Hx; left; reflexivity).
      assert (list_sum (map f l) <= list_sum (map g l))%nat by (apply IH; intros H'; apply Hx; right; exact H').
      unfold list_sum in *. lia.
    - specialize (IH Hnd' Hin).
      assert (f x <= g x)%nat by (apply Hle; intros ->; contradiction). unfold list_sum in *. lia.
  Qed.

  Lemma step_grow e st st' : Inv st -> step b size K e st st' ->
    exists r, 0 <= r < size /\ (phi st r < phi st' r)%nat /\ forall r', r' <> r -> (phi st r' <= phi st' r')%nat.
  Proof.
    intros [Hpc Hlink Hsent Hgot Hpend] Hst.
    destruct Hst as [r i Hr Hk Hi Hn | r s d m Hr Hk Hi Hn | r s d Hr Hk Hi Hn
      | r s d Hr Hk Hi Hn Hd | r s d Hr Hk Hi Hn Hp | d o a m q Hd Hpo Hn Hc | r s d Hr Hp Hn Hc];
    [exists r|exists r|exists r|exists r|exists r|exists d|exists r]; (split; [assumption|]).
    1,3,4,5: apply instr_pc in Hi; unfold phi; cbn [adv set_rst pc rnd got pend]; unfold upd; split;
      [rewrite Z.eqb_refl, Hi | intros r' Hne; destruct (Z.eqb_spec r' r); [contradiction|reflexivity]].
    1: destruct i as [[]|[]|[]|[]]; cbn -[Nat.mul]; lia.
    1,2,3: destruct s; cbn -[Nat.mul]; lia.
    - apply instr_pc in Hi. assert (Hpf : pend st r s = true -> False).
      { intros Hp. destruct (Hpend _ _ Hr Hp) as [_ Hp']. rewrite Hi in Hp'. destruct s; cbn in Hp'; lia. }
      assert (Hpf' : pend st r s = false) by (destruct (pend st r s); [destruct Hpf|]; reflexivity).
      unfold phi; cbn [adv do_send pc rnd got pend]; unfold upd, upd2; split.
      + rewrite Z.eqb_refl, Hi. destruct s; cbn -[Nat.mul] in *; rewrite Hpf'; cbn [b2n]; lia.
      + intros r' Hne; destruct (Z.eqb_spec r' r); [contradiction|]. cbn [andb]. reflexivity.
    - unfold phi; cbn [deliver pc rnd got pend]; unfold upd2; split.
      + rewrite Z.eqb_refl. destruct o; cbn [andb side_eqb]; rewrite app_length; cbn [length]; lia.
      + intros r' Hne; destruct (Z.eqb_spec r' d); [contradiction|]. cbn [andb]. reflexivity.
    - unfold phi; cbn [set_pend pc rnd got pend]; unfold upd2; split.
      + rewrite Z.eqb_refl. destruct s; cbn [andb side_eqb]; rewrite Hp; cbn [b2n]; lia.
      + intros r' Hne; destruct (Z.eqb_spec r' r); [contradiction|]. cbn [andb]. reflexivity.
  Qed.

  Lemma Phi_steps n st : steps b size K n init_state st -> (n <= Phi st)%nat.
  Proof.
    intros H. remember init_state as s0 eqn:E. induction H as [st|n st st' st'' H IH Hs]; [lia|].
    subst. specialize (IH eq_refl).
    destruct (step_grow true st' st'' (Inv_steps _ _ H) Hs) as (r & Hr & Hlt & Hle).
    assert (Phi st' < Phi st'')%nat; [|lia]. apply sum_grow with r; auto.
    - apply NoDup_range.
    - apply in_range. exact Hr.
  Qed.

  Lemma got_bound st r s : Inv st -> 0 <= r < size -> nb b size s r <> None -> (length (got st r s) <= K)%nat.
  Proof.
    intros HI Hr Hn. destruct (nb b size s r) as [d|] eqn:E; [|congruence].
    pose proof HI as [Hpc Hlink Hsent Hgot Hpend]. specialize (Hgot _ _ _ Hr E).
    destruct (Hpc r Hr) as (_ & H1 & H2).
    destruct (Nat.eq_dec (rnd st r) K) as [He|He].
    - rewrite (got_length _ _ _ _ HI Hr E He). lia.
    - destruct (rst st r s); lia.
  Qed.

  Lemma got_none n (st : state) : steps b size K n init_state st ->
    forall r s, nb b size s r = None -> got st r s = [].
  Proof.
    intros H. remember init_state as s0 eqn:E. induction H as [st|n st st' st'' H IH Hs]; subst; [reflexivity|].
    specialize (IH eq_refl). intros r s Hn. specialize (IH r s Hn).
    destruct Hs; cbn [adv do_send set_rst set_pend deliver got]; auto.
    unfold upd2. destruct (Z.eqb_spec r d) as [->|]; [|exact IH].
    destruct (side_eqb_spec s o) as [->|]; [congruence|exact IH].
  Qed.

  Lemma steps_bounded n (st : state) : steps b size K n init_state st ->
    (n <= Z.to_nat size * (18 * K + 2))%nat.
  Proof.
    intros H. pose proof (Phi_steps n st H) as Hn. pose proof (Inv_steps n st H) as HI.
    assert (Hphi : forall r, 0 <= r < size -> (phi st r <= 18 * K + 2)%nat).
    { intros r Hr. assert (Hg : forall s, (length (got st r s) <= K)%nat).
      { intros s. destruct (nb b size s r) as [d|] eqn:En.
        - apply got_bound; auto. congruence.
        - rewrite (got_none n st H r s En). cbn. lia. }
      pose proof (Hg Lf). pose proof (Hg Rt). destruct (I_pc _ HI r Hr) as (P1 & P2 & P3).
      unfold phi, b2n. destruct (pend st r Lf), (pend st r Rt); lia. }
    assert (Hs : (Phi st <= length (range size) * (18 * K + 2))%nat).
    { unfold Phi. assert (Hr : forall x, In x (range size) -> 0 <= x < size) by (intros x; apply in_range).
      induction (range size) as [|x l IH]; [cbn; lia|].
      assert (list_sum (map (phi st) l) <= length l * (18 * K + 2))%nat by (apply IH; intros y Hy; apply Hr; right; exact Hy).
      assert (phi st x <= 18 * K + 2)%nat by (apply Hphi, Hr; left; reflexivity).
      cbn [map list_sum fold_right length]. unfold list_sum in *. lia. }
    rewrite length_range in Hs. lia.
  Qed.
End P.
