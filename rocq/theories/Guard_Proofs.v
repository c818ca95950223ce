From Verif Require Import Base Decomp_Model Decomp_Spec Decomp_Proofs Guard_Model Guard_Spec.
From Coq Require Import Reals.
Open Scope Z_scope.

(** Facts about the geometry accepted by the constructor. *)
Record geom_ok (b : zbound) (c : comm) (Nz start : Z -> Z) : Prop := {
  go_size : 2 <= c_size c;
  go_ng : 1 <= c_nguard c;
  go_big : forall r, 0 <= r < c_size c -> 4 * c_nguard c <= Nz r;
  go_left : forall r l, 0 <= r < c_size c -> left_proc b r (c_size c) = Some l ->
     0 <= l < c_size c /\ right_proc b l (c_size c) = Some r /\
     exists n, (b = Open -> n = 0) /\
       start l + Nz l - 2 * c_nguard c = start r + n * c_Nz c;
  go_right : forall r s, 0 <= r < c_size c -> right_proc b r (c_size c) = Some s ->
     0 <= s < c_size c /\ left_proc b s (c_size c) = Some r
}.

Lemma local_geometry_form c Nz start r : local_geometry c Nz start -> 0 <= r < c_size c ->
  Nz r = fst (part c true r) + 2 * c_nguard c /\ start r = snd (part c true r) - c_nguard c.
Proof.
  intros H Hr. specialize (H r Hr).
  rewrite (guard_ext c true true (Some r) _ (part_ok c true r)) in H. injection H as <- <-. auto.
Qed.

Lemma divide_big b c r Nz start : local_geometry c Nz start -> 0 <= r < c_size c ->
  (exists d, divide_into_domain (with_rank b c r) = Ok d) -> 4 * c_nguard c <= Nz r.
Proof.
  intros Hg Hr [d Hd]. unfold divide_into_domain in Hd.
  assert (E : get_Nz_and_iz (with_rank b c r) true true true (Some r) = Ok (Nz r, start r))
    by exact (Hg r Hr).
  unfold get_zmin_zmax in Hd. cbn [c_rank with_rank] in Hd. rewrite E in Hd. cbn [bind] in Hd.
  destruct (Nz r <? 4 * c_nguard (with_rank b c r)) eqn:El; [discriminate|].
  cbn [c_nguard with_rank] in El. lia.
Qed.

Lemma geom_from_constructor b c Nz start :
  valid_comm c -> 2 <= c_size c -> 1 <= c_nguard c ->
  (b = Periodic -> c_nzdamp c = 0 /\ c_ninject c = 0) ->
  local_geometry c Nz start ->
  (forall r, 0 <= r < c_size c -> exists d, divide_into_domain (with_rank b c r) = Ok d) ->
  geom_ok b c Nz start.
Proof.
  intros Hv Hs Hng Hper Hgeo Hdiv.
  pose proof (part_tiles c true Hv) as (_ & _ & _ & Hcons & Hfst & Hlst).
  rewrite whole_form in Hfst, Hlst. cbn [fst snd] in Hfst, Hlst.
  assert (F := fun r Hr => local_geometry_form c Nz start r Hgeo Hr).
  constructor; auto.
  - intros r Hr. apply (divide_big b c r Nz start Hgeo Hr). apply Hdiv. exact Hr.
  - intros r l Hr Hl. unfold left_proc in Hl.
    assert (Hcase : (r = 0 /\ b = Periodic /\ l = c_size c - 1) \/ (r <> 0 /\ l = r - 1)).
    { destruct b, (Z.eqb_spec r 0); injection Hl as <- || discriminate; auto. }
    assert (Hlr : 0 <= l < c_size c) by lia.
    split; [exact Hlr|].
    destruct (F r Hr) as [N1 S1]. destruct (F l Hlr) as [N2 S2].
    destruct Hcase as [(-> & -> & ->)|(Hne & ->)].
    + split; [unfold right_proc; rewrite Z.eqb_refl; reflexivity|].
      exists 1. split; [discriminate|].
      destruct (Hper eq_refl) as [Hd0 Hi0].
      assert (He : ext c true = 0) by (unfold ext; lia). rewrite He in *.
      rewrite S1, S2, N2. lia.
    + split.
      * unfold right_proc. destruct (Z.eqb_spec (r - 1) (c_size c - 1)); [lia|].
        replace (r - 1 + 1) with r by lia. destruct b; reflexivity.
      * exists 0. split; [auto|]. rewrite S1, S2, N2.
        assert (Hc := Hcons (r - 1) ltac:(lia) ltac:(lia)).
        replace (r - 1 + 1) with r in Hc by lia. lia.
  - intros r s Hr Hsr. unfold right_proc in Hsr.
    assert (Hcase : (r = c_size c - 1 /\ b = Periodic /\ s = 0) \/ (r <> c_size c - 1 /\ s = r + 1)).
    { destruct b, (Z.eqb_spec r (c_size c - 1)); injection Hsr as <- || discriminate; auto. }
    destruct Hcase as [(-> & -> & ->)|(Hne & ->)].
    + split; [lia|]. reflexivity.
    + split; [lia|]. unfold left_proc. destruct (Z.eqb_spec (r + 1) 0); [lia|].
      replace (r + 1 - 1) with r by lia. destruct b; reflexivity.
Qed.

Lemma same_place_of b N p q n : (b = Open -> n = 0) -> p = q + n * N -> same_place b N p q.
Proof. intros H1 H2. destruct b; simpl; [exists n; exact H2|]. rewrite (H1 eq_refl) in H2. lia. Qed.

Lemma unpack_pack k m comp : 0 <= comp < k -> (k * m + comp) / k = m /\ (k * m + comp) mod k = comp.
Proof.
  intros H. rewrite (Z.mul_comm k m), Z.add_comm. rewrite Z.div_add, Z.mod_add by lia.
  rewrite Z.div_small, Z.mod_small by lia. lia.
Qed.

Section G.
  Context {A : Type} (plus : A -> A -> A).

  Lemma replace_ok b c Nz start k (G : Z -> grid) m comp :
    geom_ok b c Nz start -> 0 <= comp < k ->
    replaced b (c_Nz c) (c_nguard c) (c_size c)
      (fun r => left_proc b r (c_size c)) (fun r => right_proc b r (c_size c)) Nz start
      (fun r i => G r m comp i)
      (fun r i => @exchange_fields A plus (c_size c)
           (fun r => left_proc b r (c_size c)) (fun r => right_proc b r (c_size c))
           Replace k (c_nguard c) Nz G r m comp i).
  Proof.
    intros [Hs Hng Hbig HL HR] Hcomp r i Hr Hi.
    unfold exchange_fields. destruct (Z.eqb_spec (c_size c) 1) as [|_]; [lia|].
    destruct (unpack_pack k m comp Hcomp) as [Hup1 Hup2].
    set (ng := c_nguard c) in *. pose proof (Hbig r Hr) as Hb.
    split; [|split].
    - intros l Hl Hi1. destruct (HL r l Hr Hl) as (Hlr & _ & n & Hn0 & Hn).
      pose proof (Hbig l Hlr) as Hbl.
      exists (Nz l - 2 * ng + i). split; [lia|]. split.
      + apply same_place_of with n; [exact Hn0|]. fold ng in Hn. lia.
      + rewrite Hl. unfold recv_right, recv_left, send_r, pack, nz_end, nz_start. cbv beta zeta.
        replace (2 * ng - ng) with ng by lia.
        destruct (right_proc b r (c_size c)) as [s|].
        * destruct (Z.leb_spec (Nz r - ng) i); [lia|]. cbn [andb].
          destruct (Z.leb_spec 0 i); [|lia]. destruct (Z.ltb_spec i ng); [|lia]. cbn [andb]; cbv beta; rewrite Hup1, Hup2; reflexivity.
        * destruct (Z.leb_spec 0 i); [|lia]. destruct (Z.ltb_spec i ng); [|lia]. cbn [andb]; cbv beta; rewrite Hup1, Hup2; reflexivity.
    - intros s Hsr Hi1. destruct (HR r s Hr Hsr) as (Hsrg & Hls).
      destruct (HL s r Hsrg Hls) as (_ & _ & n & Hn0 & Hn). fold ng in Hn.
      pose proof (Hbig s Hsrg) as Hbs.
      exists (ng + (i - (Nz r - ng))). split; [lia|]. split.
      + apply same_place_of with (- n); [intros Hb0; rewrite (Hn0 Hb0); reflexivity|]. lia.
      + rewrite Hsr. unfold recv_right, recv_left, send_l, pack, nz_end, nz_start. cbv beta zeta.
        replace (2 * ng - ng) with ng by lia.
        destruct (Z.leb_spec (Nz r - ng) i); [|lia]. destruct (Z.ltb_spec i (Nz r)); [|lia]. cbn [andb]; cbv beta; rewrite Hup1, Hup2; reflexivity.
    - intros Hl Hrr. unfold recv_right, recv_left, nz_end, nz_start.
      replace (2 * ng - ng) with ng by lia.
      assert (E1 : match match right_proc b r (c_size c) with
                     | Some s => Some (send_l Replace k ng (G s)) | None => None end with
                   | Some _ => (Nz r - ng <=? i) && (i <? Nz r) | None => false end = false).
      { destruct Hrr as [->|Hlt]; [reflexivity|]. destruct (right_proc b r (c_size c)); [|reflexivity].
        destruct (Z.leb_spec (Nz r - ng) i); [lia|reflexivity]. }
      assert (E2 : match left_proc b r (c_size c) with
                   | Some _ => (0 <=? i) && (i <? ng) | None => false end = false).
      { destruct Hl as [->|Hge]; [reflexivity|]. destruct (left_proc b r (c_size c)); [|reflexivity].
        destruct (Z.ltb_spec i ng); [lia|]. apply andb_false_r. }
      destruct (right_proc b r (c_size c)); destruct (left_proc b r (c_size c));
        try rewrite E1; try rewrite E2; reflexivity.
  Qed.

  Hypothesis plus_comm : forall x y, plus x y = plus y x.

  (** Value after 'add' at a row shared with the left (resp. right) neighbour. *)
  Lemma add_left_value b c Nz start k (G : Z -> @grid A) m comp r l i :
    geom_ok b c Nz start -> 0 <= comp < k -> 0 <= r < c_size c ->
    left_proc b r (c_size c) = Some l -> 0 <= i < 2 * c_nguard c ->
    exchange_fields plus (c_size c)
           (fun r => left_proc b r (c_size c)) (fun r => right_proc b r (c_size c))
           Add k (c_nguard c) Nz G r m comp i
    = plus (G r m comp i) (G l m comp (Nz l - 2 * c_nguard c + i)).
  Proof.
    intros [Hs Hng Hbig HL HR] Hcomp Hr Hl Hi.
    unfold exchange_fields. destruct (Z.eqb_spec (c_size c) 1) as [|_]; [lia|].
    destruct (unpack_pack k m comp Hcomp) as [Hup1 Hup2].
    set (ng := c_nguard c) in *. pose proof (Hbig r Hr) as Hb. rewrite Hl.
    unfold recv_right, recv_left, send_r, pack, nz_end, nz_start. cbv beta zeta.
    replace (2 * ng - 0) with (2 * ng) by lia.
    assert (Hin : (0 <=? i) && (i <? 2 * ng) = true) by lia.
    destruct (right_proc b r (c_size c)) as [s|].
    - assert (Hout : (Nz r - 2 * ng <=? i) && (i <? Nz r) = false) by lia.
      rewrite Hout, Hin, Hup1, Hup2. reflexivity.
    - rewrite Hin, Hup1, Hup2. reflexivity.
  Qed.

  Lemma add_right_value b c Nz start k (G : Z -> @grid A) m comp r s i :
    geom_ok b c Nz start -> 0 <= comp < k -> 0 <= r < c_size c ->
    right_proc b r (c_size c) = Some s -> Nz r - 2 * c_nguard c <= i < Nz r ->
    exchange_fields plus (c_size c)
           (fun r => left_proc b r (c_size c)) (fun r => right_proc b r (c_size c))
           Add k (c_nguard c) Nz G r m comp i
    = plus (G r m comp i) (G s m comp (i - (Nz r - 2 * c_nguard c))).
  Proof.
    intros [Hs Hng Hbig HL HR] Hcomp Hr Hl Hi.
    unfold exchange_fields. destruct (Z.eqb_spec (c_size c) 1) as [|_]; [lia|].
    destruct (unpack_pack k m comp Hcomp) as [Hup1 Hup2].
    set (ng := c_nguard c) in *. pose proof (Hbig r Hr) as Hb. rewrite Hl.
    unfold recv_right, recv_left, send_l, pack, nz_end, nz_start. cbv beta zeta.
    replace (2 * ng - 0) with (2 * ng) by lia.
    assert (Hin : (Nz r - 2 * ng <=? i) && (i <? Nz r) = true) by lia.
    assert (Hout : (0 <=? i) && (i <? 2 * ng) = false) by lia.
    rewrite Hin, Hup1, Hup2, Z.add_0_l.
    destruct (left_proc b r (c_size c)) as [l|]; [rewrite Hout|]; reflexivity.
  Qed.

  Lemma add_ok b c Nz start k (G : Z -> grid) m comp :
    geom_ok b c Nz start -> 0 <= comp < k ->
    added plus b (c_Nz c) (c_nguard c) (c_size c)
      (fun r => left_proc b r (c_size c)) (fun r => right_proc b r (c_size c)) Nz start
      (fun r i => G r m comp i)
      (fun r i => exchange_fields plus (c_size c)
           (fun r => left_proc b r (c_size c)) (fun r => right_proc b r (c_size c))
           Add k (c_nguard c) Nz G r m comp i).
  Proof.
    intros Hgeo Hcomp r i Hr Hi. pose proof Hgeo as [Hs Hng Hbig HL HR].
    set (ng := c_nguard c) in *. pose proof (Hbig r Hr) as Hb.
    split; [|split].
    - intros l Hl Hi1. destruct (HL r l Hr Hl) as (Hlr & Hrl & n & Hn0 & Hn). fold ng in Hn.
      pose proof (Hbig l Hlr) as Hbl.
      exists (Nz l - 2 * ng + i). split; [lia|]. split; [|split].
      + apply same_place_of with n; [exact Hn0|]. lia.
      + apply add_left_value with (start := start) (b := b); auto. fold ng. lia.
      + unfold ng. rewrite (add_left_value b c Nz start k G m comp r l i Hgeo Hcomp Hr Hl) by (fold ng; lia).
        rewrite (add_right_value b c Nz start k G m comp l r _ Hgeo Hcomp Hlr Hrl) by (fold ng; lia).
        rewrite plus_comm. f_equal. f_equal. fold ng. lia.
    - intros s Hsr Hi1. destruct (HR r s Hr Hsr) as (Hsrg & Hls).
      destruct (HL s r Hsrg Hls) as (_ & _ & n & Hn0 & Hn). fold ng in Hn.
      pose proof (Hbig s Hsrg) as Hbs.
      exists (i - (Nz r - 2 * ng)). split; [lia|]. split; [|split].
      + apply same_place_of with (- n); [intros Hb0; rewrite (Hn0 Hb0); reflexivity|]. lia.
      + apply add_right_value with (start := start) (b := b); auto. fold ng; lia.
      + unfold ng. rewrite (add_right_value b c Nz start k G m comp r s i Hgeo Hcomp Hr Hsr) by (fold ng; lia).
        rewrite (add_left_value b c Nz start k G m comp s r _ Hgeo Hcomp Hsrg Hls) by (fold ng; lia).
        rewrite plus_comm. f_equal. f_equal. fold ng. lia.
    - intros Hl Hrr. unfold exchange_fields. destruct (Z.eqb_spec (c_size c) 1) as [|_]; [lia|].
      unfold recv_right, recv_left, nz_end, nz_start. fold ng.
      replace (2 * ng - 0) with (2 * ng) by lia.
      assert (E1 : match right_proc b r (c_size c) with
                   | Some _ => (Nz r - 2 * ng <=? i) && (i <? Nz r) | None => false end = false).
      { destruct Hrr as [->|Hlt]; [reflexivity|]. destruct (right_proc b r (c_size c)); [|reflexivity].
        destruct (Z.leb_spec (Nz r - 2 * ng) i); [lia|reflexivity]. }
      assert (E2 : match left_proc b r (c_size c) with
                   | Some _ => (0 <=? i) && (i <? 2 * ng) | None => false end = false).
      { destruct Hl as [->|Hge]; [reflexivity|]. destruct (left_proc b r (c_size c)); [|reflexivity].
        destruct (Z.ltb_spec i (2 * ng)); [lia|]. apply andb_false_r. }
      destruct (right_proc b r (c_size c)); destruct (left_proc b r (c_size c));
        try rewrite E1; try rewrite E2; reflexivity.
  Qed.
End G.
