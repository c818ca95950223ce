(** Proofs for C22, C23, C52. *)
From Verif Require Import Base Decomp_Proofs Inject_Proofs Chunk_Model Chunk_Proofs Shape_Model Shape_Spec Shape_Proofs Deposit_Model Deposit_Spec.
From Coq Require Import Reals Lra Psatz.
From Flocq Require Import Core.Core.
From Coquelicot Require Import Complex.
Open Scope Z_scope.

(** ** Sums over lists *)
Lemma lsum_nil {A} (f : A -> C) : lsum f [] = RtoC 0. Proof. reflexivity. Qed.
Lemma lsum_cons {A} (f : A -> C) a l : lsum f (a :: l) = Cplus (f a) (lsum f l). Proof. reflexivity. Qed.
Lemma lsum_app {A} (f : A -> C) l m : lsum f (l ++ m) = Cplus (lsum f l) (lsum f m).
Proof. induction l as [|a l IH]; simpl; [ring|]. rewrite IH. ring. Qed.
Lemma lsum_map {A B} (f : B -> C) (h : A -> B) l : lsum f (map h l) = lsum (fun a => f (h a)) l.
Proof. induction l as [|a l IH]; simpl; [reflexivity|]. rewrite IH. reflexivity. Qed.
Lemma lsum_flat_map {A B} (f : B -> C) (h : A -> list B) l : lsum f (flat_map h l) = lsum (fun a => lsum f (h a)) l.
Proof. induction l as [|a l IH]; simpl; [reflexivity|]. rewrite lsum_app, IH. reflexivity. Qed.
Lemma lsum_ext {A} (f h : A -> C) l : (forall a, In a l -> f a = h a) -> lsum f l = lsum h l.
Proof.
  induction l as [|a l IH]; intros H; [reflexivity|]. simpl. rewrite H, IH; [reflexivity| |left; reflexivity].
  intros b Hb. apply H. right. exact Hb.
Qed.
Lemma lsum_plus {A} (f h : A -> C) l : lsum (fun a => Cplus (f a) (h a)) l = Cplus (lsum f l) (lsum h l).
Proof. induction l as [|a l IH]; simpl; [ring|]. rewrite IH. ring. Qed.
Lemma lsum_scal {A} (x : C) (f : A -> C) l : lsum (fun a => Cmult x (f a)) l = Cmult x (lsum f l).
Proof. induction l as [|a l IH]; simpl; [ring|]. rewrite IH. ring. Qed.
Lemma lsum_scal_r {A} (x : C) (f : A -> C) l : lsum (fun a => Cmult (f a) x) l = Cmult (lsum f l) x.
Proof. induction l as [|a l IH]; simpl; [ring|]. rewrite IH. ring. Qed.
Lemma lsum_zero {A} (f : A -> C) l : (forall a, In a l -> f a = RtoC 0) -> lsum f l = RtoC 0.
Proof.
  induction l as [|a l IH]; intros H; simpl; [reflexivity|]. rewrite H, IH; [ring| |left; reflexivity].
  intros b Hb. apply H. right. exact Hb.
Qed.
Lemma lsum_swap {A B} (f : A -> B -> C) l m :
  lsum (fun a => lsum (fun b => f a b) m) l = lsum (fun b => lsum (fun a => f a b) l) m.
Proof.
  induction l as [|a l IH]; simpl.
  - symmetry. apply lsum_zero. reflexivity.
  - rewrite IH, lsum_plus. reflexivity.
Qed.
Lemma lsum_perm {A} (f : A -> C) l m : Permutation l m -> lsum f l = lsum f m.
Proof. induction 1; simpl; [reflexivity|rewrite IHPermutation; reflexivity|ring|congruence]. Qed.
Lemma lsum_single n i (f : Z -> C) : 0 <= i < n -> lsum (fun k => if k =? i then f k else RtoC 0) (range n) = f i.
Proof.
  intros Hi.
  assert (G : forall l, NoDup l -> In i l -> lsum (fun k => if k =? i then f k else RtoC 0) l = f i).
  { induction l as [|a l IH]; intros Hd Hin; [destruct Hin|]. inversion Hd as [|? ? Ha Hl]; subst. simpl.
    destruct (Z.eqb_spec a i) as [->|Hne].
    - rewrite lsum_zero; [ring|]. intros b Hb. destruct (Z.eqb_spec b i) as [->|]; [contradiction|reflexivity].
    - destruct Hin as [->|Hin]; [congruence|]. rewrite IH by assumption. ring. }
  apply G; [apply NoDup_range|apply in_range; lia].
Qed.
Lemma lsum_rsum {A} (f : A -> R) l : lsum (fun a => RtoC (f a)) l = RtoC (rsum f l).
Proof. induction l as [|a l IH]; simpl; [reflexivity|]. rewrite IH, <- RtoC_plus. reflexivity. Qed.

(** ** Additions to arrays *)
Definition pair_with (phi : Z -> Z -> C) (W : list ((Z * Z) * C)) : C :=
  lsum (fun w => Cmult (phi (fst (fst w)) (snd (fst w))) (snd w)) W.
Definition in_box (n m : Z) (W : list ((Z * Z) * C)) : Prop :=
  forall w, In w W -> 0 <= fst (fst w) < n /\ 0 <= snd (fst w) < m.
Definition grid_sum (n m : Z) (f : Z -> Z -> C) : C := lsum (fun i => lsum (fun j => f i j) (range m)) (range n).

Lemma add_value W : forall a i j, fold_left add_at W a i j =
  Cplus (a i j) (lsum (fun w => if (i =? fst (fst w)) && (j =? snd (fst w)) then snd w else RtoC 0) W).
Proof.
  induction W as [|w W IH]; intros a i j; simpl; [ring|]. rewrite IH. unfold add_at.
  destruct ((i =? fst (fst w)) && (j =? snd (fst w))); ring.
Qed.

Lemma pairing n m W phi : in_box n m W ->
  grid_sum n m (fun i j => Cmult (phi i j) (fold_left add_at W zero2 i j)) = pair_with phi W.
Proof.
  intros Hb. unfold grid_sum, pair_with.
  rewrite (lsum_ext _ (fun i => lsum (fun w => lsum (fun j =>
     Cmult (phi i j) (if (i =? fst (fst w)) && (j =? snd (fst w)) then snd w else RtoC 0)) (range m)) W)).
  - rewrite lsum_swap. apply lsum_ext. intros w Hw. destruct (Hb w Hw) as [H1 H2].
    rewrite (lsum_ext _ (fun i => if i =? fst (fst w) then Cmult (phi i (snd (fst w))) (snd w) else RtoC 0)).
    + apply (lsum_single n (fst (fst w)) (fun i => Cmult (phi i (snd (fst w))) (snd w)) H1).
    + intros i _. destruct (i =? fst (fst w)); cbn [andb].
      * rewrite (lsum_ext _ (fun j => if j =? snd (fst w) then Cmult (phi i j) (snd w) else RtoC 0)).
        -- apply (lsum_single m (snd (fst w)) (fun j => Cmult (phi i j) (snd w)) H2).
        -- intros j _. destruct (j =? snd (fst w)); [reflexivity|ring].
      * apply lsum_zero. intros j _. ring.
  - intros i _. rewrite lsum_swap. apply lsum_ext. intros j _. rewrite add_value. unfold zero2.
    rewrite lsum_scal. ring.
Qed.

(** ** Folding of the guard cells *)
Definition fz (Nz gz : Z) : Z := if gz <? 2 then Nz - 2 + gz else if gz <? Nz + 2 then gz - 2 else gz - Nz - 2.
Definition fr (Nr gr : Z) : Z :=
  if gr =? 0 then 1 else if gr =? 1 then 0 else if gr <? Nr + 2 then gr - 2 else Nr - 1.

Lemma range_guards n : 0 <= n -> range (n + 4) = [0; 1] ++ map (fun i => i + 2) (range n) ++ [n + 2; n + 3].
Proof.
  intros Hn. replace (n + 4) with (2 + (n + 2)) by lia. rewrite range_add, range_add by lia.
  rewrite map_app. change (range 2) with [0; 1]. cbn [map app]. do 2 f_equal. f_equal.
  - apply map_ext. intros a. lia.
  - f_equal; [lia|]. f_equal. lia.
Qed.
Lemma lsum_guards n (f : Z -> C) : 0 <= n ->
  lsum f (range (n + 4)) =
  Cplus (Cplus (f 0) (f 1)) (Cplus (lsum (fun i => f (i + 2)) (range n)) (Cplus (f (n + 2)) (f (n + 3)))).
Proof. intros Hn. rewrite range_guards, !lsum_app, lsum_map by exact Hn. simpl. ring. Qed.

Lemma slice_pair phi nthreads Nz Nr iz gz G : 2 <= Nr -> fz Nz gz = iz ->
  pair_with phi (reduce_slice nthreads Nr iz gz G) =
  lsum (fun t => lsum (fun gr => Cmult (phi (fz Nz gz) (fr Nr gr)) (G t gz gr)) (range (Nr + 4))) (range nthreads).
Proof.
  intros HNr E. rewrite E. unfold pair_with, reduce_slice. rewrite lsum_flat_map. apply lsum_ext. intros t _.
  rewrite lsum_guards by lia.
  change (fr Nr 0) with 1. change (fr Nr 1) with 0.
  assert (fr Nr (Nr + 2) = Nr - 1) as ->.
  { unfold fr. destruct (Z.eqb_spec (Nr + 2) 0); [lia|]. destruct (Z.eqb_spec (Nr + 2) 1); [lia|].
    destruct (Z.ltb_spec (Nr + 2) (Nr + 2)); lia. }
  assert (fr Nr (Nr + 3) = Nr - 1) as ->.
  { unfold fr. destruct (Z.eqb_spec (Nr + 3) 0); [lia|]. destruct (Z.eqb_spec (Nr + 3) 1); [lia|].
    destruct (Z.ltb_spec (Nr + 3) (Nr + 2)); lia. }
  rewrite (lsum_ext (fun i => Cmult (phi iz (fr Nr (i + 2))) (G t gz (i + 2)))
            (fun i => Cmult (phi iz i) (G t gz (i + 2)))).
  - rewrite !lsum_cons, lsum_app, lsum_map, !lsum_cons, lsum_nil. cbn [fst snd]. ring.
  - intros i Hi. apply in_range in Hi. do 2 f_equal. unfold fr.
    destruct (Z.eqb_spec (i + 2) 0); [lia|]. destruct (Z.eqb_spec (i + 2) 1); [lia|].
    destruct (Z.ltb_spec (i + 2) (Nr + 2)); lia.
Qed.

Lemma reduce_pair phi nthreads Nz Nr G : 2 <= Nz -> 2 <= Nr ->
  pair_with phi (sum_reduce_2d_array nthreads Nz Nr G) =
  lsum (fun t => grid_sum (Nz + 4) (Nr + 4) (fun gz gr => Cmult (phi (fz Nz gz) (fr Nr gr)) (G t gz gr))) (range nthreads).
Proof.
  intros HNz HNr. unfold sum_reduce_2d_array, grid_sum.
  rewrite (lsum_swap (fun t gz => lsum (fun gr => Cmult (phi (fz Nz gz) (fr Nr gr)) (G t gz gr)) (range (Nr + 4)))).
  rewrite lsum_guards by lia.
  assert (S : forall iz gz, fz Nz gz = iz -> lsum (fun w => Cmult (phi (fst (fst w)) (snd (fst w))) (snd w)) (reduce_slice nthreads Nr iz gz G)
     = lsum (fun t => lsum (fun gr => Cmult (phi (fz Nz gz) (fr Nr gr)) (G t gz gr)) (range (Nr + 4))) (range nthreads)).
  { intros iz gz E. apply (slice_pair phi nthreads Nz Nr iz gz G HNr E). }
  unfold pair_with. rewrite !lsum_app, lsum_flat_map.
  rewrite (S (Nz - 2) 0), (S (Nz - 1) 1), (S 0 (Nz + 2)), (S 1 (Nz + 3)).
  - rewrite (lsum_ext _ (fun iz => lsum (fun t => lsum (fun gr => Cmult (phi (fz Nz (iz + 2)) (fr Nr gr)) (G t (iz + 2) gr)) (range (Nr + 4))) (range nthreads))).
    + ring.
    + intros iz Hi. apply in_range in Hi. apply S. unfold fz. destruct (Z.ltb_spec (iz + 2) 2); [lia|].
      destruct (Z.ltb_spec (iz + 2) (Nz + 2)); lia.
  - unfold fz. destruct (Z.ltb_spec (Nz + 3) 2); [lia|]. destruct (Z.ltb_spec (Nz + 3) (Nz + 2)); lia.
  - unfold fz. destruct (Z.ltb_spec (Nz + 2) 2); [lia|]. destruct (Z.ltb_spec (Nz + 2) (Nz + 2)); lia.
  - unfold fz. destruct (Z.ltb_spec 1 2); lia.
  - unfold fz. destruct (Z.ltb_spec 0 2); lia.
Qed.

Lemma reduce_in_box nthreads Nz Nr G : 2 <= Nz -> 2 <= Nr -> in_box Nz Nr (sum_reduce_2d_array nthreads Nz Nr G).
Proof.
  intros HNz HNr.
  assert (S : forall iz gz, 0 <= iz < Nz -> in_box Nz Nr (reduce_slice nthreads Nr iz gz G)).
  { intros iz gz Hiz w Hw. unfold reduce_slice in Hw. apply in_flat_map in Hw as [it [_ Hw]].
    destruct Hw as [<-|[<-|Hw]]; [cbn; lia|cbn; lia|]. apply in_app_iff in Hw as [Hw|[<-|[<-|[]]]]; [|cbn; lia|cbn; lia].
    apply in_map_iff in Hw as [ir [<- Hir]]. apply in_range in Hir. cbn. lia. }
  intros w Hw. unfold sum_reduce_2d_array in Hw. rewrite !in_app_iff in Hw.
  destruct Hw as [Hw|[Hw|[Hw|[Hw|Hw]]]]; [|eapply S; [|exact Hw]; lia..].
  apply in_flat_map in Hw as [iz [Hiz Hw]]. apply in_range in Hiz. eapply S; [|exact Hw]. lia.
Qed.

(** ** The particles *)
Section C.
Context (c : R) (g : grid) (k : Deposit_Model.comp) (m : nat) (Hg : grid_ok g).

Definition contrib (sp : species) (p : ptcl) := contributions c g (sp_shape sp) k m (sp_q sp) (sp_ionizable sp) p.

Lemma zcell_range p : in_grid g p -> 0 <= Zceil (z_cell g p) <= g_Nz g.
Proof.
  intros [H1 H2]. destruct Hg as (Hd & _ & HN & _).
  assert (A : (0 <= 1 / g_dz g * (p_z p - g_zmin g) <= IZR (g_Nz g))%R).
  { split.
    - apply Rmult_le_pos; [|lra]. unfold Rdiv. rewrite Rmult_1_l. left. apply Rinv_0_lt_compat. exact Hd.
    - apply Rmult_le_reg_r with (g_dz g); [exact Hd|].
      replace (1 / g_dz g * (p_z p - g_zmin g) * g_dz g)%R with (p_z p - g_zmin g)%R by (field; lra). lra. }
  unfold z_cell. split.
  - assert (-1 < Zceil (1 / g_dz g * (p_z p - g_zmin g) - 1 / 2)); [|lia].
    apply lt_IZR. apply Rlt_le_trans with (2 := Zceil_ub _). lra.
  - apply Zceil_glb. lra.
Qed.
Lemma rcell_nonneg p : 0 <= Zceil (r_cell g p).
Proof.
  destruct Hg as (_ & Hd & _). unfold r_cell.
  assert (0 <= 1 / g_dr g * (rj p - 0))%R.
  { apply Rmult_le_pos; [unfold Rdiv; rewrite Rmult_1_l; left; apply Rinv_0_lt_compat; exact Hd|].
    unfold rj. pose proof (sqrt_pos (p_x p ^ 2 + p_y p ^ 2)). lra. }
  assert (-1 < Zceil (1 / g_dr g * (rj p - 0) - 1 / 2)); [|lia].
  apply lt_IZR. apply Rlt_le_trans with (2 := Zceil_ub _). lra.
Qed.
Lemma contrib_in_box sp p : in_grid g p -> in_box (g_Nz g + 4) (g_Nr g + 4) (contrib sp p).
Proof.
  intros Hp w Hw. unfold contrib, contributions in Hw. apply in_flat_map in Hw as [a [Ha Hw]].
  apply in_map_iff in Hw as [b [<- Hb]]. cbn [fst snd]. apply in_range in Ha, Hb.
  pose proof (zcell_range p Hp). pose proof (rcell_nonneg p). destruct Hg as (_ & _ & H1 & H2 & _).
  destruct (sp_shape sp); cbn [npts iz_cell ir_cell] in *; lia.
Qed.

Definition thread_writes (nthreads : Z) (t : Z) (sp : species) : list ((Z * Z) * C) :=
  if Req_EM_T (sp_q sp) 0 then [] else
  flat_map (fun i => contrib sp (nth (Z.to_nat i) (sp_ptcl sp) no_ptcl))
           (chunk_of (get_chunk_indices (Z.of_nat (length (sp_ptcl sp))) nthreads) t).

Lemma G_writes nthreads t l : forall G,
  fold_left (species_deposit c g k m nthreads) l G t = fold_left add_at (flat_map (thread_writes nthreads t) l) (G t).
Proof.
  induction l as [|sp l IH]; intros G; [reflexivity|]. cbn [fold_left flat_map]. rewrite IH, fold_left_app. f_equal.
  unfold species_deposit, thread_writes. destruct (Req_EM_T (sp_q sp) 0); reflexivity.
Qed.

Lemma in_chunk nthreads N t i : 0 <= N -> 1 <= nthreads -> N + nthreads <= 2 ^ 53 -> 0 <= t < nthreads ->
  In i (chunk_of (get_chunk_indices N nthreads) t) -> 0 <= i < N.
Proof.
  intros H1 H2 H3 Ht Hi. destruct (chunk_main N nthreads H1 H2 H3) as (_ & _ & E).
  apply in_range. rewrite <- E. apply in_flat_map. exists t. split; [apply in_range; lia|exact Hi].
Qed.
Lemma nth_in_list {A} (l : list A) i d : 0 <= i < Z.of_nat (length l) -> In (nth (Z.to_nat i) l d) l.
Proof. intros H. apply nth_In. lia. Qed.

Lemma writes_in_box nthreads t l : 0 <= t < nthreads -> threads_ok nthreads l -> all_in_grid g l ->
  in_box (g_Nz g + 4) (g_Nr g + 4) (flat_map (thread_writes nthreads t) l).
Proof.
  intros Ht [Hn Hl] Hin w Hw. apply in_flat_map in Hw as [sp [Hsp Hw]].
  unfold thread_writes in Hw. destruct (Req_EM_T (sp_q sp) 0); [destruct Hw|].
  apply in_flat_map in Hw as [i [Hi Hw]].
  unfold all_in_grid in Hin. rewrite Forall_forall in Hl, Hin. specialize (Hl sp Hsp). specialize (Hin sp Hsp).
  apply in_chunk in Hi; try lia. eapply contrib_in_box; [|exact Hw].
  rewrite Forall_forall in Hin. apply Hin. apply nth_in_list. exact Hi.
Qed.

Lemma map_nth_range {A} (l : list A) d : map (fun i => nth (Z.to_nat i) l d) (range (Z.of_nat (length l))) = l.
Proof.
  induction l as [|a l IH] using rev_ind; [reflexivity|].
  rewrite app_length. cbn [length]. rewrite Nat2Z.inj_add. change (Z.of_nat 1) with 1.
  rewrite range_succ by lia. rewrite map_app. cbn [map]. f_equal.
  - rewrite <- IH at 2. apply map_ext_in. intros i Hi. apply in_range in Hi. apply app_nth1. lia.
  - f_equal. rewrite Nat2Z.id, app_nth2, Nat.sub_diag by lia. reflexivity.
Qed.

(** Pairing of the raw deposited array with any test function. *)
Lemma deposit_pair phi nthreads l : threads_ok nthreads l -> all_in_grid g l ->
  grid_sum (g_Nz g) (g_Nr g) (fun i j => Cmult (phi i j)
    (fold_left add_at (sum_reduce_2d_array nthreads (g_Nz g) (g_Nr g)
       (fold_left (species_deposit c g k m nthreads) l (fun _ => zero2))) zero2 i j)) =
  lsum (fun sp => lsum (fun p => pair_with (fun gz gr => phi (fz (g_Nz g) gz) (fr (g_Nr g) gr)) (contrib sp p)) (sp_ptcl sp))
       (filter (fun sp => if Req_EM_T (sp_q sp) 0 then false else true) l).
Proof.
  intros Hth Hin. assert (HN : 2 <= g_Nz g /\ 2 <= g_Nr g) by (destruct Hg as (_ & _ & ? & ? & _); lia).
  rewrite pairing by (apply reduce_in_box; lia). rewrite reduce_pair by lia.
  rewrite (lsum_ext _ (fun t => pair_with (fun gz gr => phi (fz (g_Nz g) gz) (fr (g_Nr g) gr)) (flat_map (thread_writes nthreads t) l))).
  - unfold pair_with. rewrite (lsum_ext _ (fun t => lsum (fun sp => lsum (fun w => Cmult (phi (fz (g_Nz g) (fst (fst w))) (fr (g_Nr g) (snd (fst w)))) (snd w)) (thread_writes nthreads t sp)) l))
      by (intros t _; apply lsum_flat_map).
    rewrite lsum_swap. destruct Hth as [Hn Hth]. clear Hin. induction Hth as [|sp l Hsp Hl IH]; [reflexivity|].
    rewrite lsum_cons. cbn [filter].
    rewrite IH. unfold thread_writes at 1. destruct (Req_EM_T (sp_q sp) 0) as [E|E].
    + rewrite lsum_zero by reflexivity. ring.
    + rewrite lsum_cons. f_equal.
      rewrite (lsum_ext _ (fun t => lsum (fun i => lsum (fun w => Cmult (phi (fz (g_Nz g) (fst (fst w))) (fr (g_Nr g) (snd (fst w)))) (snd w))
          (contrib sp (nth (Z.to_nat i) (sp_ptcl sp) no_ptcl))) (chunk_of (get_chunk_indices (Z.of_nat (length (sp_ptcl sp))) nthreads) t)))
        by (intros t _; apply lsum_flat_map).
      rewrite <- lsum_flat_map. destruct (chunk_main (Z.of_nat (length (sp_ptcl sp))) nthreads ltac:(lia) Hn Hsp) as (_ & _ & ->).
      assert (E2 : forall F : ptcl -> C, lsum F (sp_ptcl sp) =
         lsum (fun i => F (nth (Z.to_nat i) (sp_ptcl sp) no_ptcl)) (range (Z.of_nat (length (sp_ptcl sp))))).
      { intros F. rewrite <- (lsum_map F (fun i => nth (Z.to_nat i) (sp_ptcl sp) no_ptcl)), map_nth_range. reflexivity. }
      rewrite E2. reflexivity.
  - intros t Ht. apply in_range in Ht.
    rewrite <- (pairing (g_Nz g + 4) (g_Nr g + 4)) by (apply writes_in_box; assumption).
    unfold grid_sum. apply lsum_ext. intros i _. apply lsum_ext. intros j _. rewrite G_writes. reflexivity.
Qed.
End C.

(** ** C22, C23, C52 *)
Lemma over_cells_eq g f : over_cells g f = grid_sum (g_Nz g) (g_Nr g) f.
Proof. reflexivity. Qed.

Lemma rsum_zsum n f : rsum f (range n) = zsum n f. Proof. reflexivity. Qed.

Lemma rsum_scal {A} (x : R) (f : A -> R) l : rsum (fun a => (x * f a)%R) l = (x * rsum f l)%R.
Proof. induction l as [|a l IH]; simpl; [ring|]. rewrite IH. ring. Qed.
Lemma rsum_ext {A} (f h : A -> R) l : (forall a, f a = h a) -> rsum f l = rsum h l.
Proof. intros H. induction l as [|a l IH]; simpl; [reflexivity|]. rewrite H, IH. reflexivity. Qed.

Lemma contrib_total c g k sp p : flip k 0 = 1%R ->
  pair_with (fun _ _ => RtoC 1) (contrib c g k 0 sp p) = RtoC (scal0 c k (sp_q sp * eff_weight (sp_ionizable sp) p) p).
Proof.
  intros Hf. unfold pair_with, contrib, contributions. rewrite lsum_flat_map.
  rewrite (lsum_ext _ (fun a => Cmult (RtoC (Sz (sp_shape sp) (z_cell g p) a))
     (RtoC (scal0 c k (sp_q sp * eff_weight (sp_ionizable sp) p) p)))).
  - rewrite lsum_scal_r, lsum_rsum, rsum_zsum, sz_sum. ring.
  - intros a _. rewrite lsum_map. cbn [snd fst scal]. rewrite Hf.
    rewrite (lsum_ext _ (fun b => Cmult (Cmult (RtoC (Sz (sp_shape sp) (z_cell g p) a)) (RtoC (scal0 c k (sp_q sp * eff_weight (sp_ionizable sp) p) p)))
        (RtoC (Sr (sp_shape sp) (r_cell g p) b 1 (bn g (sp_shape sp) 0 p))))).
    + rewrite lsum_scal, lsum_rsum, rsum_zsum, sr_sum. ring.
    + intros b _. rewrite RtoC_mult. ring.
Qed.

Lemma deposit_total c g k nthreads ptcl sl : grid_ok g -> flip k 0 = 1%R ->
  threads_ok nthreads (depositing ptcl sl) -> all_in_grid g (depositing ptcl sl) ->
  over_cells g (fun iz ir => Cmult (deposit c g k 0 nthreads ptcl sl iz ir) (RtoC (g_vol g ir))) =
  lsum (fun sp => lsum (fun p => RtoC (scal0 c k (sp_q sp * eff_weight (sp_ionizable sp) p) p)) (sp_ptcl sp))
       (filter (fun sp => if Req_EM_T (sp_q sp) 0 then false else true) (depositing ptcl sl)).
Proof.
  intros Hg Hf Hth Hin. rewrite over_cells_eq.
  rewrite <- (lsum_ext (fun sp => lsum (fun p => pair_with (fun _ _ => RtoC 1) (contrib c g k 0 sp p)) (sp_ptcl sp))).
  - rewrite <- (deposit_pair c g k 0 Hg (fun _ _ => RtoC 1) nthreads _ Hth Hin). unfold grid_sum.
    apply lsum_ext. intros iz _. apply lsum_ext. intros ir Hir. apply in_range in Hir.
    unfold deposit, divide_by_volume. cbv zeta. fold (depositing ptcl sl).
    destruct Hg as (_ & _ & _ & _ & Hv). specialize (Hv ir Hir).
    rewrite <- Cmult_assoc, <- RtoC_mult. replace (1 / g_vol g ir * g_vol g ir)%R with 1%R by (field; exact Hv). ring.
  - intros sp _. apply lsum_ext. intros p _. apply contrib_total. exact Hf.
Qed.

Lemma filter_q_charge (f : species -> R) l : (forall s, sp_q s = 0%R -> f s = 0%R) ->
  lsum (fun s => RtoC (f s)) (filter (fun sp => if Req_EM_T (sp_q sp) 0 then false else true) l) = RtoC (rsum f l).
Proof.
  intros H. induction l as [|s l IH]; [reflexivity|]. cbn [filter]. destruct (Req_EM_T (sp_q s) 0) as [E|E].
  - rewrite IH. cbn [rsum fold_right]. rewrite (H s E), Rplus_0_l. reflexivity.
  - rewrite lsum_cons, IH. cbn [rsum fold_right]. rewrite RtoC_plus. reflexivity.
Qed.

Lemma total_charge c g nthreads ptcl sl : grid_ok g ->
  threads_ok nthreads (depositing ptcl sl) -> all_in_grid g (depositing ptcl sl) ->
  over_cells g (fun iz ir => Cmult (deposit c g Rho 0 nthreads ptcl sl iz ir) (RtoC (g_vol g ir))) =
  RtoC (rsum charge (depositing ptcl sl)).
Proof.
  intros Hg Hth Hin. rewrite (deposit_total c g Rho nthreads ptcl sl Hg eq_refl Hth Hin).
  rewrite <- filter_q_charge by (intros s E; unfold charge; rewrite E; ring).
  apply lsum_ext. intros s _. rewrite lsum_rsum. f_equal. unfold charge. rewrite <- rsum_scal.
  apply rsum_ext. intros p. reflexivity.
Qed.
Lemma total_current c g nthreads ptcl sl : grid_ok g ->
  threads_ok nthreads (depositing ptcl sl) -> all_in_grid g (depositing ptcl sl) ->
  over_cells g (fun iz ir => Cmult (deposit c g Jz 0 nthreads ptcl sl iz ir) (RtoC (g_vol g ir))) =
  RtoC (rsum (axial_current c) (depositing ptcl sl)).
Proof.
  intros Hg Hth Hin. rewrite (deposit_total c g Jz nthreads ptcl sl Hg eq_refl Hth Hin).
  rewrite <- filter_q_charge by (intros s E; unfold axial_current; rewrite E; ring).
  apply lsum_ext. intros s _. rewrite lsum_rsum. f_equal. unfold axial_current. rewrite <- rsum_scal.
  apply rsum_ext. intros p. cbn [scal0]. change (eff_weight (sp_ionizable s) p) with (weight s p). ring.
Qed.

(** Value of one cell. *)
Definition delta (i0 j0 i j : Z) : C := if (i =? i0) && (j =? j0) then RtoC 1 else RtoC 0.
Lemma grid_sum_delta n m i0 j0 (f : Z -> Z -> C) : 0 <= i0 < n -> 0 <= j0 < m ->
  grid_sum n m (fun i j => Cmult (delta i0 j0 i j) (f i j)) = f i0 j0.
Proof.
  intros Hi Hj. unfold grid_sum. rewrite (lsum_ext _ (fun i => if i =? i0 then f i j0 else RtoC 0)).
  - apply (lsum_single n i0 (fun i => f i j0) Hi).
  - intros i _. unfold delta. destruct (i =? i0); cbn [andb].
    + rewrite (lsum_ext _ (fun j => if j =? j0 then f i j else RtoC 0)); [apply (lsum_single m j0 (fun j => f i j) Hj)|].
      intros j _. destruct (j =? j0); ring.
    + apply lsum_zero. intros j _. ring.
Qed.

Lemma deposit_cell c g k m nthreads ptcl sl iz ir : grid_ok g ->
  threads_ok nthreads (depositing ptcl sl) -> all_in_grid g (depositing ptcl sl) ->
  0 <= iz < g_Nz g -> 0 <= ir < g_Nr g ->
  deposit c g k m nthreads ptcl sl iz ir =
  Cmult (lsum (fun sp => lsum (fun p => pair_with (fun gz gr => delta iz ir (fz (g_Nz g) gz) (fr (g_Nr g) gr)) (contrib c g k m sp p)) (sp_ptcl sp))
       (filter (fun sp => if Req_EM_T (sp_q sp) 0 then false else true) (depositing ptcl sl)))
    (RtoC (1 / g_vol g ir)).
Proof.
  intros Hg Hth Hin Hiz Hir. rewrite <- (deposit_pair c g k m Hg (delta iz ir) nthreads _ Hth Hin).
  rewrite grid_sum_delta by assumption. reflexivity.
Qed.

Lemma reordered_contrib c g k m s s' : reordered s s' ->
  forall (phi : Z -> Z -> C), lsum (fun p => pair_with phi (contrib c g k m s p)) (sp_ptcl s) =
  lsum (fun p => pair_with phi (contrib c g k m s' p)) (sp_ptcl s').
Proof.
  intros (E1 & E2 & E3 & E4 & Hp) phi. rewrite (lsum_perm _ _ _ Hp). apply lsum_ext. intros p _.
  unfold contrib. rewrite E1, E3, E4. reflexivity.
Qed.

Lemma reordered_filter (P : species -> bool) l l' : (forall s s', reordered s s' -> P s = P s') ->
  Forall2 reordered l l' -> Forall2 reordered (filter P l) (filter P l').
Proof.
  intros HP H. induction H as [|s s' l l' Hs Hl IH]; [constructor|]. cbn [filter]. rewrite <- (HP s s' Hs).
  destruct (P s); [constructor; assumption|exact IH].
Qed.
Lemma reordered_depositing ptcl ptcl' sl sl' : Forall2 reordered ptcl ptcl' ->
  match sl, sl' with None, None => True | Some l, Some l' => Forall2 reordered l l' | _, _ => False end ->
  Forall2 reordered (depositing ptcl sl) (depositing ptcl' sl').
Proof.
  intros Hp Hs. destruct sl as [l|], sl' as [l'|]; cbn [depositing]; try contradiction; [exact Hs|].
  apply reordered_filter; [|exact Hp]. intros s s' (_ & E & _). rewrite E. reflexivity.
Qed.

Lemma order_independent c g k m n n' ptcl ptcl' iz ir : grid_ok g -> Forall2 reordered ptcl ptcl' ->
  threads_ok n ptcl -> threads_ok n' ptcl' -> all_in_grid g ptcl -> 0 <= iz < g_Nz g -> 0 <= ir < g_Nr g ->
  deposit c g k m n ptcl None iz ir = deposit c g k m n' ptcl' None iz ir.
Proof.
  intros Hg Hr Ht Ht' Hin Hiz Hir.
  assert (Hin' : all_in_grid g ptcl').
  { clear Ht Ht'. induction Hr as [|s s' l l' Hs Hl IH]; [constructor|]. inversion Hin as [|? ? H1 H2]; subst.
    constructor; [|apply IH; exact H2]. destruct Hs as (_ & _ & _ & _ & Hp). rewrite Forall_forall in *.
    intros p Hpp. apply H1. eapply Permutation_in; [symmetry; exact Hp|exact Hpp]. }
  assert (F : forall n l, threads_ok n l -> threads_ok n (depositing l None)).
  { intros x l [A B]. split; [exact A|]. rewrite Forall_forall in *. intros s Hs. apply B. apply filter_In in Hs. tauto. }
  assert (F2 : forall l, all_in_grid g l -> all_in_grid g (depositing l None)).
  { intros l A. unfold all_in_grid in *. rewrite Forall_forall in *. intros s Hs. apply A. apply filter_In in Hs. tauto. }
  rewrite !deposit_cell by auto. f_equal.
  assert (H : Forall2 reordered (filter (fun sp => if Req_EM_T (sp_q sp) 0 then false else true) (depositing ptcl None))
                       (filter (fun sp => if Req_EM_T (sp_q sp) 0 then false else true) (depositing ptcl' None))).
  { apply reordered_filter.
    - intros s s' (E & _). rewrite E. reflexivity.
    - apply reordered_depositing; [exact Hr|exact I]. }
  clear -H. induction H as [|s s' l l' Hs Hl IH]; [reflexivity|]. rewrite !lsum_cons, IH. f_equal.
  apply (reordered_contrib c g k m s s' Hs (fun gz gr => delta iz ir (fz (g_Nz g) gz) (fr (g_Nr g) gr))).
Qed.

(** Tracers and neutral species: no hypothesis on the particles is needed. *)
Lemma silent_species c g k m n l1 l2 s : sp_tracer s = true \/ sp_q s = 0%R ->
  deposit c g k m n (l1 ++ s :: l2) None = deposit c g k m n (l1 ++ l2) None.
Proof.
  intros Hs. unfold deposit. f_equal. f_equal. f_equal. rewrite !filter_app. cbn [filter].
  destruct (sp_tracer s) eqn:E; [reflexivity|]. destruct Hs as [Hs|Hs]; [discriminate|]. cbn [negb].
  rewrite !fold_left_app. cbn [fold_left]. f_equal. unfold species_deposit at 1.
  destruct (Req_EM_T (sp_q s) 0); [reflexivity|contradiction].
Qed.

Lemma silent_filter c g k m n l : forall G,
  fold_left (species_deposit c g k m n) (filter (fun s => negb (sp_tracer s)) l) G =
  fold_left (species_deposit c g k m n) (filter active l) G.
Proof.
  induction l as [|s l IH]; intros G; [reflexivity|]. cbn [filter]. unfold active at 1.
  destruct (sp_tracer s); cbn [negb andb]; [apply IH|]. cbn [fold_left].
  destruct (Req_EM_T (sp_q s) 0) as [E|E].
  - unfold species_deposit at 2. destruct (Req_EM_T (sp_q s) 0); [apply IH|contradiction].
  - cbn [fold_left]. apply IH.
Qed.
Lemma silent_lists c g k m n l l' : filter active l = filter active l' ->
  deposit c g k m n l None = deposit c g k m n l' None.
Proof. intros H. unfold deposit. rewrite !silent_filter, H. reflexivity. Qed.
