(** C84: guard-cell exchange and damping on a GPU. *)
From Verif Require Import Base Decomp_Model Decomp_Proofs Guard_Model Guard_Spec Guard_Proofs Guard_Props
  Mirror_Model Damp_Model Damp_Spec Damp_Proofs Damp_Props Cuda_Model Cuda_Proofs GGuard_Model GGuard_Proofs GDamp_Model GDamp_Proofs.
From Coq Require Import Reals Lra Lia.
From Coquelicot Require Import Complex.
Open Scope Z_scope.

(** In the theorems below [any_exchange_fields plus use_cuda gpudirect ... M M'] holds when M' is *some* possible outcome: the
    threads of each launch are interleaved in any order, load by load and store by store. For each radial index, the outcome
    is the one that C03/C04 ask for, on CPU and GPU, with staging through the host or direct transfers between GPUs. *)
Theorem C84_replace : forall {A : Type} (plus : A -> A -> A) (use_cuda gpudirect : bool) b c Nz start k Nr Nm (M M' : Z -> @mem gloc A) m comp ir,
  use_cuda = true \/ gpudirect = false ->
  valid_comm c -> 2 <= c_size c -> 1 <= c_nguard c <= 2 ^ 50 -> 0 <= Nr <= 2 ^ 52 ->
  (b = Periodic -> c_nzdamp c = 0 /\ c_ninject c = 0) ->
  local_geometry c Nz start ->
  (forall r, 0 <= r < c_size c -> exists d, divide_into_domain (with_rank b c r) = Ok d) ->
  0 <= m < Nm -> 0 <= comp < ncomp k -> 0 <= ir < Nr ->
  any_exchange_fields plus use_cuda gpudirect (c_size c) (fun r => left_proc b r (c_size c)) (fun r => right_proc b r (c_size c))
    k Replace (c_nguard c) Nz Nr Nm M M' ->
  replaced b (c_Nz c) (c_nguard c) (c_size c)
    (fun r => left_proc b r (c_size c)) (fun r => right_proc b r (c_size c)) Nz start
    (fun r i => M r (Grd m comp i ir)) (fun r i => M' r (Grd m comp i ir)).
Proof.
  intros A plus uc gd b c Nz start k Nr Nm M M' m comp ir Hor Hv Hs Hg HN Hp Hl Hd Hm Hc Hir Hx.
  assert (G := geom_from_constructor b c Nz start Hv Hs (proj1 Hg) Hp Hl Hd).
  assert (R := C03_replace_exchange plus b c Nz start (ncomp k) (fun r => row (M r) ir) m comp Hv Hs (proj1 Hg) Hp Hl Hd Hc).
  refine (replaced_ext _ _ _ _ _ _ _ _ _ _ _ _ R). intros r i Hr Hi.
  apply (exchange_same plus uc gd _ _ _ k Replace (c_nguard c) Nz Nr Nm M M' Hor ltac:(lia) HN (go_big _ _ _ _ G) ltac:(discriminate)
    (fun r s Hr Hs => let '(conj a (conj b _)) := go_left _ _ _ _ G r s Hr Hs in conj a b) (go_right _ _ _ _ G) Hx r m comp i ir Hr Hm Hc Hi Hir).
Qed.
Print Assumptions C84_replace.
Theorem C84_add : forall {A : Type} (plus : A -> A -> A), (forall x y, plus x y = plus y x) ->
  forall (use_cuda gpudirect : bool) b c Nz start k Nr Nm (M M' : Z -> @mem gloc A) m comp ir,
  use_cuda = true \/ gpudirect = false -> k <> VecPml ->
  valid_comm c -> 2 <= c_size c -> 1 <= c_nguard c <= 2 ^ 50 -> 0 <= Nr <= 2 ^ 52 ->
  (b = Periodic -> c_nzdamp c = 0 /\ c_ninject c = 0) ->
  local_geometry c Nz start ->
  (forall r, 0 <= r < c_size c -> exists d, divide_into_domain (with_rank b c r) = Ok d) ->
  0 <= m < Nm -> 0 <= comp < ncomp k -> 0 <= ir < Nr ->
  any_exchange_fields plus use_cuda gpudirect (c_size c) (fun r => left_proc b r (c_size c)) (fun r => right_proc b r (c_size c))
    k Add (c_nguard c) Nz Nr Nm M M' ->
  added plus b (c_Nz c) (c_nguard c) (c_size c)
    (fun r => left_proc b r (c_size c)) (fun r => right_proc b r (c_size c)) Nz start
    (fun r i => M r (Grd m comp i ir)) (fun r i => M' r (Grd m comp i ir)).
Proof.
  intros A plus Hcm uc gd b c Nz start k Nr Nm M M' m comp ir Hor Hk Hv Hs Hg HN Hp Hl Hd Hm Hc Hir Hx.
  assert (G := geom_from_constructor b c Nz start Hv Hs (proj1 Hg) Hp Hl Hd).
  assert (R := C04_add_exchange plus Hcm b c Nz start (ncomp k) (fun r => row (M r) ir) m comp Hv Hs (proj1 Hg) Hp Hl Hd Hc).
  refine (added_ext plus _ _ _ _ _ _ _ _ _ _ _ (Z.le_trans 0 1 _ ltac:(lia) (proj1 Hg)) (go_big _ _ _ _ G) _ _ _ R).
  - intros r s Hr Hn. exact (proj1 (go_left _ _ _ _ G r s Hr Hn)).
  - intros r s Hr Hn. exact (proj1 (go_right _ _ _ _ G r s Hr Hn)).
  - intros r i Hr Hi.
  apply (exchange_same plus uc gd _ _ _ k Add (c_nguard c) Nz Nr Nm M M' Hor ltac:(lia) HN (go_big _ _ _ _ G) (fun _ => Hk)
    (fun r s Hr Hs => let '(conj a (conj b _)) := go_left _ _ _ _ G r s Hr Hs in conj a b) (go_right _ _ _ _ G) Hx r m comp i ir Hr Hm Hc Hi Hir).
Qed.
Print Assumptions C84_add.
(** The exchange always has an outcome, and no interleaving can get stuck: from any point reached, all threads can finish. *)
Theorem C84_outcome : forall {A : Type} (plus : A -> A -> A) (use_cuda gpudirect : bool) size left right k me ng Nz Nr Nm (M : Z -> @mem gloc A),
  exists M', any_exchange_fields plus use_cuda gpudirect size left right k me ng Nz Nr Nm M M'.
Proof. exact @exchange_exists. Qed.
Print Assumptions C84_outcome.
Theorem C84_damp_outcome : forall ks g, exists g', gpu_runs ks g g'.
Proof. exact gpu_runs_exists. Qed.
Print Assumptions C84_damp_outcome.
Theorem C84_not_stuck : forall {L V : Type} (leq : forall a b : L, {a = b} + {a <> b}) (ts ps : list (prog L V)) m m1,
  ticks leq (ts, m) (ps, m1) -> exists ps' m', ticks leq (ps, m1) (ps', m') /\ Forall (fun p => p = Done) ps'.
Proof. intros L V leq ts ps m m1. apply finishes. Qed.
Print Assumptions C84_not_stuck.

(** Damping at the open ends of the box: the GPU kernels give the arrays that the CPU code gives. *)
Theorem C84_damp : forall c Nz Nr g g', let nd := c_nguard c + c_nzdamp c + c_ninject c in
  0 <= nd <= Nz -> Nz <= 2 ^ 52 -> 0 <= Nr <= 2 ^ 52 ->
  gpu_runs (gpu_damp_EB_open_boundary c Nz Nr (ig_pml g)) g g' ->
  exists gc, damp_EB_open_boundary c Nz g = Ok gc /\ ig_pml g' = ig_pml gc /\
    forall f iz ir, 0 <= iz < Nz -> 0 <= ir < Nr -> ig_arr g' f iz ir = ig_arr gc f iz ir.
Proof. exact damp_same. Qed.
Print Assumptions C84_damp.
(** ... hence the profile of C51. *)
Theorem C84_damp_profile : forall c Nz Nr g g', 0 <= c_nguard c -> 0 < c_nzdamp c -> 0 <= c_ninject c ->
  c_nguard c + c_nzdamp c + c_ninject c <= Nz -> Nz <= 2 ^ 52 -> 0 <= Nr <= 2 ^ 52 ->
  gpu_runs (gpu_damp_EB_open_boundary c Nz Nr (ig_pml g)) g g' ->
  exists phi, damping_profile (c_nguard c + c_ninject c) (c_nzdamp c) phi /\
  forall f iz ir, 0 <= iz < Nz -> 0 <= ir < Nr -> (EB f (ig_pml g) ->
      ig_arr g' f iz ir = Cmult (ig_arr g f iz ir) (RtoC ((if c_left c then 1 else phi iz) * (if c_right c then 1 else phi (Nz - 1 - iz)%Z)))) /\
    (~ EB f (ig_pml g) -> ig_arr g' f iz ir = ig_arr g f iz ir).
Proof.
  intros c Nz Nr g g' H1 H2 H3 H4 HNz HNr Hx.
  destruct (damp_same c Nz Nr g g' ltac:(lia) HNz HNr Hx) as (gc & E & _ & Q).
  destruct (C51_ends c Nz g H1 H2 H3 H4) as (g2 & phi & E2 & Hphi & Q2). rewrite E in E2. injection E2 as <-.
  exists phi. split; [exact Hphi|]. intros f iz ir Hz Hr. rewrite (Q f iz ir Hz Hr). apply Q2.
Qed.
Print Assumptions C84_damp_profile.
(** Radial PML. *)
Theorem C84_pml : forall n_pml Nz Nr k g g', 0 <= n_pml <= Nr -> Nr <= 2 ^ 52 -> 0 <= Nz <= 2 ^ 52 ->
  gpu_runs (gpu_damp_pml_EB n_pml Nz Nr k) g g' ->
  forall f iz ir, 0 <= iz < Nz -> 0 <= ir < Nr -> ig_arr g' f iz ir = ig_arr (damp_pml_EB n_pml Nr k g) f iz ir.
Proof. exact pml_same. Qed.
Print Assumptions C84_pml.

(** FBPIC_ENABLE_GPUDIRECT=1 and a CPU simulation: MPI then exchanges the device buffers, which the CPU code neither fills
    nor reads, and the guard cells receive whatever the host buffers contained. *)
Definition stale : Z -> @mem gloc Z := fun _ l => match l with Grd _ _ _ _ => 1 | _ => 0 end.
Theorem C84_gpudirect_refuted : exists (M : Z -> @mem gloc Z),
  valid_comm exg_comm /\ local_geometry exg_comm (fun _ => 16) (fun r => 8 * r - 4) /\
  (forall r, 0 <= r < 2 -> exists d, divide_into_domain (with_rank Periodic exg_comm r) = Ok d) /\
  (exists M', any_exchange_fields Z.add false true 2 (fun r => left_proc Periodic r 2) (fun r => right_proc Periodic r 2)
     Vec Replace 4 (fun _ => 16) 10 2 M M') /\
  forall M', any_exchange_fields Z.add false true 2 (fun r => left_proc Periodic r 2) (fun r => right_proc Periodic r 2)
     Vec Replace 4 (fun _ => 16) 10 2 M M' ->
  ~ replaced Periodic 16 4 2 (fun r => left_proc Periodic r 2) (fun r => right_proc Periodic r 2) (fun _ => 16) (fun r => 8 * r - 4)
      (fun r i => M r (Grd 0 0 i 0)) (fun r i => M' r (Grd 0 0 i 0)).
Proof.
  exists stale. split; [exact (proj1 exg_hyps)|]. split; [exact (proj1 (proj2 exg_hyps))|]. split; [exact (proj2 (proj2 exg_hyps))|].
  split; [apply exchange_exists|]. intros M' Hx HR.
  destruct (HR 0 0 ltac:(lia) ltac:(lia)) as [Hl _]. destruct (Hl 1 eq_refl ltac:(lia)) as (j & _ & _ & E).
  rewrite (gpudirect_cpu Z.add 2 _ _ Vec 4 (fun _ => 16) 10 2 stale M' ltac:(lia) ltac:(lia) Hx 0 0 0 0 0 ltac:(lia) ltac:(lia) ltac:(discriminate)
    ltac:(lia) ltac:(cbn; lia) ltac:(lia) ltac:(lia)) in E. discriminate E.
Qed.
Print Assumptions C84_gpudirect_refuted.

(** The hypotheses of C84_replace and C84_add hold for two periodic ranks with vector fields of two modes; those of C84_damp
    for a rank with an open left end, on a grid with PML arrays. *)
Definition exg_grid : @igrid C := {| ig_pml := true; ig_dz := 1%R; ig_arr := fun _ _ _ => RtoC 1 |}.
Example C84_met :
  (exists M', any_exchange_fields Z.add true true 2 (fun r => left_proc Periodic r 2) (fun r => right_proc Periodic r 2)
     Vec Replace 4 (fun _ => 16) 10 2 (fun r l => match l with Grd m c iz ir => r + m + c + iz + ir | _ => 0 end) M') /\
  (exists M', any_exchange_fields Z.add true false 2 (fun r => left_proc Open r 2) (fun r => right_proc Open r 2)
     Scal Add 4 (fun _ => 25) 10 2 (fun r l => match l with Grd m c iz ir => r + m + c + iz + ir | _ => 0 end) M') /\
  (0 <= c_nguard exg_open + c_nzdamp exg_open + c_ninject exg_open <= 25) /\ c_left exg_open = None /\
  List.length (gpu_damp_EB_open_boundary exg_open 25 10 (ig_pml exg_grid)) = 2%nat.
Proof. split; [apply exchange_exists|]. split; [apply exchange_exists|]. split; [cbn; lia|]. split; reflexivity. Qed.
