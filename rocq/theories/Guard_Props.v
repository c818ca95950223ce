(** C03, C04: guard-cell exchange. *)
From Verif Require Import Base Decomp_Model Decomp_Proofs Guard_Model Guard_Spec Guard_Proofs.
From Coq Require Import Reals Lra.
Open Scope Z_scope.

(** Hypotheses common to both theorems: a communicator as returned by the constructor
    (valid_comm, no damp/injection cells for periodic boundaries), at least two ranks, at
    least one guard cell, and every rank accepted by the size check of divide_into_domain.
    [k] is the number of field components packed together (1, 3 or 5). *)
Theorem C03_replace_exchange {A : Type} (plus : A -> A -> A) b c Nz start k
        (G : Z -> Z -> Z -> Z -> A) m comp :
  valid_comm c -> 2 <= c_size c -> 1 <= c_nguard c ->
  (b = Periodic -> c_nzdamp c = 0 /\ c_ninject c = 0) ->
  local_geometry c Nz start ->
  (forall r, 0 <= r < c_size c -> exists d, divide_into_domain (with_rank b c r) = Ok d) ->
  0 <= comp < k ->
  replaced b (c_Nz c) (c_nguard c) (c_size c)
    (fun r => left_proc b r (c_size c)) (fun r => right_proc b r (c_size c)) Nz start
    (fun r i => G r m comp i)
    (fun r i => exchange_fields plus (c_size c)
       (fun r => left_proc b r (c_size c)) (fun r => right_proc b r (c_size c))
       Replace k (c_nguard c) Nz G r m comp i).
Proof.
  exact (fun Hv Hs Hg Hp Hl Hd Hc =>
    replace_ok plus b c Nz start k G m comp (geom_from_constructor b c Nz start Hv Hs Hg Hp Hl Hd) Hc).
Qed.
Print Assumptions C03_replace_exchange.

Theorem C04_add_exchange {A : Type} (plus : A -> A -> A)
        (plus_comm : forall x y, plus x y = plus y x) b c Nz start k
        (G : Z -> Z -> Z -> Z -> A) m comp :
  valid_comm c -> 2 <= c_size c -> 1 <= c_nguard c ->
  (b = Periodic -> c_nzdamp c = 0 /\ c_ninject c = 0) ->
  local_geometry c Nz start ->
  (forall r, 0 <= r < c_size c -> exists d, divide_into_domain (with_rank b c r) = Ok d) ->
  0 <= comp < k ->
  added plus b (c_Nz c) (c_nguard c) (c_size c)
    (fun r => left_proc b r (c_size c)) (fun r => right_proc b r (c_size c)) Nz start
    (fun r i => G r m comp i)
    (fun r i => exchange_fields plus (c_size c)
       (fun r => left_proc b r (c_size c)) (fun r => right_proc b r (c_size c))
       Add k (c_nguard c) Nz G r m comp i).
Proof.
  exact (fun Hv Hs Hg Hp Hl Hd Hc =>
    add_ok plus plus_comm b c Nz start k G m comp
      (geom_from_constructor b c Nz start Hv Hs Hg Hp Hl Hd) Hc).
Qed.
Print Assumptions C04_add_exchange.

(** Non-vacuity: two periodic ranks with the smallest accepted local domain
    (4 guard cells, 8 own cells: 16 rows = 4 n_guard). *)
Definition exg_comm : comm :=
  {| c_rank := 0; c_size := 2; c_left := Some 1; c_right := Some 1; c_Nz := 16;
     c_zmin := 0; c_dz := 1; c_nguard := 4; c_nzdamp := 0; c_ninject := 0; c_period := 1 |}.
Example exg_hyps :
  valid_comm exg_comm /\ local_geometry exg_comm (fun _ => 16) (fun r => 8 * r - 4) /\
  forall r, 0 <= r < 2 -> exists d, divide_into_domain (with_rank Periodic exg_comm r) = Ok d.
Proof.
  split; [unfold valid_comm; simpl; lia|]. split.
  - intros r Hr. cbn in Hr. assert (r = 0 \/ r = 1) as [->| ->] by lia; reflexivity.
  - intros r Hr. assert (r = 0 \/ r = 1) as [->| ->] by lia; eexists; reflexivity.
Qed.
(** Both neighbours coincide, and the added region of a rank is its whole local grid. *)
Example exg_values :
  map (fun i => exchange_fields Z.add 2 (fun r => left_proc Periodic r 2)
                 (fun r => right_proc Periodic r 2) Add 3 4 (fun _ => 16)
                 (fun r m comp i => 100 * r + i) 0 0 2 i) [0; 7; 8; 15]
  = [0 + 108; 7 + 115; 8 + 100; 15 + 107].
Proof. reflexivity. Qed.
(** With open boundaries the outer ends are untouched. *)
Definition exg_open : comm :=
  {| c_rank := 0; c_size := 2; c_left := None; c_right := Some 1; c_Nz := 20;
     c_zmin := 0; c_dz := 1; c_nguard := 4; c_nzdamp := 5; c_ninject := 2; c_period := 1 |}.
Example exg_open_hyps :
  valid_comm exg_open /\
  local_geometry exg_open (fun _ => 25) (fun r => if r =? 0 then -11 else 6) /\
  forall r, 0 <= r < 2 -> exists d, divide_into_domain (with_rank Open exg_open r) = Ok d.
Proof.
  split; [unfold valid_comm; simpl; lia|]. split.
  - intros r Hr. cbn in Hr. assert (r = 0 \/ r = 1) as [->| ->] by lia; reflexivity.
  - intros r Hr. assert (r = 0 \/ r = 1) as [->| ->] by lia; eexists; reflexivity.
Qed.
