(** C38: the modified wave number of a finite-order solver. *)
From Verif Require Import Base ModK_Model ModK_Spec ModK_Proofs.
From Coq Require Import Reals Lra Lia.
From Coquelicot Require Import Coquelicot.
Open Scope R_scope.

(** For every even order 2m > 0, the values returned are the symbol of one antisymmetric stencil of reach m
    (acting on every cosine and sine), and that stencil differentiates every polynomial of degree at most 2m exactly. *)
Theorem C38_stencil (m : nat) (dz : R) : (0 < m)%nat -> dz <> 0 ->
  exists (a : nat -> R) (f : R -> R),
    (forall ks, get_modified_k ks (2 * Z.of_nat m) dz = Ok (map f ks)) /\
    (forall k x, stencil a m dz (fun y => cos (k * y)) x = - f k * sin (k * x)) /\
    (forall k x, stencil a m dz (fun y => sin (k * y)) x = f k * cos (k * x)) /\
    (forall (l : list R) (x : R), (length l <= 2 * m + 1)%nat -> is_derive (polyn l) x (stencil a m dz (polyn l) x)) /\
    (forall k, f (- k) = - f k) /\ f 0 = 0.
Proof.
  intros Hm Hdz. exists (stencil_coef m), (modified_k m dz).
  split; [|split; [|split; [|split; [|split]]]].
  - intros ks. unfold get_modified_k.
    replace (2 * Z.of_nat m =? -1)%Z with false by (symmetry; apply Z.eqb_neq; lia).
    replace ((2 * Z.of_nat m) mod 2 =? 1)%Z with false by (symmetry; apply Z.eqb_neq; rewrite Z.mul_comm, Z.mod_mul; lia).
    replace (2 * Z.of_nat m <=? 0)%Z with false by (symmetry; apply Z.leb_gt; lia). cbn [orb].
    rewrite (Z.mul_comm 2), Z.div_mul, Nat2Z.id by lia. reflexivity.
  - intros; apply symbol_cos; assumption.
  - intros; apply symbol_sin; assumption.
  - intros; apply stencil_exact; assumption.
  - apply modified_k_odd.
  - apply modified_k_0.
Qed.
Print Assumptions C38_stencil.

(** Which orders are accepted: -1 (the exact k, returned unchanged) and the positive even ones. *)
Theorem C38_orders (ks : list R) (n_order : Z) (dz : R) :
  (n_order = -1 -> get_modified_k ks n_order dz = Ok ks)%Z /\
  ((exists r, get_modified_k ks n_order dz = Ok r) <-> (n_order = -1 \/ (0 < n_order /\ Z.Even n_order))%Z) /\
  (forall e, get_modified_k ks n_order dz = Err e -> e = ValueError).
Proof.
  unfold get_modified_k. split; [intros ->; reflexivity|].
  destruct (Z.eqb_spec n_order (-1)) as [->|N]; [split; [split; eauto|intros; discriminate]|].
  destruct (Z.eqb_spec (n_order mod 2) 1) as [E|E]; cbn [orb].
  { split; [|intros e H; injection H; auto]. split; [intros (r & H); discriminate|]. intros [?|(P & (q & ->))]; [lia|]. rewrite Z.mul_comm, Z.mod_mul in E; lia. }
  destruct (Z.leb_spec n_order 0) as [L|L].
  { split; [|intros e H; injection H; auto]. split; [intros (r & H); discriminate|lia]. }
  split; [|intros; discriminate]. split; [intros _; right; split; [lia|]|eauto].
  exists (n_order / 2)%Z. pose proof (Z.mod_pos_bound n_order 2 ltac:(lia)). pose proof (Z.div_mod n_order 2 ltac:(lia)). lia.
Qed.
Print Assumptions C38_orders.

(** Orders 2 and 4. *)
Example C38_met : stencil_coef 1 1 = 1 /\ stencil_coef 2 1 = 4 / 3 /\ stencil_coef 2 2 = - (1 / 3).
Proof. cbn [stencil_coef INR]. repeat split; field. Qed.
