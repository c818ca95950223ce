(** Vocabulary of C75 and C76: what a user sees of a run. *)
From Verif Require Import Base Step_Model Cycle_Model.
From Coq Require Import Reals.

(** The simulation that results from a call (or the exception). *)
Definition simulation {S L} (r : res (S * L)) : res S := match r with Ok (s, _) => Ok s | Err e => Err e end.
(** The records of the i-th diagnostic. *)
Definition records {S X} (i : nat) (r : res (S * list X)) : res (option X) :=
  match r with Ok (_, l) => Ok (nth_error l i) | Err e => Err e end.

(** [f] is additive for the sum of arrays. *)
Definition additive {A} (plus : A -> A -> A) (zero : A) (f : A -> A) : Prop := f zero = zero /\ forall a b, f (plus a b) = plus (f a) (f b).
Record monoid {A} (plus : A -> A -> A) (zero : A) : Prop := {
  mon_assoc : forall a b c, plus a (plus b c) = plus (plus a b) c; mon_comm : forall a b, plus a b = plus b a;
  mon_zero : forall a, plus zero a = a }.
(** Deposition adds to the array, and the operations on the charge density are additive. *)
Record linear_charge {P Q A W} (k : kernels P Q A W) (plus : A -> A -> A) (zero : A) : Prop := {
  lc_zero : k_zero k false = zero;
  lc_dep : forall w p a, k_dep k false w p a = plus a (k_dep k false w p zero);
  lc_adep : forall w q a, k_adep k false w q a = plus a (k_adep k false w q zero);
  lc_reduce : additive plus zero (k_reduce k false); lc_add : forall w, additive plus zero (k_add k false w);
  lc_fwd : additive plus zero (k_fwd k false); lc_filt : additive plus zero (k_filt k false); lc_bwd : additive plus zero (k_bwd k false) }.

(** The operations between two iterations and the gathering do not change what the species deposit, nor which ones are tracers. *)
Record keeps_species {P Q A W} (k : kernels P Q A W) : Prop := {
  ks_init : forall w ps, map (k_tracer k) (k_init k w ps) = map (k_tracer k) ps;
  ks_exch : forall w t ps, map (k_tracer k) (snd (k_exch_p k w t ps)) = map (k_tracer k) ps;
  ks_gather : forall w eb p, k_tracer k (k_gather k w eb p) = k_tracer k p;
  ks_gather_dep : forall w eb v p a, k_dep k false v (k_gather k w eb p) a = k_dep k false v p a;
  ks_ext : forall t ps, map (k_tracer k) (k_ext k t ps) = map (k_tracer k) ps;
  ks_ext_dep : forall t ps v a, map (fun p => k_dep k false v p a) (k_ext k t ps) = map (fun p => k_dep k false v p a) ps;
  ks_push_p : forall t p, k_tracer k (k_push_p k t p) = k_tracer k p;
  ks_push_x : forall t x y z p, k_tracer k (k_push_x k t x y z p) = k_tracer k p;
  ks_elem : forall w t ps, map (k_tracer k) (snd (k_elem k w t ps)) = map (k_tracer k) ps;
  ks_move : forall w t ps, map (k_tracer k) (snd (fst (fst (fst (k_move k w t ps))))) = map (k_tracer k) ps }.
(** The positions of [false] in a list: the species that are not tracers. *)
Fixpoint positions (n : nat) (l : list bool) : list nat :=
  match l with [] => [] | b :: l => (if b then [] else [n]) ++ positions (S n) l end.
Definition charge_of {P A} (zero : A) (x : out P A) : A := match x with ODensity _ a => a | _ => zero end.
(** A record with one array, equal to the sum of the arrays of another record made at the same iteration on the same grid. *)
Definition is_sum_of {P A W} (plus : A -> A -> A) (zero : A) (x y : record P A W) : Prop :=
  fst x = fst y /\ snd x = [OField Frho (fold_right plus zero (map (charge_of zero) (snd y)))].

(** Starting a call after the end of an iteration leaves E and B as they are. *)
Definition seamless {P Q A W} (k : kernels P Q A W) : Prop :=
  forall w t eb, let '(sp, ip) := k_bound k w t eb in k_damp k w (k_exch k w ip) = ip /\ k_T k ip = sp.
