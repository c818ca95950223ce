(** What C109 says. *)
From Coq Require Import ZArith Reals List.
From Verif Require Import Base Sort_Model Ionize_Model Ionize_Spec Draw_Model.
Import ListNotations.
Open Scope Z_scope.

(** One step with the integer [k] for the ion [ip], and any draws for the other ions, ionizes the ion [ip]. *)
Definition ionizes c tab level_start level_max Ntot batch_size ion (per_level : bool) targets s st (others : Z -> R) (ip : Z) (use_cuda : bool) (k : Z) : Prop :=
  exists s' st', handle_ionization c tab level_start level_max Ntot batch_size ion (fun i => if i =? ip then random_draw use_cuda k else others i) per_level targets s st = Ok (s', st') /\
  ionization_level s' ip = ionization_level s ip + 1.
(** Exactly / at least [n] of the integers 0, ..., N - 1 have the property P. *)
Definition exactly (N : Z) (P : Z -> Prop) (n : Z) : Prop := exists l, NoDup l /\ (forall k, In k l <-> 0 <= k < N /\ P k) /\ Z.of_nat (length l) = n.
Definition at_least (N : Z) (P : Z -> Prop) (n : Z) : Prop := exists l, NoDup l /\ (forall k, In k l -> 0 <= k < N /\ P k) /\ Z.of_nat (length l) = n.
(** A setting in which ionization is possible *)
Definition ready level_start level_max Ntot batch_size ion (per_level : bool) (targets : list nat) s st ip : Prop :=
  0 < batch_size /\ levels_ok level_start level_max Ntot s /\ weights_ok Ntot ion s /\ sizes_ok st /\
  Z.of_nat (length targets) = (if per_level then level_max - level_start else 1) /\ 0 <= ip < Ntot /\ ionization_level s ip < level_max.
