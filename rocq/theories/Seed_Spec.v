(** What C106 says. *)
From Coq Require Import ZArith Reals List.
From Verif Require Import Base Seed_Model.
Import ListNotations.
Open Scope Z_scope.

(** Operations whose random numbers come from numpy or cupy, on this architecture. *)
Definition no_compiled_draws {L S Out} (cuda : bool) (prog : list (@op L S Out)) : Prop :=
  cuda = false -> forall cpu gpu, ~ In (Scatter L cpu gpu) prog.
(** What the user gets from a run. *)
Definition results {L S Out} (r : run_st L (S := S) (Out := Out)) : S * list Out := (sim L r, outs L r).
(** A run without its particle diagnostics, or at least without those that subsample. *)
Definition is_diag {L S Out} (p : @op L S Out) : bool := match p with Select _ _ _ _ => true | _ => false end.
Definition subsamples {L S Out} (p : @op L S Out) : bool := match p with Select _ _ b _ => b | _ => false end.
Definition without_diags {L S Out} (prog : list (@op L S Out)) : list (@op L S Out) := filter (fun p => negb (is_diag p)) prog.
Definition scatterings {L S Out} (prog : list (@op L S Out)) : nat := length (filter (fun p => match p with Scatter _ _ _ => true | _ => false end) prog).
(** The numbers delivered by numpy and by cupy, as two sequences that are read from left to right. *)
Definition streams (u v : nat -> R) : library :=
  {| G := nat; seed_np := Z.to_nat; draws := fun _ n g => (map u (seq g n), g + n)%nat; randint := fun n g => (Int_part (u g) mod n, S g);
     H := nat; seed_cp := Z.to_nat; draws_cp := fun _ n g => (map v (seq g n), g + n)%nat; T := unit; X := Z; xoroshiro := fun s i => s + i |}.
(** An operation that notes every random number it gets. *)
Inductive notes {u v Out} : @op (streams u v) (list R) Out -> Prop :=
  | notes_inject n kept : notes (Inject (streams u v) n kept (fun s a z x y => s ++ a ++ z ++ x ++ y))
  | notes_bunch n b : notes (Bunch (streams u v) n b (fun s l => s ++ concat l))
  | notes_ionize n : notes (Ionize (streams u v) n (fun s l => s ++ l))
  | notes_other : notes (Other (streams u v) (fun s => s)).
Inductive notes_gpu {u v Out} : @op (streams u v) (list R) Out -> Prop :=
  | notes_gpu_ionize n : notes_gpu (Ionize (streams u v) n (fun s l => s ++ l))
  | notes_gpu_other : notes_gpu (Other (streams u v) (fun s => s)).
