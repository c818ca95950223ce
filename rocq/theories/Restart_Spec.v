(** Vocabulary of C48. *)
From Verif Require Import Base Store_Model Restart_Model.
From Coq Require Import Reals.
From Coquelicot Require Import Complex.
Open Scope R_scope.
(** The resumed simulation of a rank has the iteration [it], its time, and the saved state [s]: position of the box, all the values of
    all the fields (of the nm modes and nr cells), all the macroparticles. *)
Definition same_state (nm nr it : Z) (dt : R) (s : rstate) (r : resumed) : Prop :=
  n_it r = it /\ n_time r = IZR it * dt /\ n_zmin r = r_zmin s /\
  Forall2 (fun (loaded saved : Z -> farray) => forall m iz ir, (0 <= m < nm)%Z -> (0 <= ir < nr)%Z -> loaded m iz ir = saved m iz ir) (n_fields r) (r_fields s) /\
  n_species r = map snd (r_species s).
(** Possible states of a rank: nf fields whose mode 0 is real, ns species; [ordinary]: inv_gamma is the inverse Lorentz factor of a
    massive particle. *)
Definition state_ok (nf ns : nat) (s : rstate) : Prop :=
  length (r_fields s) = nf /\ length (r_species s) = ns /\ Forall (fun fl : Z -> farray => forall iz ir, snd (fl 0%Z iz ir) = 0) (r_fields s).
Definition ordinary (s : rstate) : Prop :=
  Forall (fun sp => 0 <= fst sp /\ Forall (fun p => m_ig p = 1 / sqrt (1 + m_ux p ^ 2 + m_uy p ^ 2 + m_uz p ^ 2)) (snd sp)) (r_species s).
