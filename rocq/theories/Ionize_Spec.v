(** Vocabulary of C27 and C28. *)
From Verif Require Import Base Sort_Model Ionize_Model.
From Coq Require Import Reals.
Open Scope Z_scope.

Section S.
Context (c : R) (tab : adk) (level_start level_max Ntot : Z) (ion : Z -> ptc) (random_draw : Z -> R).
(** Ion [ip] is ionized in this step: below the maximal level, and its draw is below its probability. *)
Definition event (s : istate) (ip : Z) : bool :=
  (ionization_level s ip <? level_max) &&
  (if Rlt_dec (random_draw ip) (probability c tab ion ip (ionization_level s ip)) then true else false).
Definition events (s : istate) : list Z := filter (event s) (range Ntot).
(** The electrons that object [o] has to receive: for each level assigned to it, the ions that
    left this level, in order; with a single target, all of them. *)
Definition received (per_level : bool) (targets : list nat) (s : istate) (o : nat) : list ptc :=
  if per_level then
    flat_map (fun '(l, o') => if Nat.eqb o' o then
        map ion (filter (fun ip => ionization_level s ip =? level_start + l) (events s)) else [])
      (combine (range (level_max - level_start)) targets)
  else flat_map (fun o' => if Nat.eqb o' o then map ion (events s) else []) targets.
(** Content of the arrays of a species ([None]: a slot never filled). *)
Definition content (st : store) (o : nat) : list (option ptc) := map (snd (st o)) (range (fst (st o))).

Definition levels_ok (s : istate) : Prop :=
  forall ip, 0 <= ip < Ntot -> level_start <= ionization_level s ip <= level_max.
Definition weights_ok (s : istate) : Prop :=
  forall ip, 0 <= ip < Ntot -> w_times_level s ip = (w (ion ip) * IZR (ionization_level s ip))%R.
Definition sizes_ok (st : store) : Prop := forall o, 0 <= fst (st o).
(** Total charge of ions and electrons, in units of e. *)
Definition weight (a : option ptc) : R := match a with Some a => w a | None => 0%R end.
Definition sumR {A} (f : A -> R) (l : list A) : R := fold_right (fun a s => (f a + s)%R) 0%R l.
Definition charge (objs : list nat) (s : istate) (st : store) : R :=
  (sumR (w_times_level s) (range Ntot) - sumR (fun o => sumR weight (content st o)) objs)%R.
End S.

(** Field in the rest frame of a particle with normalized momentum u (standard Lorentz
    transformation of the field), with F = gamma E + u x cB: E' = F - u (u.E)/(1+gamma). *)
Definition rest_frame_E2 (ux uy uz Ex Ey Ez cBx cBy cBz : R) : R :=
  let g := sqrt (1 + ux ^ 2 + uy ^ 2 + uz ^ 2) in
  let k := ((ux * Ex + uy * Ey + uz * Ez) / (1 + g))%R in
  ((g * Ex + (uy * cBz - uz * cBy) - k * ux) ^ 2 + (g * Ey + (uz * cBx - ux * cBz) - k * uy) ^ 2
   + (g * Ez + (ux * cBy - uy * cBx) - k * uz) ^ 2)%R.
