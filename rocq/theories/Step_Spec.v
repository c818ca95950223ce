(** Vocabulary for the properties of the PIC loop (C12-C14), independent of the loop code. *)
From Verif Require Import Base Step_Model.
From Coq Require Import Reals Sorting.Sorted.
Open Scope Z_scope.

(** The iterations at which diagnostic (resp. checkpoint) number [i] was written. *)
Definition diag_log (i : nat) (t : list event) : list Z :=
  flat_map (fun e => match e with EvDiag j it => if (j =? i)%nat then [it] else [] | _ => [] end) t.
Definition check_log (i : nat) (t : list event) : list Z :=
  flat_map (fun e => match e with EvCheckpoint j it => if (j =? i)%nat then [it] else [] | _ => [] end) t.

(** Iteration [n] is due for [d]: the period divides it and it is in the window. *)
Definition due (d : diag) (n : Z) : Prop :=
  (d_period d | n) /\ d_min d <= n /\ match d_max d with None => True | Some b => n < b end.

(** [log] is the schedule of [d] over iterations [a <= n < b]: exactly the due iterations,
    in increasing order, none repeated. *)
Definition is_schedule (d : diag) (a b : Z) (log : list Z) : Prop :=
  StronglySorted Z.lt log /\ forall n, In n log <-> a <= n < b /\ due d n.

(** Total number of iterations requested by a list of calls ([range(N)] is empty for N<=0). *)
Definition total (calls : list (opts * Z)) : Z :=
  fold_right (fun c acc => Z.max 0 (snd c) + acc) 0 calls.

(** What may appear in the trace of a multi-rank run: a current correction sees sources whose
    guard cells were never exchanged; a field push uses a current whose guard cells were
    exchanged exactly once and, if it uses the deposited charge, charge densities exchanged
    exactly once. *)
Definition consistent (e : event) : Prop :=
  match e with
  | EvCorrect _ nJ np nn nxy nz => (nJ = 0 /\ np = 0 /\ nn = 0)%nat
  | EvPush _ tr nJ np nn => (nJ = 1)%nat /\ (tr = true -> np = 1 /\ nn = 1)%nat
  | _ => True
  end.

(** Positions shifted by a fraction of the velocity: [q] is [p] displaced transversally by
    [a] times its velocity and longitudinally by [b] times its velocity. *)
Definition displaced (a b : R) (p q : ptc) : Prop :=
  (px q = px p + a * vx p /\ py q = py p + a * vy p /\ pz q = pz p + b * vz p)%R.

(** The species that act on the fields. *)
Definition depositors (l : list species) := filter (fun sp => negb (sp_tracer sp)) l.

(** Every depositing particle, matched one to one with the particles before the stage. *)
Definition moved_species (a b : R) (l l' : list species) : Prop :=
  Forall2 (fun sp sp' => sp_tracer sp' = false /\ sp_tracer sp = false /\
                         Forall2 (displaced a b) (sp_ptc sp) (sp_ptc sp')) l l'.
Definition moved_ants (a b : R) (l l' : list ant) : Prop :=
  Forall2 (fun sp sp' => Forall2 (displaced a b) (an_ptc sp) (an_ptc sp')) l l'.
