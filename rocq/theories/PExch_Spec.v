(** Specification of the particle exchange in terms of individual particles. *)
From Verif Require Import Base Decomp_Model PExch_Model.
From Coq Require Import Reals.
Open Scope Z_scope.

Record part := mkPart {
  px : R; py : R; pz : R; pux : R; puy : R; puz : R; pig : R; pw : R;
  pid : option Z;                     (* id, for tracked species *)
  pion : option (Z * R)               (* ionization level and w*level, for ionizable species *)
}.

(** The attribute arrays of a species whose particles are the list [l]. *)
Definition arrays (tracked ionizable : bool) (l : list part) : species :=
  mkSpecies (map px l) (map py l) (map pz l) (map pux l) (map puy l) (map puz l)
            (map pig l) (map pw l)
            (if tracked then Some (map (fun p => match pid p with Some i => i | None => 0 end) l)
             else None)
            (if ionizable
             then Some (map (fun p => match pion p with Some i => fst i | None => 0 end) l,
                        map (fun p => match pion p with Some i => snd i | None => 0%R end) l)
             else None).

(** A particle has exactly the attributes of its species. *)
Definition has_attrs (tracked ionizable : bool) (p : part) : Prop :=
  (if tracked then pid p <> None else pid p = None) /\
  (if ionizable then pion p <> None else pion p = None).

Definition moved (d : R) (p : part) : part :=
  mkPart (px p) (py p) (pz p + d)%R (pux p) (puy p) (puz p) (pig p) (pw p) (pid p) (pion p).
Definition conv_ints (conv : Z -> Z) (p : part) : part :=
  mkPart (px p) (py p) (pz p) (pux p) (puy p) (puz p) (pig p) (pw p)
         (option_map conv (pid p)) (option_map (fun i => (conv (fst i), snd i)) (pion p)).

(** What must become of a particle p held by rank r of [size], whose physical box is
    [lo, hi]: it stays, or it goes to a neighbour (shifted by the box length L when it crosses
    a periodic end), or it is dropped beyond an open end.  [conv] acts on the integer
    attributes of the particles that go to the right; the property requires the
    identity. *)
Definition fate (conv : Z -> Z) (b : zbound) (size : Z) (L : R) (lo hi : Z -> R) (r : Z) (p : part)
  : list part :=
  if Rlt_dec (pz p) (lo r) then
    if r =? 0 then match b with Open => [] | Periodic => [moved L p] end
    else [p]
  else if Rlt_dec (hi r) (pz p) then
    if r =? size - 1 then match b with Open => [] | Periodic => [moved (- L) (conv_ints conv p)] end
    else [conv_ints conv p]
  else [p].

(** The particles of all the ranks. *)
Definition all_ranks {X} (size : Z) (P : Z -> list X) : list X := flat_map P (range size).

Definition pid0 (p : part) := match pid p with Some i => i | None => 0 end.
Definition plev (p : part) := match pion p with Some i => fst i | None => 0 end.
Definition pwl (p : part) := match pion p with Some i => snd i | None => 0%R end.

(** Exchange buffer holding the particles of a list (rows in the order of the code). *)
Definition buffer (tr io : bool) (l : list part) : buf :=
  mkBuf ([map px l; map py l; map pz l; map pux l; map puy l; map puz l; map pig l; map pw l]
         ++ (if io then [map pwl l] else []))
        ((if tr then [map pid0 l] else []) ++ (if io then [map plev l] else [])).

(** Newly injected particles arrive on the last rank. *)
Definition injected (size : Z) (inj : option (list part)) (r : Z) : list part :=
  match inj with Some l => if r =? size - 1 then l else [] | None => [] end.
