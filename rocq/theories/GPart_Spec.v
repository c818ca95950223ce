(** What a user relies on (C99): gathering and push act on each macroparticle as if it were alone. *)
From Coq Require Import Reals.
From Verif Require Import Base Push_Model Shape_Model Gather_Model GPart_Model.
Open Scope R_scope.

(** The first [n] elements of the arrays of a species are changed by [f], each from its own value; the others are not touched. *)
Definition each (n : Z) (f : mp -> mp -> Prop) (a a' : Z -> mp) : Prop :=
  (forall i, (0 <= i < n)%Z -> f (a i) (a' i)) /\ (forall i, ~ (0 <= i < n)%Z -> a' i = a i).
(** The fields gathered for one macroparticle; nothing else changes. *)
Definition fields_of (p : mp) : (R * R * R) * (R * R * R) := ((Ex (pf p), Ey (pf p), Ez (pf p)), (Bx (pf p), By (pf p), Bz (pf p))).
Definition gathers (s : species) (g : ggrid) (rmax_gather : R) (fs : list (mfield * mfield)) (p p' : mp) : Prop :=
  fields_of p' = gather (s_q s) (s_shape s) g rmax_gather (map fst fs) (map snd fs) (px p) (py p) (pz p) (fields_of p) /\
  px p' = px p /\ py p' = py p /\ pz p' = pz p /\ pm p' = pm p /\ plevel p' = plevel p.
(** The push of a species with this macroparticle only. *)
Definition pushes (c e : R) (s : species) (dt : R) (p p' : mp) : Prop :=
  push_p c e {| q := s_q s; m := s_m s; z_plane := s_plane s; ionizer := s_ionizer s; ptcls := [p] |} dt = Ok [p'].

(** A sequence of calls, e.g. that of the PIC loop. *)
Inductive op := Gather (g : ggrid) (rmax_gather : R) (fs : list (mfield * mfield)) | PushP (dt : R) | PushX (dt x_push y_push z_push : R).
Definition call (c e : R) (b : backend) (s : species) (o : op) : (Z -> mp) -> (Z -> mp) -> Prop :=
  match o with
  | Gather g rmax_gather fs => gather_on b s g rmax_gather fs
  | PushP dt => push_p_on c e b s dt
  | PushX dt xp yp zp => push_x_on c b s dt xp yp zp
  end.
Inductive run (c e : R) (b : backend) (s : species) : list op -> (Z -> mp) -> (Z -> mp) -> Prop :=
| run_end a : run c e b s [] a a
| run_op o os a a1 a' : call c e b s o a a1 -> run c e b s os a1 a' -> run c e b s (o :: os) a a'.
(** The number of macroparticles and of threads are representable exactly. *)
Definition sized (b : backend) (s : species) : Prop :=
  (0 <= s_N s < 2 ^ 52)%Z /\ match b with GPU => True | CPU nthreads => (1 <= nthreads <= 2 ^ 52)%Z end.
(** The same species with another number of macroparticles. *)
Definition with_N (s : species) (n : Z) : species :=
  {| s_q := s_q s; s_m := s_m s; s_plane := s_plane s; s_ionizer := s_ionizer s; s_shape := s_shape s; s_N := n |}.
