(** The generators of random numbers and the functions that draw from them. *)
From Coq Require Import ZArith Reals List Lia.
From Verif Require Import Base.
Import ListNotations.
Open Scope Z_scope.

Inductive dist := Uniform | Normal.
(** The libraries: numpy's global generator, cupy's generator, and the generators of the threads of compiled CPU functions (numba). [draws d n g]: n numbers with the
    distribution d and the next state; [randint n g]: an integer in [0, n); [xoroshiro seed i]: the state of thread i in create_xoroshiro128p_states(_, seed). *)
Record library := { G : Type; seed_np : Z -> G; draws : dist -> nat -> G -> list R * G; randint : Z -> G -> Z * G;
  H : Type; seed_cp : Z -> H; draws_cp : dist -> nat -> H -> list R * H; T : Type; X : Type; xoroshiro : Z -> Z -> X }.

Section Seed.
Context (L : library) {S Out : Type}.
Record world := { np : G L; cp : H L; nb : T L }.
(** random_seed.py:15-31 set_random_seed; [cupy]: cupy_installed *)
Definition set_random_seed (cupy : bool) (rank seed : Z) (w : world) : world :=
  {| np := seed_np L (seed + rank); cp := if cupy then seed_cp L (seed + rank) else cp w; nb := nb w |}.

(** What a simulation does, as far as random numbers matter, on the state S of the simulation. The functions are arbitrary: they stand for everything that is not a draw.
    - [Inject]: Npz*Npr shifts of angles, then, for the particles that are kept, the normal numbers of uz, ux, uy;
    - [Bunch]: a Gaussian bunch: gamma (if [spread]), x, y, z, ux, uy;
    - [Ionize]: one number per ion;
    - [Scatter]: on CPU the compiled function draws from the generators of its threads; on GPU it uses the states of the threads;
    - [Select]: a ParticleDiagnostic, with or without subsampling_fraction; what it writes is added to the output;
    - [Other]: anything without random numbers. *)
Inductive op :=
  | Inject (n : S -> nat) (kept : S -> list R -> nat) (f : S -> list R -> list R -> list R -> list R -> S)
  | Bunch (n : nat) (spread : bool) (f : S -> list (list R) -> S)
  | Ionize (n : S -> nat) (f : S -> list R -> S)
  | Scatter (cpu : S -> T L -> S * T L) (gpu : S -> (Z -> X L) -> S)
  | Select (n : S -> nat) (subsampling : bool) (o : S -> list R -> Out)
  | Other (f : S -> S).

(** continuous_injection.py:213-266 generate_evenly_spaced (unalign_angles with method 'random': lines 303-304) *)
Definition generate n kept f (s : S) (w : world) : S * world :=
  let '(a, g) := draws L Uniform (n s) (np w) in
  let m := kept s a in
  let '(uz, g) := draws L Normal m g in
  let '(ux, g) := draws L Normal m g in
  let '(uy, g) := draws L Normal m g in
  (f s a uz ux uy : S, {| np := g; cp := cp w; nb := nb w |}).
(** bunch.py:208-229 add_particle_bunch_gaussian *)
Definition gaussian (n : nat) (spread : bool) f (s : S) (w : world) : S * world :=
  let '(ga, g) := if spread then draws L Normal n (np w) else ([], np w) in
  let '(x, g) := draws L Normal n g in
  let '(y, g) := draws L Normal n g in
  let '(z, g) := draws L Normal n g in
  let '(ux, g) := draws L Normal n g in
  let '(uy, g) := draws L Normal n g in
  (f s [ga; x; y; z; ux; uy] : S, {| np := g; cp := cp w; nb := nb w |}).
(** ionizer.py:242-247 handle_ionization *)
Definition ionize (cuda : bool) (n : S -> nat) f (s : S) (w : world) : S * world :=
  if cuda then let '(r, h) := draws_cp L Uniform (n s) (cp w) in (f s r : S, {| np := np w; cp := h; nb := nb w |})
  else let '(r, g) := draws L Uniform (n s) (np w) in (f s r, {| np := g; cp := cp w; nb := nb w |}).
(** compton.py:163-166 and the calls of lines 184-234 handle_scattering; compton/numba_methods.py:92, 192-209, 261 (random.random in compiled functions).
    Also returns the random states that were used on GPU. *)
Definition scatter (cuda : bool) (cpu : S -> T L -> S * T L) (gpu : S -> (Z -> X L) -> S) (s : S) (w : world) : S * world * list (Z -> X L) :=
  if cuda then let '(seed, g) := randint L 256 (np w) in let x := xoroshiro L seed in (gpu s x, {| np := g; cp := cp w; nb := nb w |}, [x])
  else let '(s, t) := cpu s (nb w) in (s, {| np := np w; cp := cp w; nb := t |}, []).
(** particle_diag.py:366-400 apply_selection *)
Definition selection (n : S -> nat) (subsampling : bool) (o : S -> list R -> Out) (s : S) (w : world) : Out * world :=
  if subsampling then let '(r, g) := draws L Uniform (n s) (np w) in (o s r, {| np := g; cp := cp w; nb := nb w |}) else (o s [], w).
(** One operation; the output is a list. The random states of the GPU scatterings are recorded in [used]. *)
Record run_st := { sim : S; wld : world; outs : list Out; used : list (Z -> X L) }.
Definition exec (cuda : bool) (r : run_st) (p : op) : run_st :=
  match p with
  | Inject n kept f => let '(s, w) := generate n kept f (sim r) (wld r) in {| sim := s; wld := w; outs := outs r; used := used r |}
  | Bunch n spread f => let '(s, w) := gaussian n spread f (sim r) (wld r) in {| sim := s; wld := w; outs := outs r; used := used r |}
  | Ionize n f => let '(s, w) := ionize cuda n f (sim r) (wld r) in {| sim := s; wld := w; outs := outs r; used := used r |}
  | Scatter cpu gpu =>
      let '(s, w, x) := scatter cuda cpu gpu (sim r) (wld r) in {| sim := s; wld := w; outs := outs r; used := used r ++ x |}
  | Select n b o => let '(x, w) := selection n b o (sim r) (wld r) in {| sim := sim r; wld := w; outs := outs r ++ [x]; used := used r |}
  | Other f => {| sim := f (sim r); wld := wld r; outs := outs r; used := used r |}
  end.
Definition start (s : S) (w : world) : run_st := {| sim := s; wld := w; outs := []; used := [] |}.
(** A whole run. *)
Definition run (cuda : bool) (prog : list op) (s : S) (w : world) : run_st := fold_left (exec cuda) prog (start s w).
End Seed.
