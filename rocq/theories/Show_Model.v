(** Progress bar, summary and error handler (utils/printing.py), and where [step] calls them. *)
From Coq Require Import ZArith Reals List String.
From Flocq Require Import Core.Raux.
From Verif Require Import Base.
Import ListNotations.
Open Scope R_scope.

(** printing.py:20-59 ProgressBar; the attributes. Times in seconds, exact arithmetic. *)
Record bar := { b_N : Z; b_avg : Z; b_Nbars : Z; b_i : Z; b_start : R; b_prev : R; b_total : R; b_tps : R; b_avg_tps : R; b_eta : option R }.
(** printing.py:27-59 ProgressBar.__init__ with its default values; [t]: time.time() *)
Definition bar_init (N : Z) (t : R) : bar :=
  {| b_N := N; b_avg := 20; b_Nbars := 35; b_i := 0; b_start := t; b_prev := t; b_total := 0; b_tps := 0; b_avg_tps := 0; b_eta := None |}.
(** printing.py:61-90 ProgressBar.time; [t]: time.time() *)
Definition bar_time (i : Z) (t : R) (b : bar) : bar :=
  let tps := t - b_prev b in
  let avg := b_avg_tps b + (tps - b_avg_tps b) / IZR (b_avg b) in
  let avg := if (i <=? 2)%Z then tps else avg in
  let eta := if (i <? b_avg b)%Z then None else Some (avg * IZR (b_N b - i)) in
  {| b_N := b_N b; b_avg := b_avg b; b_Nbars := b_Nbars b; b_i := i; b_start := b_start b; b_prev := t; b_total := t - b_start b; b_tps := tps;
     b_avg_tps := avg; b_eta := eta |}.

(** What is printed: the message about the compilation; a bar (characters, blanks, the two numbers, the remaining time, the last time in ms); the summary. *)
Inductive line := Compiling | Bar (full blank num den : Z) (eta : option (Z * Z * Z)) (ms : Z) | Summary (h m s ms : Z).
(** Python's divmod of floats by 60, and the integers that '%d' shows (printing.py:113-115, 129-130) *)
Definition divmod60 (x : R) : R * R := let q := IZR (Zfloor (x / 60)) in (q, x - 60 * q).
Definition hms (x : R) : Z * Z * Z := let '(m, s) := divmod60 x in let '(h, m) := divmod60 m in (Ztrunc h, Ztrunc m, Ztrunc s).
(** printing.py:92-122 ProgressBar.print_progress; [rnd]: the rounding of the operations of line 106 *)
Definition print_progress (rnd : R -> R) (b : bar) : line :=
  let i := b_i b in
  if (i =? 0)%Z then Compiling else
  let nbars := Ztrunc (rnd (rnd (rnd (IZR (i + 1) * 1) / IZR (b_N b)) * IZR (b_Nbars b))) in
  Bar nbars (b_Nbars b - nbars) (i + 1) (b_N b) (option_map hms (b_eta b)) (Ztrunc (b_tps b * 1000)).
(** printing.py:124-133 ProgressBar.print_summary; division of a float by an integer *)
Definition print_summary (b : bar) : res line :=
  if (b_N b =? 0)%Z then Err ZeroDivisionError else
  let '(h, m, s) := hms (b_total b) in Ok (Summary h m s (Ztrunc (b_total b / IZR (b_N b) * 1000))).

Section Step.
Context {S : Type} (rnd : R -> R) (clk : nat -> R).
(** main.py:423-566, the loop: iterations [i .. i + n - 1]; [body i]: the rest of the iteration; [clk 0] is read at the creation of the bar and [clk (i + 1)]
    at iteration i *)
Fixpoint loop (shown : bool) (body : Z -> S -> res S) (n : nat) (i : nat) (b : bar) (s : S) (out : list line) : res (S * bar * list line) :=
  match n with
  | O => Ok (s, b, out)
  | Datatypes.S n =>
      let b := if shown then bar_time (Z.of_nat i) (clk (i + 1)) b else b in
      let out := if shown then out ++ [print_progress rnd b] else out in
      bind (body (Z.of_nat i) s) (fun s => loop shown body n (i + 1) b s out)
  end.
(** main.py:346-586 step, as far as the display is concerned; [pre]: what precedes the loop (lines 380-417), [post]: what follows it (568-581) *)
Definition step (show_progress : bool) (rank : Z) (pre : S -> res S) (body : Z -> S -> res S) (post : S -> res S) (N : nat) (s : S) : res (S * list line) :=
  let shown := (show_progress && (rank =? 0)%Z)%bool in
  let b := bar_init (Z.of_nat N) (clk 0) in
  bind (pre s) (fun s =>
  bind (loop shown body N 0 b s []) (fun '(s, b, out) =>
  bind (post s) (fun s =>
  if shown then bind (print_summary b) (fun l => Ok (s, out ++ [l])) else Ok (s, out)))).
End Step.

(** How the call of a function ends: a value; an exception, by its name; all the processes are killed (MPI Abort). *)
Inductive outcome (V : Type) := Return (v : V) | Raise (e : string) | Abort.
Arguments Return {V} v. Arguments Raise {V} e. Arguments Abort {V}.
(** printing.py:330-346 handle_cuda_memory_error (the message is left out) *)
Definition handle_cuda_memory_error {V} (size : Z) (e : string) : outcome V := if (1 <? size)%Z then Abort else Raise e.
(** printing.py:313-328 catch_gpu_memory_error: [except OutOfMemoryError] is evaluated when an exception occurs; the name is only defined when CUDA is
    installed (printing.py:12-13) *)
Definition catch_gpu_memory_error {V} (cuda_installed : bool) (size : Z) (f : outcome V) : outcome V :=
  match f with
  | Return v => Return v
  | Abort => Abort
  | Raise e =>
      if negb cuda_installed then Raise "NameError"
      else if String.eqb e "OutOfMemoryError" then match handle_cuda_memory_error (V := V) size e with Raise e => Raise e | o => o end
      else Raise e
  end.
