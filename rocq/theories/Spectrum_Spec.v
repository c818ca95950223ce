(** What a user expects of a laser pulse defined by a measured spectrum. *)
From Coq Require Import ZArith List Reals.
From Coquelicot Require Import Complex.
From Verif Require Import Base Fourier_Lib Deposit_Spec Spectrum_Model.
Import ListNotations.
Open Scope R_scope.

(** The wavelengths go up along the list. *)
Fixpoint rising (l : list row) : Prop :=
  match l with
  | r :: ((s :: _) as l') => r_lam r < r_lam s /\ rising l'
  | _ => True
  end.
(** A usable file: two lines or more, positive wavelengths in (strict) order, one way or the other, intensities that are
    not negative, one at least that is not 0. *)
Definition file_ok (l : list row) : Prop :=
  (2 <= length l)%nat /\ (rising l \/ rising (rev l)) /\
  (forall r, In r l -> 0 < r_lam r /\ 0 <= r_int r) /\
  (exists r, In r l /\ 0 < r_int r).
(** Two lines of the file between whose wavelengths there is no other one. *)
Definition neighbours (l : list row) (r s : row) : Prop :=
  In r l /\ In s l /\ r_lam r < r_lam s /\ forall q, In q l -> ~ (r_lam r < r_lam q < r_lam s).

(** A polynomial of degree 4, highest power first (the convention of numpy.polyfit), its derivative, and the sum of the
    squares of what is left. *)
Definition poly (p : R * R * R * R * R) (x : R) : R :=
  let '(a4, a3, a2, a1, a0) := p in a4 * x ^ 4 + a3 * x ^ 3 + a2 * x ^ 2 + a1 * x + a0.
Definition poly' (p : R * R * R * R * R) (x : R) : R :=
  let '(a4, a3, a2, a1, _) := p in 4 * a4 * x ^ 3 + 3 * a3 * x ^ 2 + 2 * a2 * x + a1.
Definition misfit (p : R * R * R * R * R) (l : list (R * R)) : R := rsum (fun q => (snd q - poly p (fst q)) ^ 2) l.
(** The specification of numpy.polyfit on the given points: no polynomial of degree 4 is closer. *)
Definition fits (polyfit : list (R * R) -> R * R * R * R * R) (l : list (R * R)) : Prop :=
  forall p, misfit (polyfit l) l <= misfit p l.

(** Superposition of the plane waves of frequencies n*2*pi*c/(1000*lam), n = -500000 .. 499999, of complex amplitudes
    [amp], at the delay [tau] (time after the passage of the centre of the pulse). *)
Definition waves (c lam : R) (amp : R -> C) (tau : R) : C :=
  lsum (fun n => let w := IZR (n - 500000) * (2 * PI * c / (1000 * lam)) in Cmult (cis (- (w * tau))) (amp w))
       (range 1000000).
