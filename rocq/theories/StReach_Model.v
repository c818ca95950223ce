(** fields/utility_methods.py: stencil_reach and get_stencil_reach, and how BoundaryCommunicator uses them for the
    number of guard cells. Exact arithmetic. *)
From Coq Require Import Reals.
From Coquelicot Require Import Complex.
From Verif Require Import Base Fourier_Lib Hankel_Model ModK_Model Decomp_Model.
Import ListNotations.
Open Scope R_scope.

(** numpy.fft.ifft, called at utility_methods.py:117-122 *)
Definition np_ifft (a : list C) : list C :=
  map (idft (length a) (fun k => nth k a (RtoC 0))) (seq 0 (length a)).

Section Reach.
Variable c : R.   (* speed of light, scipy.constants *)

(** utility_methods.py:105 *)
Definition k_of (kperp kz : R) : R := sqrt (kz ^ 2 + kperp ^ 2).
(** utility_methods.py:106-114; abs(None) raises TypeError *)
Definition theta_of (v_comoving : option R) (use_galilean : bool) (cdt : R) (kz : list R) : res (list C) :=
  if use_galilean then
    match v_comoving with
    | Some v => Ok (map (fun q => cis (Rabs v * q * cdt / c / 2)) kz)
    | None => Err TypeError
    end
  else Ok (map (fun _ => RtoC 1) kz).
(** utility_methods.py:117-118: argument of the first ifft, for the elements (kz, theta) *)
Definition cos_coef (kperp cdt : R) (x : R * C) : C :=
  Cmult (Cmult (snd x) (snd x)) (RtoC (cos (k_of kperp (fst x) * cdt))).
(** utility_methods.py:119-120; the value of the division by 0 is not used *)
Definition sin_z_coef (kperp cdt : R) (x : R * C) : C :=
  let k := k_of kperp (fst x) in
  if Req_EM_T k 0 then RtoC (fst x) else Cmult (Cmult (snd x) (snd x)) (RtoC (sin (k * cdt) / k * fst x)).
(** utility_methods.py:121-122 *)
Definition sin_perp_coef (kperp cdt : R) (x : R * C) : C :=
  let k := k_of kperp (fst x) in
  if Req_EM_T k 0 then RtoC kperp else Cmult (Cmult (snd x) (snd x)) (RtoC (sin (k * cdt) / k * kperp)).
(** utility_methods.py:124-127 *)
Definition alpha_of (cos_stencil sin_z_stencil sin_perp_stencil : list C) : list R :=
  map (fun s => sqrt (Cmod (fst (fst s)) ^ 2 + Cmod (snd (fst s)) ^ 2 + Cmod (snd s) ^ 2))
      (combine (combine cos_stencil sin_z_stencil) sin_perp_stencil).
(** numpy.where(l < x)[0][0]: index of the first element below x; [i]: index of the head of l *)
Fixpoint first_below (x : R) (l : list R) (i : Z) : res Z :=
  match l with
  | [] => Err IndexError
  | a :: l => if Rlt_dec a x then Ok i else first_below x l (i + 1)%Z
  end.
(** utility_methods.py:69-133 stencil_reach *)
Definition stencil_reach (kz : list R) (kperp cdt : R) (v_comoving : option R) (use_galilean : bool) : res Z :=
  bind (theta_of v_comoving use_galilean cdt kz) (fun theta =>
  let x := combine kz theta in
  let alpha := alpha_of (np_ifft (map (cos_coef kperp cdt) x)) (np_ifft (map (sin_z_coef kperp cdt) x))
                        (np_ifft (map (sin_perp_coef kperp cdt) x)) in
  first_below (1 / 10 ^ 16) (firstn (length alpha / 2) (map Rabs alpha)) 0).
(** utility_methods.py:136-185 get_stencil_reach; Nz is at least 1 *)
Definition get_stencil_reach (Nz : Z) (dz cdt : R) (n_order : Z) (v_comoving : option R) (use_galilean : bool) : res Z :=
  bind (get_modified_k (map (kz_true Nz dz) (range Nz)) n_order dz) (fun kz =>
  stencil_reach kz (1 / 2) cdt v_comoving use_galilean).
(** boundary_communicator.py:227-256: the number of guard cells, with the reach of the stencil computed from the grid
    (Decomp_Model.init_nguard takes it as an argument). [cdt]: c*dt. *)
Definition guard_cells (b : zbound) (size Nz : Z) (dz cdt : R) (n_order : Z) (v_comoving : option R) (use_galilean : bool)
           (n_guard : option Z) : res Z :=
  bind (match n_guard with
        | None =>
            if (n_order =? -1)%Z then (if negb (size =? 1)%Z then Err ValueError else Ok 64%Z)
            else bind (get_stencil_reach Nz dz cdt n_order v_comoving use_galilean) (fun stencil => Ok (stencil + 1)%Z)
        | Some g => Ok g
        end)
       (fun g => match b with
                 | Periodic => if (size =? 1)%Z then Ok 0%Z else Ok g
                 | Open => Ok g
                 end).
End Reach.
