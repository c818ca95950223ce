(** Momentum and position push: particles/push/inline_functions.py, particles/push/numba_methods.py,
    particles/particles.py:push_p, push_x. Exact arithmetic. The CUDA kernels
    (push/cuda_methods.py) call the same inline function under [ip < shape]. *)
From Verif Require Import Base.
From Coq Require Import Reals.
Open Scope R_scope.

(** Momentum of a macroparticle and its inv_gamma; fields gathered for it. *)
Record mom := { ux : R; uy : R; uz : R; ig : R }.
Record field6 := { Ex : R; Ey : R; Ez : R; Bx : R; By : R; Bz : R }.

(** push/inline_functions.py:11-48 push_p_vay *)
Definition push_p_vay (p : mom) (f : field6) (econst bconst : R) : mom :=
  (* lines 17-20 *)
  let taux := bconst * Bx f in
  let tauy := bconst * By f in
  let tauz := bconst * Bz f in
  let tau2 := taux ^ 2 + tauy ^ 2 + tauz ^ 2 in
  (* lines 23-30 *)
  let uxp := ux p + econst * Ex f + ig p * (uy p * tauz - uz p * tauy) in
  let uyp := uy p + econst * Ey f + ig p * (uz p * taux - ux p * tauz) in
  let uzp := uz p + econst * Ez f + ig p * (ux p * tauy - uy p * taux) in
  let sigma := 1 + uxp ^ 2 + uyp ^ 2 + uzp ^ 2 - tau2 in
  let utau := uxp * taux + uyp * tauy + uzp * tauz in
  (* lines 33-34 *)
  let ig_f := sqrt (2 / (sigma + sqrt (sigma ^ 2 + 4 * (tau2 + utau ^ 2)))) in
  (* lines 37-41 *)
  let tx := ig_f * taux in
  let ty := ig_f * tauy in
  let tz := ig_f * tauz in
  let ut := ig_f * utau in
  let s := 1 / (1 + tau2 * ig_f ^ 2) in
  (* lines 44-48 *)
  {| ux := s * (uxp + tx * ut + uyp * tz - uzp * ty);
     uy := s * (uyp + ty * ut + uzp * tx - uxp * tz);
     uz := s * (uzp + tz * ut + uxp * ty - uyp * tx);
     ig := ig_f |}.

(** A macroparticle as seen by the push: position, momentum, gathered field, ionization level
    (used for the ionizable species only). *)
Record mp := { px : R; py : R; pz : R; pm : mom; pf : field6; plevel : Z }.
Definition set_pm (a : mp) (m : mom) : mp :=
  {| px := px a; py := py a; pz := pz a; pm := m; pf := pf a; plevel := plevel a |}.

(** Charge q, mass m; injector BallisticBeforePlane with its current plane; ionizer. *)
Record psp := { q : R; m : R; z_plane : option R; ionizer : bool; ptcls : list mp }.

Section C.
Context (c e : R).   (* scipy.constants *)

(** push/numba_methods.py:34-50 push_p_numba, one iteration *)
Definition push_p_numba (q m dt : R) (a : mp) : mp :=
  set_pm a (push_p_vay (pm a) (pf a) (q * dt / (m * c)) (1 / 2 * q * dt / m)).
(** push/numba_methods.py:52-69 push_p_after_plane_numba *)
Definition push_p_after_plane_numba (zp q m dt : R) (a : mp) : mp :=
  if Rlt_dec zp (pz a) then push_p_numba q m dt a else a.
(** push/numba_methods.py:72-98 push_p_ioniz_numba *)
Definition push_p_ioniz_numba (m dt : R) (a : mp) : mp :=
  if (plevel a =? 0)%Z then a else
  set_pm a (push_p_vay (pm a) (pf a) (e * dt / (m * c) * IZR (plevel a)) (1 / 2 * e * dt / m * IZR (plevel a))).

(** particles.py:557-636 push_p, CPU branch. A ballistic ionizable species raises
    NotImplementedError (lines 580-582), written [Err TypeError] here. *)
Definition push_p (s : psp) (dt : R) : res (list mp) :=
  if Req_EM_T (q s) 0 then Ok (ptcls s) else
  match z_plane s, ionizer s with
  | Some _, true => Err TypeError
  | None, true => Ok (map (push_p_ioniz_numba (m s) dt) (ptcls s))
  | Some zp, false => Ok (map (push_p_after_plane_numba zp (q s) (m s) dt) (ptcls s))
  | None, false => Ok (map (push_p_numba (q s) (m s) dt) (ptcls s))
  end.

(** push/numba_methods.py:16-32 push_x_numba, one iteration; particles.py:639-671 *)
Definition push_x (dt x_push y_push z_push : R) (a : mp) : mp :=
  let chdt := c * dt in
  {| px := px a + chdt * ig (pm a) * x_push * ux (pm a);
     py := py a + chdt * ig (pm a) * y_push * uy (pm a);
     pz := pz a + chdt * ig (pm a) * z_push * uz (pm a);
     pm := pm a; pf := pf a; plevel := plevel a |}.
End C.
