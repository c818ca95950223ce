(** Laser antenna on GPU: lpa_utils/laser/antenna_injection.py (branches use_cuda) and the kernels of
    particles/deposition/cuda_methods_unsorted.py. Exact arithmetic; CPU counterpart: Antenna_Model. *)
From Coq Require Import Reals.
From Flocq Require Import Core.Core.
From Coquelicot Require Import Complex.
From Verif Require Import Base Decomp_Model Shape_Model Sort_Model Deposit_Model GDeposit_Model Boost_Model Antenna_Model.
Open Scope Z_scope.

(** One virtual particle (antenna_injection.py:144-191): baseline_x, _y, _z and vz exist both on the host and
    on the device (d_baseline_x, ...); excursion_x, _y, vx, vy and w only on the device. *)
Record gvptcl := { h_bx : R; h_by : R; h_bz : R; h_vz : R; d_bx : R; d_by : R; d_bz : R; d_vz : R;
                   d_ex : R; d_ey : R; d_vx : R; d_vy : R; d_w : R }.
Record gantenna := { ga_mob : R; ga_boost : option converter; ga_on : bool; ga_ptcl : list gvptcl }.

(** antenna_injection.py:173-191: the copies at the end of __init__ *)
Definition to_device (a : antenna) : gantenna :=
  {| ga_mob := a_mob a; ga_boost := a_boost a; ga_on := a_on a;
     ga_ptcl := map (fun p =>
       {| h_bx := a_bx p; h_by := a_by p; h_bz := a_bz p; h_vz := a_vz p;
          d_bx := a_bx p; d_by := a_by p; d_bz := a_bz p; d_vz := a_vz p;
          d_ex := a_ex p; d_ey := a_ey p; d_vx := a_vx p; d_vy := a_vy p; d_w := a_w p |}) (a_ptcl a) |}.
(** antenna_injection.py:55-191 __init__ with use_cuda=True *)
Definition gantenna_init (cl r_e e eps0 pd z0 v_antenna dr : R) (Nr Nm npr : Z) (epsilon : R) (boost : option converter)
  : res gantenna :=
  bind (antenna_init cl r_e e eps0 pd z0 v_antenna dr Nr Nm npr epsilon boost) (fun a => Ok (to_device a)).

(** antenna_injection.py:194-221 update_current_rank: reads the host array *)
Definition gupdate_current_rank (c : comm) (a : gantenna) : res gantenna :=
  match ga_ptcl a with
  | [] => Err IndexError
  | p :: _ => bind (get_zmin_zmax c true true false (Some (c_rank c))) (fun '(zmin, zmax) =>
      Ok {| ga_mob := ga_mob a; ga_boost := ga_boost a;
            ga_on := (if Rge_dec (h_bz p) zmin then true else false) && (if Rlt_dec (h_bz p) zmax then true else false);
            ga_ptcl := ga_ptcl a |})
  end.
(** antenna_injection.py:223-247 push_x *)
Definition gpush_vp (dt xp yp zp : R) (p : gvptcl) : gvptcl :=
  {| h_bx := h_bx p; h_by := h_by p; h_bz := h_bz p + dt * zp * h_vz p; h_vz := h_vz p;
     d_bx := d_bx p; d_by := d_by p; d_bz := d_bz p + dt * zp * d_vz p; d_vz := d_vz p;
     d_ex := d_ex p + dt * xp * d_vx p; d_ey := d_ey p + dt * yp * d_vy p;
     d_vx := d_vx p; d_vy := d_vy p; d_w := d_w p |}%R.
Definition gpush_antenna (dt xp yp zp : R) (a : gantenna) : gantenna :=
  {| ga_mob := ga_mob a; ga_boost := ga_boost a; ga_on := ga_on a; ga_ptcl := map (gpush_vp dt xp yp zp) (ga_ptcl a) |}.
(** antenna_injection.py:249-311 update_v. Whether the profile is gpu_capable or not only says where the field
    is computed (lines 272-276, 305-310). *)
Definition gupdate_vp (cl mob : R) (boost : option converter) (E : R -> R -> R -> R -> R * R) (t dt : R) (p : gvptcl) : gvptcl :=
  (let x := d_bx p + d_vx p * 0.5 * dt in let y := d_by p + d_vy p * 0.5 * dt in let z := d_bz p + d_vz p * 0.5 * dt in
  let '(zlab, tlab) := match boost with
    | Some b => (gamma0 b * (z + cl * beta0 b * t), gamma0 b * (t + 1 / cl * beta0 b * z))
    | None => (z, t) end in
  let '(Ex, Ey) := E x y zlab tlab in
  {| h_bx := h_bx p; h_by := h_by p; h_bz := h_bz p; h_vz := h_vz p;
     d_bx := d_bx p; d_by := d_by p; d_bz := d_bz p; d_vz := d_vz p;
     d_ex := d_ex p; d_ey := d_ey p; d_vx := mob * Ex; d_vy := mob * Ey; d_w := d_w p |})%R.
Definition gupdate_v (cl : R) (E : R -> R -> R -> R -> R * R) (t dt : R) (a : gantenna) : gantenna :=
  {| ga_mob := ga_mob a; ga_boost := ga_boost a; ga_on := ga_on a;
     ga_ptcl := map (gupdate_vp cl (ga_mob a) (ga_boost a) E t dt) (ga_ptcl a) |}.

(** The operations of Simulation.step on an antenna (Antenna_Model.aop). *)
Record gastate := { gs_ant : gantenna; gs_comm : comm }.
Section Run.
Context (cl : R) (E : R -> R -> R -> R -> R * R).
(** main.py:424-566 and 672-716, on GPU *)
Definition do_gop (o : aop) (s : gastate) : res gastate :=
  match o with
  | OUpdateRank => bind (gupdate_current_rank (gs_comm s) (gs_ant s)) (fun a => Ok {| gs_ant := a; gs_comm := gs_comm s |})
  | OUpdateV t dt => Ok {| gs_ant := gupdate_v cl E t dt (gs_ant s); gs_comm := gs_comm s |}
  | OPush dt xp yp zp => Ok {| gs_ant := gpush_antenna dt xp yp zp (gs_ant s); gs_comm := gs_comm s |}
  | OShift d => Ok {| gs_ant := gs_ant s; gs_comm := shift_global_domain_positions (gs_comm s) d |}
  | ODeposit => Ok s
  end.
Fixpoint do_gops (l : list aop) (s : gastate) : res gastate :=
  match l with [] => Ok s | o :: l => bind (do_gop o s) (do_gops l) end.
End Run.

(** antenna_injection.py:350-388 deposit_virtual_particles_gpu: the arrays x, y, d_baseline_z, w and, for J, vx, vy,
    d_vz given to the kernels for the sign [q]. *)
Record uptcl := { u_x : R; u_y : R; u_z : R; u_w : R; u_vx : R; u_vy : R; u_vz : R }.
Definition kernel_args (q : R) (a : gantenna) : list uptcl :=
  map (fun p => {| u_x := d_bx p + q * d_ex p; u_y := d_by p + q * d_ey p; u_z := d_bz p; u_w := d_w p;
                   u_vx := q * d_vx p; u_vy := q * d_vy p; u_vz := d_vz p |}%R) (ga_ptcl a).

(** cuda_methods_unsorted.py:82-88, 222-230 *)
Definition u_r (p : uptcl) : R := sqrt (u_x p ^ 2 + u_y p ^ 2).
Definition u_cos (p : uptcl) : R := if Req_EM_T (u_r p) 0 then 1%R else (u_x p * (1 / u_r p))%R.
Definition u_sin (p : uptcl) : R := if Req_EM_T (u_r p) 0 then 0%R else (u_y p * (1 / u_r p))%R.
(** cuda_methods_unsorted.py:90-92, 232-234 *)
Fixpoint u_exptheta (p : uptcl) (m : nat) : C :=
  match m with O => RtoC 1 | S m' => Cmult (u_exptheta p m') (u_cos p, u_sin p) end.
(** cuda_methods_unsorted.py:126 (R_m_scal), 267-269 (J_r_m_scal, J_t_m_scal, J_z_m_scal) *)
Definition u_scal (q : R) (k : comp) (m : nat) (p : uptcl) : C :=
  let wj := (q * u_w p)%R in
  match k with
  | Rho => Cmult (RtoC wj) (u_exptheta p m)
  | Jr => Cmult (RtoC (wj * (u_cos p * u_vx p + u_sin p * u_vy p))) (u_exptheta p m)
  | Jt => Cmult (RtoC (wj * (u_cos p * u_vy p - u_sin p * u_vx p))) (u_exptheta p m)
  | Jz => Cmult (RtoC (wj * u_vz p)) (u_exptheta p m)
  end.
(** The flip argument of Sr_linear: f = (-1)**m for rho and Jz (lines 127-130, 273, 276, 280, 283), -f for Jr and Jt *)
Definition u_flip (k : comp) (m : nat) : R :=
  match k with Rho | Jz => ((-1) ^ m)%R | Jr | Jt => (- (-1) ^ m)%R end.
(** cuda_methods_unsorted.py:95-96 *)
Definition u_rcell (g : grid) (p : uptcl) : R := (1 / g_dr g * (u_r p - 0) - 1 / 2)%R.
Definition u_zcell (g : grid) (p : uptcl) : R := (1 / g_dz g * (u_z p - g_zmin g) - 1 / 2)%R.
(** cuda_methods_unsorted.py:99-119: the indices (iz0, iz1, ir0, ir1) *)
Definition u_iz (g : grid) (p : uptcl) (b : Z) : Z :=
  let iz := Zceil (u_zcell g p) in
  let iz := if iz <? 0 then iz + g_Nz g else if iz >=? g_Nz g then iz - g_Nz g else iz in
  if b =? 0 then (if iz - 1 <? 0 then iz - 1 + g_Nz g else iz - 1) else iz.
Definition u_ir (g : grid) (p : uptcl) (a : Z) : Z :=
  let ir := Z.min (Zceil (u_rcell g p)) (g_Nr g) in
  if a =? 0 then (if ir - 1 <? 0 then - (1 + (ir - 1)) else ir - 1) else Z.min ir (g_Nr g - 1).
(** The value for the points [a] in r and [b] in z (R_m_ab: lines 127-130; J: 271-284) *)
Definition u_value (g : grid) (q : R) (k : comp) (m : nat) (p : uptcl) (a b : Z) : C :=
  let bn := g_beta g Linear m (Z.min (Zceil (u_rcell g p)) (g_Nr g)) in
  Cmult (RtoC (Sr_linear (u_rcell g p) a (u_flip k m) bn * Sz_linear (u_zcell g p) b)%R) (u_scal q k m p).
(** deposit_rho_gpu_unsorted (lines 18-142), deposit_J_gpu_unsorted (149-315): the atomic additions of thread [i] to the
    array of the component [k], mode [m]; the imaginary parts only for m > 0. *)
Definition no_uptcl : uptcl := {| u_x := 0; u_y := 0; u_z := 0; u_w := 0; u_vx := 0; u_vy := 0; u_vz := 0 |}%R.
Definition unsorted_thread (g : grid) (q : R) (k : comp) (m : nat) (l : list uptcl) (i : Z) : list ((Z * Z) * C) :=
  if i <? Z.of_nat (length l) then
    let p := nth (Z.to_nat i) l no_uptcl in
    let v a b := u_value g q k m p a b in
    let at_ a b := (u_iz g p b, u_ir g p a) in
    let pts := [(0, 0); (1, 0); (0, 1); (1, 1)] in
    map (fun ab => (at_ (fst ab) (snd ab), RtoC (fst (v (fst ab) (snd ab))))) pts ++
    match m with O => [] | S _ => map (fun ab => (at_ (fst ab) (snd ab), (0, snd (v (fst ab) (snd ab)))%R)) pts end
  else [].

(** antenna_injection.py:314-348 deposit, on GPU: q = -1, then q = 1; all the components of [ft], all the modes.
    cuda_tpb_bpg_1d(Ntot): 256 threads per block (utils/cuda.py:48). *)
Definition gpu_antenna_launch (g : grid) (Nm : nat) (ft : fieldtype) (q : R) (a : gantenna)
  (A A' : comp -> nat -> Z -> Z -> C) : Prop :=
  forall k m, (m < Nm)%nat ->
    if deposited ft k then
      atomic_launch (Z.of_nat (length (ga_ptcl a))) 256 (unsorted_thread g q k m (kernel_args q a)) (A k m) (A' k m)
    else A' k m = A k m.
Definition gpu_antenna_deposit (g : grid) (Nm : nat) (ft : fieldtype) (a : gantenna) (A A' : comp -> nat -> Z -> Z -> C) : Prop :=
  if ga_on a then exists A1, gpu_antenna_launch g Nm ft (-1) a A A1 /\ gpu_antenna_launch g Nm ft 1 a A1 A' else A' = A.
(** main.py:633-634, 652-653: the loop over the antennas *)
Inductive gpu_antenna_loop (g : grid) (Nm : nat) (ft : fieldtype) :
  list gantenna -> (comp -> nat -> Z -> Z -> C) -> (comp -> nat -> Z -> Z -> C) -> Prop :=
| gal_nil A : gpu_antenna_loop g Nm ft [] A A
| gal_cons a l A A1 A' : gpu_antenna_deposit g Nm ft a A A1 -> gpu_antenna_loop g Nm ft l A1 A' ->
    gpu_antenna_loop g Nm ft (a :: l) A A'.
(** main.py:588-660 on GPU, single rank, species_list=None, up to the division by the volume: as
    GDeposit_Model.gpu_deposit, with the antennas after the species. *)
Definition gpu_deposit_with_antennas (c : R) (v100 : bool) (g : grid) (vol : nat -> Z -> R) (Nm : nat) (ft : fieldtype)
  (l l' : list gsp) (ants : list gantenna) (A A' : comp -> nat -> Z -> Z -> C) : Prop :=
  exists A1 A2,
    gpu_species_loop c v100 g Nm ft (filter (fun s => negb (gs_tracer s)) l) l'
      (fun k m => if deposited ft k then zero2 else A k m) A1 /\
    gpu_antenna_loop g Nm ft ants A1 A2 /\
    forall k m, (m < Nm)%nat -> A' k m = if deposited ft k then divide_by_volume (mode_grid g vol m) (A2 k m) else A2 k m.
