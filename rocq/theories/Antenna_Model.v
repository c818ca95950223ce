(** Laser antenna: lpa_utils/laser/antenna_injection.py and its calls in main.py. Exact arithmetic, CPU. *)
From Verif Require Import Base Decomp_Model Shape_Model Deposit_Model Boost_Model Bunch_Model.
From Coq Require Import Reals.
From Coquelicot Require Import Complex.
From Flocq Require Import IEEE754.BinarySingleNaN.
Open Scope R_scope.

(** One virtual particle: baseline_x, _y, _z, excursion_x, _y, vx, vy, vz, w (antenna_injection.py:144-171) *)
Record vptcl := { a_bx : R; a_by : R; a_bz : R; a_ex : R; a_ey : R; a_vx : R; a_vy : R; a_vz : R; a_w : R }.
(** [a_mob]: mobility_coef; [a_on]: deposit_on_this_rank; [a_boost]: boost *)
Record antenna := { a_mob : R; a_boost : option converter; a_on : bool; a_ptcl : list vptcl }.

(** antenna_injection.py:55-191 __init__. [cl], [r_e], [e], [eps0]: physical constants; [pd]: propag_direction of the laser.
    meshgrid and flatten: the radius varies fastest. *)
Definition antenna_init (cl r_e e eps0 pd z0 v_antenna dr : R) (Nr Nm npr : Z) (epsilon : R) (boost : option converter) : res antenna :=
  if match boost with
     | Some b => (if Req_EM_T v_antenna 0 then false else true) && (if Req_EM_T (gamma0 b) 1 then false else true)
     | None => false end then Err ValueError else
  let nptheta := (2 * Nm)%Z in
  let alpha := 2 * PI / (IZR nptheta * IZR npr * epsilon) * dr / r_e * e in
  let mob := 2 * PI * dr ^ 2 / (IZR nptheta * IZR npr * alpha) * eps0 * cl in
  let mob := match boost with Some b => mob / gamma0 b | None => mob * (1 - pd * v_antenna / cl) end in
  let Npr := (Nr * npr)%Z in
  let bz := match boost with Some b => hd 0 (static_length b [z0]) | None => z0 end in
  let vz := match boost with Some b => hd 0 (velocity cl b [0]) | None => 0 + v_antenna end in
  Ok {| a_mob := mob; a_boost := boost; a_on := false;
        a_ptcl := flat_map (fun it => map (fun ir =>
          let r := dr / IZR npr * (IZR ir + 0.5) in let th := 2 * PI / IZR nptheta * IZR it in
          {| a_bx := r * cos th; a_by := r * sin th; a_bz := bz; a_ex := 0; a_ey := 0; a_vx := 0; a_vy := 0; a_vz := vz;
             a_w := alpha * r / dr |}) (range Npr)) (range nptheta) |}.

(** antenna_injection.py:194-221 update_current_rank (z_antenna is baseline_z[0]; IndexError if there is no particle) *)
Definition update_current_rank (c : comm) (a : antenna) : res antenna :=
  match a_ptcl a with
  | [] => Err IndexError
  | p :: _ => bind (get_zmin_zmax c true true false (Some (c_rank c))) (fun '(zmin, zmax) =>
      Ok {| a_mob := a_mob a; a_boost := a_boost a;
            a_on := (if Rge_dec (a_bz p) zmin then true else false) && (if Rlt_dec (a_bz p) zmax then true else false);
            a_ptcl := a_ptcl a |})
  end.
(** antenna_injection.py:223-247 push_x *)
Definition push_vp (dt xp yp zp : R) (p : vptcl) : vptcl :=
  {| a_bx := a_bx p; a_by := a_by p; a_bz := a_bz p + dt * zp * a_vz p; a_ex := a_ex p + dt * xp * a_vx p;
     a_ey := a_ey p + dt * yp * a_vy p; a_vx := a_vx p; a_vy := a_vy p; a_vz := a_vz p; a_w := a_w p |}.
Definition push_antenna (dt xp yp zp : R) (a : antenna) : antenna :=
  {| a_mob := a_mob a; a_boost := a_boost a; a_on := a_on a; a_ptcl := map (push_vp dt xp yp zp) (a_ptcl a) |}.
(** antenna_injection.py:249-311 update_v; [E x y z t]: the components (Ex, Ey) that laser_profile.E_field returns *)
Definition update_vp (cl mob : R) (boost : option converter) (E : R -> R -> R -> R -> R * R) (t dt : R) (p : vptcl) : vptcl :=
  let x := a_bx p + a_vx p * 0.5 * dt in let y := a_by p + a_vy p * 0.5 * dt in let z := a_bz p + a_vz p * 0.5 * dt in
  let '(zlab, tlab) := match boost with
    | Some b => (gamma0 b * (z + cl * beta0 b * t), gamma0 b * (t + 1 / cl * beta0 b * z))
    | None => (z, t) end in
  let '(Ex, Ey) := E x y zlab tlab in
  {| a_bx := a_bx p; a_by := a_by p; a_bz := a_bz p; a_ex := a_ex p; a_ey := a_ey p;
     a_vx := mob * Ex; a_vy := mob * Ey; a_vz := a_vz p; a_w := a_w p |}.
Definition update_v (cl : R) (E : R -> R -> R -> R -> R * R) (t dt : R) (a : antenna) : antenna :=
  {| a_mob := a_mob a; a_boost := a_boost a; a_on := a_on a; a_ptcl := map (update_vp cl (a_mob a) (a_boost a) E t dt) (a_ptcl a) |}.

(** antenna_injection.py:389-442 deposit_virtual_particles_cpu: the arrays passed to the deposition kernels of the
    regular particles, for the charge sign [q]; always the linear shape. *)
Definition virtual_species (cl q : R) (a : antenna) : Deposit_Model.species :=
  {| sp_q := q; sp_tracer := false; sp_ionizable := false; sp_shape := Linear;
     sp_ptcl := map (fun p => {| p_x := a_bx p + q * a_ex p; p_y := a_by p + q * a_ey p; p_z := a_bz p;
        p_ux := q * a_vx p / cl; p_uy := q * a_vy p / cl; p_uz := a_vz p / cl; p_ig := 1; p_w := a_w p; p_wl := 0 |}) (a_ptcl a) |}.
(** antenna_injection.py:314-348 deposit: nothing if the flag is not set, else q = -1 then q = 1 *)
Definition antenna_deposits (cl : R) (a : antenna) : list Deposit_Model.species :=
  if a_on a then [virtual_species cl (-1) a; virtual_species cl 1 a] else [].
(** main.py:588-670 Simulation.deposit with species_list = None: non-tracer species, then the antennas, then reduction and
    division by the volume (Deposit_Model.deposit). *)
Definition deposit_with_antennas (cl : R) (g : Deposit_Model.grid) (k : Deposit_Model.comp) (m : nat) (nthreads : Z)
    (ptcl : list Deposit_Model.species) (ants : list antenna) : Z -> Z -> C :=
  Deposit_Model.deposit cl g k m nthreads [] (Some (filter (fun s => negb (sp_tracer s)) ptcl ++ flat_map (antenna_deposits cl) ants)).

(** What happens to an antenna and to the communicator of a rank during the loop. *)
Inductive aop := OUpdateRank | OUpdateV (t dt : R) | OPush (dt xp yp zp : R) | OShift (d : R) | ODeposit.
Record astate := { s_ant : antenna; s_comm : comm }.
Section Run.
Context (cl : R) (E : R -> R -> R -> R -> R * R).
Definition do_op (o : aop) (s : astate) : res astate :=
  match o with
  | OUpdateRank => bind (update_current_rank (s_comm s) (s_ant s)) (fun a => Ok {| s_ant := a; s_comm := s_comm s |})
  | OUpdateV t dt => Ok {| s_ant := update_v cl E t dt (s_ant s); s_comm := s_comm s |}
  | OPush dt xp yp zp => Ok {| s_ant := push_antenna dt xp yp zp (s_ant s); s_comm := s_comm s |}
  | OShift d => Ok {| s_ant := s_ant s; s_comm := shift_global_domain_positions (s_comm s) d |}
  | ODeposit => Ok s
  end.
Fixpoint do_ops (l : list aop) (s : astate) : res astate :=
  match l with [] => Ok s | o :: l => bind (do_op o s) (do_ops l) end.
End Run.
(** One iteration of Simulation.step (main.py:424-566, 672-716, 772-789) as seen by an antenna. [xchg]: the condition of line 435;
    [first]: i_step == 0; [cross]: cross-deposition; [vg]: v_comoving if use_galilean else 0; [d]: displacement of the moving
    window at the end of the step. *)
Definition cross_ops (vg dt : R) : list aop :=
  [OPush (0.5 * dt) 1 1 (-1); OShift (vg * (- 0.5 * dt)); ODeposit; OPush dt (-1) (-1) 1; OShift (vg * dt); ODeposit;
   OPush (0.5 * dt) 1 1 (-1); OShift (vg * (- 0.5 * dt))].
Definition iter_ops (xchg first cross : bool) (vg time dt d : R) : list aop :=
  (if xchg then [OUpdateRank; ODeposit] else []) ++ (if first then [ODeposit] else []) ++
  [OUpdateV (time + 0.5 * dt) dt; OPush (0.5 * dt) 1 1 1; OShift (vg * (0.5 * dt)); ODeposit] ++
  (if cross then cross_ops vg dt else []) ++
  [OPush (0.5 * dt) 1 1 1; OShift (vg * (0.5 * dt)); ODeposit; OShift d].
(** Iterations [it], [it]+1, ..., of one call of [step] (main.py:421-566). [period]: exchange_period; [d i]: displacement of
    the window at iteration i. *)
Fixpoint loop_ops (period : Z) (cross : bool) (vg dt : R) (d : Z -> R) (n : nat) (first : bool) (it : Z) (time : R) : list aop :=
  match n with
  | O => []
  | S n => iter_ops ((it mod period =? 0)%Z || first) first cross vg time dt (d it) ++ loop_ops period cross vg dt d n false (it + 1) (time + dt)
  end.
(** update_current_rank in binary64 (edges as in Bunch_Model.get_zmin_zmax64); [zg], [dz]: attributes of the communicator *)
Definition flag64 (c : comm) (zg dz : Bunch_Model.b64) (r : Z) (z : Bunch_Model.b64) : bool :=
  match Bunch_Model.get_zmin_zmax64 c zg dz true true false (Some r) with
  | Ok (zmin, zmax) => BinarySingleNaN.Bleb zmin z && BinarySingleNaN.Bltb z zmax
  | Err _ => false
  end.
