(** Damping of E and B on the GPU: boundaries/cuda_methods.py:485-638, boundaries/pml_damping.py:58-66, 109-154 and the GPU
    branches of boundaries/boundary_communicator.py:828-907. Exact arithmetic. The arrays of one InterpolationGrid are
    addressed by (name, iz, ir); the damping array, which no kernel writes, is passed as a function. *)
From Verif Require Import Base Decomp_Model Mirror_Model Damp_Model Cuda_Model.
From Coq Require Import Reals.
From Coquelicot Require Import Complex.
Open Scope Z_scope.

Notation dloc := (fname * Z * Z)%type.
Notation dprog := (prog (fname * Z * Z) C).
(** F[iz, ir] *= d, followed by [p] *)
Definition scale_at (F : fname) (iz ir : Z) (d : R) (p : dprog) : dprog :=
  Load (F, iz, ir) (fun v => Store (F, iz, ir) (Cmult v (RtoC d)) p).

(** cuda_methods.py:485-522 cuda_damp_EB_left *)
Definition cuda_damp_EB_left (Nr : Z) (damp : Z -> R) (nd : Z) (iz ir : Z) : dprog :=
  if ir <? Nr then if iz <? nd then
    let d := damp iz in
    scale_at Er iz ir d (scale_at Et iz ir d (scale_at Ez iz ir d (
    scale_at Br iz ir d (scale_at Bt iz ir d (scale_at Bz iz ir d Done)))))
  else Done else Done.
(** cuda_methods.py:524-559 cuda_damp_EB_left_pml *)
Definition cuda_damp_EB_left_pml (Nr : Z) (damp : Z -> R) (nd : Z) (iz ir : Z) : dprog :=
  if ir <? Nr then if iz <? nd then
    let d := damp iz in
    scale_at Er_pml iz ir d (scale_at Et_pml iz ir d (scale_at Br_pml iz ir d (scale_at Bt_pml iz ir d Done)))
  else Done else Done.
(** cuda_methods.py:561-600 cuda_damp_EB_right *)
Definition cuda_damp_EB_right (Nz Nr : Z) (damp : Z -> R) (nd : Z) (iz ir : Z) : dprog :=
  if ir <? Nr then if iz <? nd then
    let d := damp iz in
    let iz_right := Nz - iz - 1 in
    scale_at Er iz_right ir d (scale_at Et iz_right ir d (scale_at Ez iz_right ir d (
    scale_at Br iz_right ir d (scale_at Bt iz_right ir d (scale_at Bz iz_right ir d Done)))))
  else Done else Done.
(** cuda_methods.py:602-638 cuda_damp_EB_right_pml *)
Definition cuda_damp_EB_right_pml (Nz Nr : Z) (damp : Z -> R) (nd : Z) (iz ir : Z) : dprog :=
  if ir <? Nr then if iz <? nd then
    let d := damp iz in
    let iz_right := Nz - iz - 1 in
    scale_at Er_pml iz_right ir d (scale_at Et_pml iz_right ir d (scale_at Br_pml iz_right ir d (scale_at Bt_pml iz_right ir d Done)))
  else Done else Done.
(** pml_damping.py:110-154 cuda_damp_pml_EB *)
Definition cuda_damp_pml_EB (Nz Nr : Z) (damp : Z -> R) (n_pml : Z) (iz i_pml : Z) : dprog :=
  if i_pml <? n_pml then if iz <? Nz then
    let d := damp i_pml in
    let ir := Nr - n_pml + i_pml in
    Load (Et, iz, ir) (fun e => Load (Et_pml, iz, ir) (fun p => Store (Et, iz, ir) (Cminus e p) (
    Load (Bt, iz, ir) (fun e => Load (Bt_pml, iz, ir) (fun p => Store (Bt, iz, ir) (Cminus e p) (
    scale_at Et_pml iz ir d (scale_at Bt_pml iz ir d (
    Load (Et, iz, ir) (fun e => Load (Et_pml, iz, ir) (fun p => Store (Et, iz, ir) (Cplus e p) (
    Load (Bt, iz, ir) (fun e => Load (Bt_pml, iz, ir) (fun p => Store (Bt, iz, ir) (Cplus e p) (
    scale_at Ez iz ir d (scale_at Bz iz ir d Done)))))))))))))))
  else Done else Done.

(** boundary_communicator.py:828-907 damp_EB_open_boundary with use_cuda: the launches for one InterpolationGrid. (The code
    loops over the modes inside each of the two branches; the arrays of different modes are distinct.) *)
Definition gpu_damp_EB_open_boundary (c : comm) (Nz Nr : Z) (use_pml : bool) : list (list dprog) :=
  if c_nzdamp c =? 0 then [] else
  let nd := c_nguard c + c_nzdamp c + c_ninject c in
  let damp := generate_damp_array (c_nguard c) (c_nzdamp c) (c_ninject c) in
  let dims := cuda_tpb_bpg_2d nd Nr 1 128 in
  (match c_left c with
   | None => launch_2d dims (cuda_damp_EB_left Nr damp nd) ::
             (if use_pml then [launch_2d dims (cuda_damp_EB_left_pml Nr damp nd)] else [])
   | Some _ => [] end) ++
  (match c_right c with
   | None => launch_2d dims (cuda_damp_EB_right Nz Nr damp nd) ::
             (if use_pml then [launch_2d dims (cuda_damp_EB_right_pml Nz Nr damp nd)] else [])
   | Some _ => [] end).
(** pml_damping.py:58-66 damp_pml_EB with use_cuda, for one InterpolationGrid *)
Definition gpu_damp_pml_EB (n_pml Nz Nr : Z) (cdt_over_dr : R) : list (list dprog) :=
  [launch_2d (cuda_tpb_bpg_2d Nz n_pml 1 128) (cuda_damp_pml_EB Nz Nr (generate_pml_damp_array n_pml cdt_over_dr) n_pml)].

Definition fname_dec (a b : fname) : {a = b} + {a <> b}.
Proof. decide equality. apply PeanoNat.Nat.eq_dec. Defined.
(** The executions of a list of launches on the arrays of an InterpolationGrid. *)
Definition gpu_runs (ks : list (list dprog)) (g g' : @igrid C) : Prop :=
  ig_pml g' = ig_pml g /\ ig_dz g' = ig_dz g /\
  exists M', stream (cloc_dec fname_dec) ks (fun l => ig_arr g (fst (fst l)) (snd (fst l)) (snd l)) M' /\
    forall f iz ir, ig_arr g' f iz ir = M' (f, iz, ir).
