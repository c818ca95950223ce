(** Damping of E and B: boundaries/boundary_communicator.py and boundaries/pml_damping.py. Exact arithmetic; the CUDA
    kernels (cuda_methods.py:485-600, pml_damping.py:109-154) are in GDamp_Model.v. *)
From Verif Require Import Base Decomp_Model Mirror_Model.
From Coq Require Import Reals.
From Coquelicot Require Import Complex.
Open Scope R_scope.

(** boundary_communicator.py:909-945 generate_damp_array: element i, for 0 <= i < n_guard+nz_damp+n_inject *)
Definition generate_damp_array (n_guard nz_damp n_inject : Z) (i : Z) : R :=
  let d := if Rlt_dec (IZR i) (IZR n_guard + IZR n_inject + IZR nz_damp / 2)
           then sin ((IZR i - (IZR n_guard + IZR n_inject)) * PI / (2 * IZR nz_damp / 2)) ^ 2 else 1 in
  if (i <? n_guard + n_inject)%Z then 0 else d.
(** boundary_communicator.py:828-907 damp_EB_open_boundary for one InterpolationGrid with [Nz] rows; ValueError: broadcast of
    arrays of different lengths. *)
Definition damped (f : fname) (pml : bool) : bool := is_EB f || (pml && is_pml f).
Definition damp_EB_open_boundary (c : comm) (Nz : Z) (g : @igrid C) : res (@igrid C) :=
  if (c_nzdamp c =? 0)%Z then Ok g else
  let nd := (c_nguard c + c_nzdamp c + c_ninject c)%Z in
  let damp_arr := generate_damp_array (c_nguard c) (c_nzdamp c) (c_ninject c) in
  let short := (Nz <? nd)%Z in
  bind (match c_left c with
        | None => if short then Err ValueError else
            Ok {| ig_pml := ig_pml g; ig_dz := ig_dz g; ig_arr := fun f iz ir =>
              if damped f (ig_pml g) && (iz <? nd)%Z then Cmult (ig_arr g f iz ir) (RtoC (damp_arr iz)) else ig_arr g f iz ir |}
        | Some _ => Ok g end) (fun g =>
  match c_right c with
  | None => if short then Err ValueError else
      Ok {| ig_pml := ig_pml g; ig_dz := ig_dz g; ig_arr := fun f iz ir =>
        if damped f (ig_pml g) && (Nz - nd <=? iz)%Z then Cmult (ig_arr g f iz ir) (RtoC (damp_arr (nd - 1 - (iz - (Nz - nd)))%Z)) else ig_arr g f iz ir |}
  | Some _ => Ok g end).

(** pml_damping.py:83-105 generate_pml_damp_array: element i, for 0 <= i < n_pml *)
Definition generate_pml_damp_array (n_pml : Z) (cdt_over_dr : R) (i : Z) : R :=
  let x_pml := IZR i * 1 / IZR n_pml in exp (- 4 * cdt_over_dr * x_pml ^ 2).
(** One statement on the columns [-n_pml:] of the array F, the array P being its PML part (pml_damping.py:68-80). *)
Definition same (f f0 : fname) : bool := match f, f0 with
  | Er, Er | Et, Et | Ez, Ez | Br, Br | Bt, Bt | Bz, Bz | Er_pml, Er_pml | Et_pml, Et_pml | Br_pml, Br_pml | Bt_pml, Bt_pml => true
  | Other n, Other k => Nat.eqb n k | _, _ => false end.
Definition arrays := fname -> Z -> Z -> C.
Definition sub_cols (col0 : Z) (F P : fname) (a : arrays) : arrays := fun f iz ir =>
  if same f F && (col0 <=? ir)%Z then Cminus (a F iz ir) (a P iz ir) else a f iz ir.
Definition add_cols (col0 : Z) (F P : fname) (a : arrays) : arrays := fun f iz ir =>
  if same f F && (col0 <=? ir)%Z then Cplus (a F iz ir) (a P iz ir) else a f iz ir.
Definition scale_cols (col0 : Z) (d : Z -> R) (F : fname) (a : arrays) : arrays := fun f iz ir =>
  if same f F && (col0 <=? ir)%Z then Cmult (a F iz ir) (RtoC (d (ir - col0)%Z)) else a f iz ir.
(** pml_damping.py:46-80 damp_pml_EB (CPU) for one InterpolationGrid with [Nr] columns, in the order of the code *)
Definition damp_pml_EB (n_pml Nr : Z) (cdt_over_dr : R) (g : @igrid C) : @igrid C :=
  let col0 := (Nr - n_pml)%Z in let d := generate_pml_damp_array n_pml cdt_over_dr in
  {| ig_pml := ig_pml g; ig_dz := ig_dz g;
     ig_arr := scale_cols col0 d Ez (scale_cols col0 d Bz (add_cols col0 Bt Bt_pml (add_cols col0 Et Et_pml
       (scale_cols col0 d Bt_pml (scale_cols col0 d Et_pml (sub_cols col0 Bt Bt_pml (sub_cols col0 Et Et_pml (ig_arr g)))))))) |}.
