(** Field gathering (CPU): particles/particles.py gather, particles/gathering/threading_methods.py, threading_methods_one_mode.py and
    inline_functions.py. Exact arithmetic; one particle (the loops over particles and threads write each particle once,
    C18); arrays are functions (row iz, column ir). *)
From Verif Require Import Base Shape_Model.
From Coq Require Import Reals.
From Coquelicot Require Import Complex.
From Flocq Require Import Core.Raux.
Open Scope R_scope.

(** invdz, zmin, Nz, invdr, rmin, Nr of the grids *)
Record ggrid := { gg_invdz : R; gg_zmin : R; gg_Nz : Z; gg_invdr : R; gg_rmin : R; gg_Nr : Z }.
(** The arrays Fr, Ft, Fz of one mode *)
Record mfield := { f_r : Z -> Z -> C; f_t : Z -> Z -> C; f_z : Z -> Z -> C }.

(** inline_functions.py:84-93 and 176-185: the contribution of a mode to (Fr, Ft, Fz) *)
Definition add_mode (m : nat) (F : R * R * R) (Fm : C * C * C) (ex : C) : R * R * R :=
  let '(Fr, Ft, Fz) := F in let '(Fr_m, Ft_m, Fz_m) := Fm in
  let factor := match m with O => 1 | _ => 2 end in
  (Fr + factor * fst (Cmult Fr_m ex), Ft + factor * fst (Cmult Ft_m ex), Fz + factor * fst (Cmult Fz_m ex)).
Definition cacc (s : R) (f : C) (a : C) : C := Cplus a (Cmult (RtoC s) f).
(** inline_functions.py:9-95 *)
Definition add_linear_gather_for_mode (m : nat) (F : R * R * R) (ex : C) (g : mfield) (iz_lower iz_upper ir_lower ir_upper : Z)
    (S_ll S_lu S_lg S_ul S_uu S_ug : R) : R * R * R :=
  let four (A : Z -> Z -> C) : C :=
    cacc S_uu (A iz_upper ir_upper) (cacc S_ul (A iz_upper ir_lower) (cacc S_lu (A iz_lower ir_upper) (cacc S_ll (A iz_lower ir_lower) (RtoC 0)))) in
  let Fm := (four (f_r g), four (f_t g), four (f_z g)) in
  let Fm := if ((ir_lower =? ir_upper) && (ir_upper =? 0))%Z then
      let flip := (-1) ^ m in let '(a, b, d) := Fm in
      (cacc (- flip * S_ug) (f_r g iz_upper 0%Z) (cacc (- flip * S_lg) (f_r g iz_lower 0%Z) a),
       cacc (- flip * S_ug) (f_t g iz_upper 0%Z) (cacc (- flip * S_lg) (f_t g iz_lower 0%Z) b),
       cacc (flip * S_ug) (f_z g iz_upper 0%Z) (cacc (flip * S_lg) (f_z g iz_lower 0%Z) d))
    else Fm in
  add_mode m F Fm ex.
(** inline_functions.py:98-187 *)
Definition adjust_r (Nr ir : Z) : Z := if (ir <? 0)%Z then (Z.abs ir - 1)%Z else if (ir >? Nr - 1)%Z then (Nr - 1)%Z else ir.
Definition adjust_z (Nz iz : Z) : Z := if (iz <? 0)%Z then (iz + Nz)%Z else if (iz >? Nz - 1)%Z then (iz - Nz)%Z else iz.
Definition add_cubic_gather_for_mode (m : nat) (F : R * R * R) (ex : C) (g : mfield) (ir_lowest iz_lowest : Z) (Sr Sz : Z -> R) (Nr Nz : Z) : R * R * R :=
  let Fm := fold_left (fun acc index_r =>
    let ir := (ir_lowest + index_r)%Z in
    let Sr_long := if (ir <? 0)%Z then Sr index_r * (-1) ^ m else Sr index_r in
    let Sr_perp := if (ir <? 0)%Z then Sr index_r * - (-1) ^ m else Sr index_r in
    let ir := adjust_r Nr ir in
    fold_left (fun '(a, b, d) index_z =>
      let iz := adjust_z Nz (iz_lowest + index_z) in
      (cacc (Sz index_z * Sr_perp) (f_r g iz ir) a, cacc (Sz index_z * Sr_perp) (f_t g iz ir) b, cacc (Sz index_z * Sr_long) (f_z g iz ir) d))
      (range 4) acc) (range 4) (RtoC 0, RtoC 0, RtoC 0) in
  add_mode m F Fm ex.
(** Cylindrical conversion (threading_methods.py:86-100): rj, cos, sin *)
Definition cylindrical (x y : R) : R * R * R :=
  let rj := sqrt (x ^ 2 + y ^ 2) in
  if Req_EM_T rj 0 then (rj, 1, 0) else let invr := 1 / rj in (rj, x * invr, y * invr).
(** One mode with the linear shape: threading_methods.py:104-157, threading_methods_one_mode.py:109-163 (the weights do not depend on the
    mode) *)
Definition linear_mode (g : ggrid) (rj z : R) (ex : C) (m : nat) (fld : mfield) (F : R * R * R) : R * R * R :=
  let Nr := gg_Nr g in let Nz := gg_Nz g in
  let r_cell := gg_invdr g * (rj - gg_rmin g) - 0.5 in let z_cell := gg_invdz g * (z - gg_zmin g) - 0.5 in
  let ir_lower := Zfloor r_cell in let ir_upper := (ir_lower + 1)%Z in
  let iz_lower := Zfloor z_cell in let iz_upper := (iz_lower + 1)%Z in
  let Sr_lower := IZR ir_upper - r_cell in let Sr_upper := r_cell - IZR ir_lower in
  let Sz_lower := IZR iz_upper - z_cell in let Sz_upper := z_cell - IZR iz_lower in
  let '(Sr_guard, Sr_lower, ir_lower) := if (ir_lower <? 0)%Z then (Sr_lower, 0, 0%Z) else (0, Sr_lower, ir_lower) in
  let ir_lower := if (ir_lower >? Nr - 1)%Z then (Nr - 1)%Z else ir_lower in
  let ir_upper := if (ir_upper >? Nr - 1)%Z then (Nr - 1)%Z else ir_upper in
  let iz_lower := if (iz_lower <? 0)%Z then (iz_lower + Nz)%Z else iz_lower in
  let iz_upper := if (iz_upper <? 0)%Z then (iz_upper + Nz)%Z else iz_upper in
  let iz_lower := if (iz_lower >? Nz - 1)%Z then (iz_lower - Nz)%Z else iz_lower in
  let iz_upper := if (iz_upper >? Nz - 1)%Z then (iz_upper - Nz)%Z else iz_upper in
  add_linear_gather_for_mode m F ex fld iz_lower iz_upper ir_lower ir_upper
    (Sz_lower * Sr_lower) (Sz_lower * Sr_upper) (Sz_lower * Sr_guard) (Sz_upper * Sr_lower) (Sz_upper * Sr_upper) (Sz_upper * Sr_guard).
(** Cubic weights (threading_methods.py:302-316) *)
Definition cubic_S (l : R) (k : Z) : R :=
  match k with
  | 0%Z => - 1 / 6 * (l - 2) ^ 3
  | 1%Z => 1 / 6 * (3 * (l - 1) ^ 3 - 6 * (l - 1) ^ 2 + 4)
  | 2%Z => 1 / 6 * (3 * (2 - l) ^ 3 - 6 * (2 - l) ^ 2 + 4)
  | _ => - 1 / 6 * (1 - l) ^ 3
  end.
Definition cubic_mode (g : ggrid) (rj z : R) (ex : C) (m : nat) (fld : mfield) (F : R * R * R) : R * R * R :=
  let r_cell := gg_invdr g * (rj - gg_rmin g) - 0.5 in let z_cell := gg_invdz g * (z - gg_zmin g) - 0.5 in
  let ir_lowest := (Zfloor r_cell - 1)%Z in let iz_lowest := (Zfloor z_cell - 1)%Z in
  add_cubic_gather_for_mode m F ex fld ir_lowest iz_lowest (cubic_S (r_cell - IZR ir_lowest)) (cubic_S (z_cell - IZR iz_lowest)) (gg_Nr g) (gg_Nz g).
Definition shape_mode (sh : shape) := match sh with Linear => linear_mode | Cubic => cubic_mode end.

(** The field of one kind (E or B) gathered by a particle: particles.py:697-837 with threading_methods.py (2 modes) or
    threading_methods_one_mode.py (other numbers of modes). [modes]: the arrays of the successive modes. *)
Definition cart (cos sin : R) (F : R * R * R) : R * R * R := let '(Fr, Ft, Fz) := F in (cos * Fr - sin * Ft, sin * Fr + cos * Ft, Fz).
Definition vadd (a b : R * R * R) : R * R * R := let '(x, y, z) := a in let '(x', y', z') := b in (x + x', y + y', z + z').
Fixpoint Cpow_nat (z : C) (n : nat) : C := match n with O => RtoC 1 | S n => Cmult z (Cpow_nat z n) end.
Definition gather_field (sh : shape) (g : ggrid) (rmax_gather : R) (modes : list mfield) (x y z : R) : R * R * R :=
  let '(rj, co, si) := cylindrical x y in
  let ex1 : C := (co, - si) in
  match modes with
  | [m0; m1] =>
    let F := if Rlt_dec rj rmax_gather then shape_mode sh g rj z ex1 1 m1 (shape_mode sh g rj z (RtoC 1) 0 m0 (0, 0, 0)) else (0, 0, 0) in
    cart co si F
  | _ => snd (fold_left (fun '(m, acc) fld =>
      (S m, if Rlt_dec rj rmax_gather then vadd acc (cart co si (shape_mode sh g rj z (Cpow_nat ex1 m) m fld (0, 0, 0))) else acc)) modes (0%nat, (0, 0, 0)))
  end.
(** particles.py:691-692: species with q = 0 do not gather; [old]: the previous fields of the particle. *)
Definition gather (q : R) (sh : shape) (g : ggrid) (rmax_gather : R) (E B : list mfield) (x y z : R) (old : (R * R * R) * (R * R * R)) :=
  if Req_EM_T q 0 then old else (gather_field sh g rmax_gather E x y z, gather_field sh g rmax_gather B x y z).
