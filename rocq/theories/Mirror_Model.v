(** lpa_utils/mirrors.py. Exact arithmetic; CPU and GPU slices behave alike. *)
From Verif Require Import Base Decomp_Model.
From Coq Require Import Reals.
From Flocq Require Import Core.Raux.
Open Scope R_scope.

Inductive fname := Er | Et | Ez | Br | Bt | Bz | Er_pml | Et_pml | Br_pml | Bt_pml | Other (name : nat).
Definition is_EB (f : fname) : bool := match f with Er | Et | Ez | Br | Bt | Bz => true | _ => false end.
Definition is_pml (f : fname) : bool := match f with Er_pml | Et_pml | Br_pml | Bt_pml => true | _ => false end.
Section Arrays.
Context {A : Type} (zero : A).
(** One InterpolationGrid (one mode): use_pml, dz, and its arrays (row iz, column ir); [Other]: all the other arrays *)
Record igrid := { ig_pml : bool; ig_dz : R; ig_arr : fname -> Z -> Z -> A }.
(** mirrors.py:14-49; the argument m: 'all', an int, a list of ints, or something else *)
Inductive marg := All | One (m : Z) | Many (l : list Z) | Bad.
Record mirror := { m_start : R; m_end : R; m_gamma : option R; m_modes : option (list Z) }.
Definition mirror_init (z_start z_end : R) (gamma_boost : option R) (m : marg) : res mirror :=
  bind (match m with All => Ok None | One m => Ok (Some [m]) | Many l => Ok (Some l) | Bad => Err TypeError end) (fun modes =>
  Ok {| m_start := z_start; m_end := z_end; m_gamma := gamma_boost; m_modes := modes |}).
(** mirrors.py:66-72; [cl]: speed of light *)
Definition mirror_z (cl : R) (mi : mirror) (t z : R) : R :=
  match m_gamma mi with
  | None => z
  | Some g => let beta := sqrt (1 - 1 / g ^ 2) in 1 / g * z - beta * cl * t
  end.
(** arr[imin:imax, :] = 0 (mirrors.py:94), for 0 <= imin, 0 <= imax *)
Definition zero_rows (imin imax : Z) (a : Z -> Z -> A) : Z -> Z -> A := fun iz ir =>
  if ((imin <=? iz) && (iz <? imax))%Z then zero else a iz ir.
(** mirrors.py:51-94 *)
Definition set_fields_to_zero (cl : R) (mi : mirror) (c : comm) (t : R) (interp : list igrid) : res (list igrid) :=
  let zs := mirror_z cl mi t (m_start mi) in let ze := mirror_z cl mi t (m_end mi) in
  bind (get_zmin_zmax c true true true (Some (c_rank c))) (fun '(zmin, zmax) =>
  if (if Rlt_dec zs zmin then true else false) || (if Rge_dec zs zmax then true else false) then Ok interp else
  match interp with
  | [] => Err IndexError
  | g0 :: _ =>
    let imax := Ztrunc ((zs - zmin) / ig_dz g0) in
    let n_cells := Ztrunc ((ze - zs) / ig_dz g0) in
    let imin := Z.max (imax - n_cells) 0 in
    Ok (map (fun '(i, g) =>
      if match m_modes mi with Some l => negb (existsb (Z.eqb i) l) | None => false end then g else
      {| ig_pml := ig_pml g; ig_dz := ig_dz g;
         ig_arr := fun f => if is_EB f || (ig_pml g && is_pml f) then zero_rows imin imax (ig_arr g f) else ig_arr g f |})
      (combine (range (Z.of_nat (length interp))) interp))
  end).
End Arrays.
