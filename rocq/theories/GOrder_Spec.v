(** Vocabulary of C96. *)
From Coq Require Import Reals.
From Coquelicot Require Import Complex.
From Verif Require Import Base Shape_Model Sort_Model Sort_Spec Deposit_Model Deposit_Spec GDeposit_Model GDeposit_Spec GOrder_Model.
Open Scope Z_scope.

(** Index of the first particle of cell [x], given the table of the ends. *)
Definition first_of (ends : Z -> Z) (x : Z) : Z := if x =? 0 then 0 else ends (x - 1).
(** The table of a species that claims to be sorted describes its particles on the grid [g]: the particles
    first_of x, ..., ends x - 1 are in the cell x, and all the particles are in some cell. *)
Definition order_ok (g : grid) (sp : gsp) : Prop :=
  gs_sorted sp = true ->
  let s := gs_arr sp in let n := ncells (sgrid_of g) in
  near_box (sgrid_of g) s /\
  (forall x, 0 <= x < n -> 0 <= first_of (s_prefix s) x <= s_prefix s x /\ s_prefix s x <= s_N s) /\
  first_of (s_prefix s) n = s_N s /\
  (forall x i, 0 <= x < n -> first_of (s_prefix s) x <= i < s_prefix s x -> cell (sgrid_of g) s i = x).
(** Species as they are just created (particles.py:242). *)
Definition created (sp : gsp) : Prop := gs_sorted sp = false.

(** The species of a deposition fit on the grid and in the integers of the code. *)
Definition fits (e : event) : Prop := Forall (gsp_ok (e_g e)) (e_sp e).
(** The deposition left in the arrays of rho or J, for every mode, what the CPU code computes from the same
    particles on the same grid, with any number of threads, and left the other quantities alone. *)
Definition as_on_cpu (k : loop_cfg) (e : event) : Prop :=
  forall nthreads q m iz ir, 1 <= nthreads <= 2 ^ 32 -> (m < l_Nm k)%nat -> 0 <= iz < g_Nz (e_g e) -> 0 <= ir < g_Nr (e_g e) ->
  e_A' e q m iz ir =
    (if deposited (e_ft e) q
     then deposit (l_c k) (mode_grid (e_g e) (l_vol k) m) q m nthreads (map cpu_of (e_sp e)) None iz ir
     else e_A e q m iz ir).
(** The grids of the modes (their position does not matter). *)
Definition grids_ok (k : loop_cfg) (g : grid) : Prop :=
  (1 <= l_Nm k)%nat /\ beta_ok g /\ forall m, (m < l_Nm k)%nat -> Deposit_Spec.grid_ok (mode_grid g (l_vol k) m).
