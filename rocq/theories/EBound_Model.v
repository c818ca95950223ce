(** The boundary operations of one step on E and B (main.py:719-769) and on J (main.py:528-542), between the spectral grid
    and the interpolation grid (fields.py:313-536), for all the ranks. Exact arithmetic, CPU branches. The transforms are those of
    Hankel_Model.v, the exchange that of Guard_Model.v, damping and mirrors those of Damp_Model.v and Mirror_Model.v. *)
From Coq Require Import Reals.
From Coquelicot Require Import Complex.
From Verif Require Import Base Decomp_Model Hankel_Model Guard_Model Mirror_Model Damp_Model.
Import ListNotations.
Open Scope Z_scope.

(** The vector fields, and the arrays of a SpectralGrid that belong to one (spectral_grid.py:85-106: Ez, Ep, Em, Ep_pml, Em_pml, ...) *)
Inductive vfield := FE | FB | FJ.
Inductive scomp := Sz | Sp | Sm | Sp_pml | Sm_pml.
Definition spectrum := Z -> vfield -> scomp -> Z -> Z -> C.
(** The arrays of an InterpolationGrid (interpolation_grid.py:139-160): getattr(interp[m], fldtype+'r') etc. (boundary_communicator.py:619-626).
    Jr, Jt, Jz are the arrays Other 0, 1, 2. *)
Definition name_r (v : vfield) : fname := match v with FE => Er | FB => Br | FJ => Other 0 end.
Definition name_t (v : vfield) : fname := match v with FE => Et | FB => Bt | FJ => Other 1 end.
Definition name_z (v : vfield) : fname := match v with FE => Ez | FB => Bz | FJ => Other 2 end.
Definition name_r_pml (v : vfield) : fname := match v with FE => Er_pml | FB => Br_pml | FJ => Other 3 end.
Definition name_t_pml (v : vfield) : fname := match v with FE => Et_pml | FB => Bt_pml | FJ => Other 4 end.
(** [a -> g.f] : the array g.f is overwritten *)
Definition set_arr (f : fname) (a : Z -> Z -> C) (g : @igrid C) : @igrid C :=
  {| ig_pml := ig_pml g; ig_dz := ig_dz g; ig_arr := fun f' => if same f' f then a else ig_arr g f' |}.
Definition same_v (v w : vfield) : bool := match v, w with FE, FE | FB, FB | FJ, FJ => true | _, _ => false end.
(** for m in range(Nm): one operation on interp[m] *)
Definition for_modes {B} (op : Z -> @igrid C -> B) (interp : list (@igrid C)) : list B :=
  map (fun '(m, g) => op m g) (combine (range (Z.of_nat (length interp))) interp).
(** the array [f] of interp[m] *)
Definition arr_of (interp : list (@igrid C)) (m : Z) (f : fname) : Z -> Z -> C :=
  match nth_error interp (Z.to_nat m) with Some g => ig_arr g f | None => fun _ _ => RtoC 0 end.

Section Fields.
(** The transformers of the modes of one rank, and the order of the loops over the cells *)
Context (trans : Z -> transformer) (cells : list (Z * Z)).
(** fields.py:370-429 spect2interp('E'), ('B'), ('J') *)
Definition spect2interp (v : vfield) (S : spectrum) : list (@igrid C) -> list (@igrid C) := for_modes (fun m g =>
  let g := set_arr (name_z v) (spect2interp_scal (trans m) (S m v Sz)) g in
  let '(r, t) := spect2interp_vect (trans m) cells (S m v Sp) (S m v Sm) in
  set_arr (name_t v) t (set_arr (name_r v) r g)).
(** fields.py:398-409 spect2interp('E_pml'), ('B_pml') *)
Definition spect2interp_pml (v : vfield) (S : spectrum) : list (@igrid C) -> list (@igrid C) := for_modes (fun m g =>
  let '(r, t) := spect2interp_vect (trans m) cells (S m v Sp_pml) (S m v Sm_pml) in
  set_arr (name_t_pml v) t (set_arr (name_r_pml v) r g)).
(** fields.py:313-368 interp2spect('E'), ('B'), ('J') *)
Definition interp2spect (v : vfield) (interp : list (@igrid C)) (S : spectrum) : spectrum := fun m v' c =>
  if same_v v' v then
    let pm := interp2spect_vect (trans m) cells (arr_of interp m (name_r v)) (arr_of interp m (name_t v)) in
    match c with Sz => interp2spect_scal (trans m) (arr_of interp m (name_z v)) | Sp => fst pm | Sm => snd pm | _ => S m v' c end
  else S m v' c.
(** fields.py:338-350 interp2spect('E_pml'), ('B_pml') *)
Definition interp2spect_pml (v : vfield) (interp : list (@igrid C)) (S : spectrum) : spectrum := fun m v' c =>
  if same_v v' v then
    let pm := interp2spect_vect (trans m) cells (arr_of interp m (name_r_pml v)) (arr_of interp m (name_t_pml v)) in
    match c with Sp_pml => fst pm | Sm_pml => snd pm | _ => S m v' c end
  else S m v' c.
(** fields.py:431-485 spect2partial_interp: inverse FFT only; Ep goes to Er, Em to Et *)
Definition spect2partial_interp (v : vfield) (S : spectrum) : list (@igrid C) -> list (@igrid C) := for_modes (fun m g =>
  let inv := ifft (t_Nz (trans m)) in
  set_arr (name_t v) (inv (S m v Sm)) (set_arr (name_r v) (inv (S m v Sp)) (set_arr (name_z v) (inv (S m v Sz)) g))).
(** fields.py:487-536 partial_interp2spect *)
Definition partial_interp2spect (v : vfield) (interp : list (@igrid C)) (S : spectrum) : spectrum := fun m v' c =>
  if same_v v' v then
    let fwd := fft (t_Nz (trans m)) in
    match c with
    | Sz => fwd (arr_of interp m (name_z v)) | Sp => fwd (arr_of interp m (name_r v)) | Sm => fwd (arr_of interp m (name_t v))
    | _ => S m v' c end
  else S m v' c.
End Fields.

(** The rows of one rank, as arranged for the exchange: component 0, 1, 2 (3, 4 with PML) of mode m
    (boundary_communicator.py:617-632; field_buffer_handling.py:268-300) *)
Definition comp_name (v : vfield) (comp : Z) : fname :=
  if comp =? 0 then name_r v else if comp =? 1 then name_t v else if comp =? 2 then name_z v
  else if comp =? 3 then name_r_pml v else name_t_pml v.
Definition to_rows (v : vfield) (interp : list (@igrid C)) : @grid (Z -> C) := fun m comp iz => arr_of interp m (comp_name v comp) iz.
(** Number of components: 5 with PML (not for J), else 3 (boundary_communicator.py:622-628) *)
Definition n_comp (use_pml : bool) (v : vfield) : Z := match v with FJ => 3 | _ => if use_pml then 5 else 3 end.
Definition of_rows (v : vfield) (k : Z) (rows : @grid (Z -> C)) : list (@igrid C) -> list (@igrid C) := for_modes (fun m g =>
  fold_right (fun comp => set_arr (comp_name v comp) (fun iz => rows m comp iz)) g (range k)).
Definition plus_rows (a b : Z -> C) : Z -> C := fun ir => Cplus (a ir) (b ir).

(** What does not change during the run: use_pml, the neighbours, numbers of rows and columns, the communicators, the
    transformers, the orders of the loops of each rank; the PML damper; the mirrors and the speed of light *)
Record setup := { u_pml : bool; u_size : Z; u_left : Z -> option Z; u_right : Z -> option Z; u_nguard : Z;
                  u_Nz : Z -> Z; u_Nr : Z; u_comm : Z -> comm; u_trans : Z -> Z -> transformer; u_cells : Z -> list (Z * Z);
                  u_npml : Z; u_cdt_dr : R; u_mirrors : list mirror; u_c : R }.
(** boundary_communicator.py:556-671 exchange_fields(interp, fldtype, method), run by all the ranks *)
Definition exchange (u : setup) (v : vfield) (me : method) (I : Z -> list (@igrid C)) : Z -> list (@igrid C) := fun r =>
  let k := n_comp (u_pml u) v in
  of_rows v k (exchange_fields plus_rows (u_size u) (u_left u) (u_right u) me k (u_nguard u) (u_Nz u) (fun r => to_rows v (I r)) r) (I r).
(** A loop over the modes whose body may raise *)
Definition map_res {A B} (f : A -> res B) : list A -> res (list B) :=
  fold_right (fun a acc => bind (f a) (fun b => bind acc (fun l => Ok (b :: l)))) (Ok []).
(** main.py:746-756, on rank r: damp_EB_open_boundary, damp_pml_EB (boundary_communicator.py:947-958), the mirrors in turn.
    (damp_EB_open_boundary does the left rows of all the modes, then the right ones: each mode on its own here.) *)
Definition damp_and_mirrors (u : setup) (t : R) (r : Z) (interp : list (@igrid C)) : res (list (@igrid C)) :=
  bind (map_res (damp_EB_open_boundary (u_comm u r) (u_Nz u r)) interp) (fun interp =>
  let interp := if u_pml u then map (damp_pml_EB (u_npml u) (u_Nr u) (u_cdt_dr u)) interp else interp in
  fold_left (fun acc mi => bind acc (set_fields_to_zero (RtoC 0) (u_c u) mi (u_comm u r) t)) (u_mirrors u) (Ok interp)).
(** main.py:719-769 exchange_and_damp_EB, run by all the ranks: the new spectral and interpolation grids *)
Definition exchange_and_damp_EB (u : setup) (t : R) (S : Z -> spectrum) (I : Z -> list (@igrid C)) : Z -> res (spectrum * list (@igrid C)) := fun r =>
  let s2i v r := spect2interp (u_trans u r) (u_cells u r) v (S r) in
  let s2i_pml v r := spect2interp_pml (u_trans u r) (u_cells u r) v (S r) in
  let s2p v r := spect2partial_interp (u_trans u r) v (S r) in
  let I := if u_pml u then fun r => s2i_pml FB r (s2i_pml FE r (s2i FB r (s2i FE r (I r)))) else fun r => s2p FB r (s2p FE r (I r)) in
  let I := exchange u FB Replace (exchange u FE Replace I) in
  bind (damp_and_mirrors u t r (I r)) (fun interp =>
  let tr := u_trans u r in let ce := u_cells u r in
  if u_pml u then
    let S' := interp2spect tr ce FB interp (interp2spect tr ce FE interp (S r)) in
    Ok (interp2spect_pml tr ce FB interp (interp2spect_pml tr ce FE interp S'), interp)
  else
    let S' := partial_interp2spect tr FB interp (partial_interp2spect tr FE interp (S r)) in
    Ok (S', spect2interp tr ce FB S' (spect2interp tr ce FE S' interp))).
(** main.py:532-541 with more than one rank: the exchange of the corrected J, run by all the ranks *)
Definition exchange_J (u : setup) (S : Z -> spectrum) (I : Z -> list (@igrid C)) : Z -> spectrum * list (@igrid C) := fun r =>
  let I := fun r => spect2partial_interp (u_trans u r) FJ (S r) (I r) in
  let I := exchange u FJ Add I in
  (partial_interp2spect (u_trans u r) FJ (I r) (S r), I r).
