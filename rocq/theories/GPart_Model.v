(** Gathering and push of a whole species by concurrent threads: the GPU kernels particles/gathering/cuda_methods.py,
    cuda_methods_one_mode.py and particles/push/cuda_methods.py, the threaded loops of the CPU versions, and
    particles/particles.py push_p, push_x, gather. Exact arithmetic. The formulas for one mode (add_linear_gather_for_mode,
    add_cubic_gather_for_mode, weights) and push_p_vay are those of Gather_Model and Push_Model: both versions compile the same
    inline functions. *)
From Coq Require Import Reals.
From Coquelicot Require Import Complex.
From Verif Require Import Base Decomp_Proofs Chunk_Model Push_Model Shape_Model Gather_Model.
Open Scope R_scope.

(** ** Threads *)
(** The local variables of the statements for one particle that later statements use: cdt factor inv_g, the guard of the
    body, (rj, cos, sin), (Fr, Ft, Fz), and the result of push_p_vay. *)
Record locals := { l_ig : R; l_go : bool; l_cyl : R * R * R; l_F : R * R * R; l_new : mom }.
(** A statement for one particle: reads and writes the elements of the arrays at the index of this particle, and local variables. *)
Definition stmt : Type := mp * locals -> mp * locals.
(** A thread is a list of statements. An execution: any interleaving of the threads, statement by statement. *)
Inductive interleaved {A} : list (list A) -> list A -> Prop :=
| il_end ps : Forall (eq []) ps -> interleaved ps []
| il_step ps1 a p ps2 l : interleaved (ps1 ++ p :: ps2) l -> interleaved (ps1 ++ (a :: p) :: ps2) (a :: l).
(** The statement of thread [thr] for the particle [ptcl]; the arrays are shared, the local variables belong to the thread and
    keep their values from one particle to the next of the same thread. *)
Record action := { thr : nat; ptcl : Z; what : stmt }.
Definition exec_stmt (st : (Z -> mp) * (nat -> locals)) (x : action) : (Z -> mp) * (nat -> locals) :=
  let r := what x (fst st (ptcl x), snd st (thr x)) in
  (fun i => if (i =? ptcl x)%Z then fst r else fst st i, fun t => if (t =? thr x)%nat then snd r else snd st t).
(** [ids]: the particles of a thread, in the order of its loop; [body]: the statements for one particle. *)
Definition thread_program (body : list stmt) (t : nat) (ids : list Z) : list action :=
  flat_map (fun i => map (fun s => {| thr := t; ptcl := i; what := s |}) body) ids.
(** [parts]: the particles of each thread; [l0]: the values of the local variables before the call. *)
Definition parallel (parts : list (list Z)) (body : list stmt) (a a' : Z -> mp) : Prop :=
  exists l l0, interleaved (map (fun '(t, ids) => thread_program body t ids) (combine (seq 0 (length parts)) parts)) l /\
    a' = fst (fold_left exec_stmt l (a, l0)).
(** kernel[dim_grid_1d, dim_block_1d] with (dim_grid_1d, dim_block_1d) = cuda_tpb_bpg_1d(n, T), body guarded by
    [if i < n] (in the gathering kernels: i < x.shape[0], which is Ntot). *)
Definition gpu_parts (n T : Z) : list (list Z) := map (fun i => if (i <? n)%Z then [i] else []) (threads_1d (cuda_tpb_bpg_1d n T)).
(** [for i in prange(n)]: numba divides the indices among its threads; any division. *)
Definition prange_parts (n : Z) (parts : list (list Z)) : Prop := Permutation (concat parts) (range n).
(** for nt in prange( nthreads ): for i in range( ptcl_chunk_indices[nt], ptcl_chunk_indices[nt+1] )
    (gathering/threading_methods.py:272-282, threading_methods_one_mode.py:271-281). *)
Definition chunk_parts (n nthreads : Z) : list (list Z) := map (chunk_of (get_chunk_indices n nthreads)) (range nthreads).

(** ** Statements *)
Definition set_l_ig (l : locals) v := {| l_ig := v; l_go := l_go l; l_cyl := l_cyl l; l_F := l_F l; l_new := l_new l |}.
Definition set_l_go (l : locals) v := {| l_ig := l_ig l; l_go := v; l_cyl := l_cyl l; l_F := l_F l; l_new := l_new l |}.
Definition set_l_cyl (l : locals) v := {| l_ig := l_ig l; l_go := l_go l; l_cyl := v; l_F := l_F l; l_new := l_new l |}.
Definition set_l_F (l : locals) v := {| l_ig := l_ig l; l_go := l_go l; l_cyl := l_cyl l; l_F := v; l_new := l_new l |}.
Definition set_l_new (l : locals) v := {| l_ig := l_ig l; l_go := l_go l; l_cyl := l_cyl l; l_F := l_F l; l_new := v |}.
(** Writes of one array element *)
Definition set_x (a : mp) v := {| px := v; py := py a; pz := pz a; pm := pm a; pf := pf a; plevel := plevel a |}.
Definition set_y (a : mp) v := {| px := px a; py := v; pz := pz a; pm := pm a; pf := pf a; plevel := plevel a |}.
Definition set_z (a : mp) v := {| px := px a; py := py a; pz := v; pm := pm a; pf := pf a; plevel := plevel a |}.
Definition set_ux (a : mp) v := set_pm a {| ux := v; uy := uy (pm a); uz := uz (pm a); ig := ig (pm a) |}.
Definition set_uy (a : mp) v := set_pm a {| ux := ux (pm a); uy := v; uz := uz (pm a); ig := ig (pm a) |}.
Definition set_uz (a : mp) v := set_pm a {| ux := ux (pm a); uy := uy (pm a); uz := v; ig := ig (pm a) |}.
Definition set_ig (a : mp) v := set_pm a {| ux := ux (pm a); uy := uy (pm a); uz := uz (pm a); ig := v |}.
Definition set_pf (a : mp) v := {| px := px a; py := py a; pz := pz a; pm := pm a; pf := v; plevel := plevel a |}.
Definition set_Ex (a : mp) v := let f := pf a in set_pf a {| Ex := v; Ey := Ey f; Ez := Ez f; Bx := Bx f; By := By f; Bz := Bz f |}.
Definition set_Ey (a : mp) v := let f := pf a in set_pf a {| Ex := Ex f; Ey := v; Ez := Ez f; Bx := Bx f; By := By f; Bz := Bz f |}.
Definition set_Ez (a : mp) v := let f := pf a in set_pf a {| Ex := Ex f; Ey := Ey f; Ez := v; Bx := Bx f; By := By f; Bz := Bz f |}.
Definition set_Bx (a : mp) v := let f := pf a in set_pf a {| Ex := Ex f; Ey := Ey f; Ez := Ez f; Bx := v; By := By f; Bz := Bz f |}.
Definition set_By (a : mp) v := let f := pf a in set_pf a {| Ex := Ex f; Ey := Ey f; Ez := Ez f; Bx := Bx f; By := v; Bz := Bz f |}.
Definition set_Bz (a : mp) v := let f := pf a in set_pf a {| Ex := Ex f; Ey := Ey f; Ez := Ez f; Bx := Bx f; By := By f; Bz := v |}.
Definition write (f : mp -> locals -> mp) : stmt := fun s => (f (fst s) (snd s), snd s).
Definition assign (f : mp -> locals -> locals) : stmt := fun s => (fst s, f (fst s) (snd s)).
(** The body of an [if] whose condition has been evaluated. *)
Definition guarded (s : stmt) : stmt := fun st => if l_go (snd st) then s st else st.

Section Kernels.
Variables c e : R.   (* scipy.constants *)

(** push/cuda_methods.py:17-52 push_x_gpu *)
Definition push_x_gpu (dt x_push y_push z_push : R) : list stmt :=
  let cdt := c * dt in
  [ assign (fun a l => set_l_ig l (ig (pm a)));
    write (fun a l => set_x a (px a + cdt * x_push * l_ig l * ux (pm a)));
    write (fun a l => set_y a (py a + cdt * y_push * l_ig l * uy (pm a)));
    write (fun a l => set_z a (pz a + cdt * z_push * l_ig l * uz (pm a))) ].
(** push/numba_methods.py:16-32 push_x_numba *)
Definition push_x_cpu (dt x_push y_push z_push : R) : list stmt :=
  let chdt := c * dt in
  [ write (fun a l => set_x a (px a + chdt * ig (pm a) * x_push * ux (pm a)));
    write (fun a l => set_y a (py a + chdt * ig (pm a) * y_push * uy (pm a)));
    write (fun a l => set_z a (pz a + chdt * ig (pm a) * z_push * uz (pm a))) ].
(** ux[ip], uy[ip], uz[ip], inv_gamma[ip] = push_p_vay( ... ) *)
Definition vay (econst bconst : mp -> R) : list stmt :=
  [ assign (fun a l => set_l_new l (push_p_vay (pm a) (pf a) (econst a) (bconst a)));
    write (fun a l => set_ux a (ux (l_new l)));
    write (fun a l => set_uy a (uy (l_new l)));
    write (fun a l => set_uz a (uz (l_new l)));
    write (fun a l => set_ig a (ig (l_new l))) ].
(** push/cuda_methods.py:55-99 push_p_gpu; push/numba_methods.py:34-50 push_p_numba *)
Definition push_p_body (q m dt : R) : list stmt := vay (fun _ => q * dt / (m * c)) (fun _ => 0.5 * q * dt / m).
(** push/cuda_methods.py:103-131 push_p_after_plane_gpu; push/numba_methods.py:52-69 push_p_after_plane_numba *)
Definition push_p_after_plane_body (z_plane q m dt : R) : list stmt :=
  assign (fun a l => set_l_go l (if Rlt_dec z_plane (pz a) then true else false)) ::
  map guarded (vay (fun _ => q * dt / (m * c)) (fun _ => 0.5 * q * dt / m)).
(** push/cuda_methods.py:135-163 push_p_ioniz_gpu *)
Definition push_p_ioniz_gpu (m dt : R) : list stmt :=
  assign (fun a l => set_l_go l (negb (plevel a =? 0)%Z)) ::
  map guarded (vay (fun a => IZR (plevel a) * e * dt / (m * c)) (fun a => 0.5 * IZR (plevel a) * e * dt / m)).
(** push/numba_methods.py:72-98 push_p_ioniz_numba *)
Definition push_p_ioniz_cpu (m dt : R) : list stmt :=
  assign (fun a l => set_l_go l (negb (plevel a =? 0)%Z)) ::
  map guarded (vay (fun a => e * dt / (m * c) * IZR (plevel a)) (fun a => 0.5 * e * dt / m * IZR (plevel a))).

(** gathering/cuda_methods_one_mode.py:22-39 erase_eb_cuda; threading_methods_one_mode.py:23-40 erase_eb_numba *)
Definition erase_eb : list stmt :=
  [ write (fun a _ => set_Ex a 0); write (fun a _ => set_Ey a 0); write (fun a _ => set_Ez a 0);
    write (fun a _ => set_Bx a 0); write (fun a _ => set_By a 0); write (fun a _ => set_Bz a 0) ].
Definition cos_ (l : locals) : R := snd (fst (l_cyl l)).
Definition sin_ (l : locals) : R := snd (l_cyl l).
Definition rj_ (l : locals) : R := fst (fst (l_cyl l)).
Definition Fr_ (l : locals) : R := fst (fst (l_F l)).
Definition Ft_ (l : locals) : R := snd (fst (l_F l)).
Definition Fz_ (l : locals) : R := snd (l_F l).
Definition conversion : stmt := assign (fun a l => set_l_cyl l (cylindrical (px a) (py a))).
(** gathering/cuda_methods.py:26-205, 209-355 gather_field_gpu_linear, gather_field_gpu_cubic; gathering/threading_methods.py:26-203,
    208-367 gather_field_numba_linear, gather_field_numba_cubic: two modes. *)
Definition gather_two_modes (sh : shape) (g : ggrid) (rmax_gather : R) (E0 E1 B0 B1 : mfield) : list stmt :=
  let F (m0 m1 : mfield) : stmt := assign (fun a l => set_l_F l (
    if Rlt_dec (rj_ l) rmax_gather then
      shape_mode sh g (rj_ l) (pz a) (cos_ l, - sin_ l) 1 m1 (shape_mode sh g (rj_ l) (pz a) (RtoC 1) 0 m0 (0, 0, 0))
    else (0, 0, 0))) in
  [ conversion; F E0 E1;
    write (fun a l => set_Ex a (cos_ l * Fr_ l - sin_ l * Ft_ l));
    write (fun a l => set_Ey a (sin_ l * Fr_ l + cos_ l * Ft_ l));
    write (fun a l => set_Ez a (Fz_ l));
    F B0 B1;
    write (fun a l => set_Bx a (cos_ l * Fr_ l - sin_ l * Ft_ l));
    write (fun a l => set_By a (sin_ l * Fr_ l + cos_ l * Ft_ l));
    write (fun a l => set_Bz a (Fz_ l)) ].
(** The azimuthal factor: cuda_methods_one_mode.py:118-121 and 290-293 (a loop, starting from 1); threading_methods_one_mode.py:115,
    299 (the m-th power) *)
Definition exptheta (gpu : bool) (m : nat) (l : locals) : C :=
  if gpu then fold_left (fun ex _ => Cmult ex (cos_ l, - sin_ l)) (repeat tt m) (RtoC 1) else Cpow_nat (cos_ l, - sin_ l) m.
(** cuda_methods_one_mode.py:46-209, 216-358; threading_methods_one_mode.py:47-206, 212-356: one mode, added to the fields of the particle *)
Definition gather_one_mode (gpu : bool) (sh : shape) (g : ggrid) (rmax_gather : R) (m : nat) (E B : mfield) : list stmt :=
  let F (fld : mfield) : stmt := assign (fun a l => set_l_F l (shape_mode sh g (rj_ l) (pz a) (exptheta gpu m l) m fld (0, 0, 0))) in
  [ conversion; assign (fun a l => set_l_go l (if Rlt_dec (rj_ l) rmax_gather then true else false)) ] ++
  map guarded
  [ F E;
    write (fun a l => set_Ex a (Ex (pf a) + (cos_ l * Fr_ l - sin_ l * Ft_ l)));
    write (fun a l => set_Ey a (Ey (pf a) + (sin_ l * Fr_ l + cos_ l * Ft_ l)));
    write (fun a l => set_Ez a (Ez (pf a) + Fz_ l));
    F B;
    write (fun a l => set_Bx a (Bx (pf a) + (cos_ l * Fr_ l - sin_ l * Ft_ l)));
    write (fun a l => set_By a (By (pf a) + (sin_ l * Fr_ l + cos_ l * Ft_ l)));
    write (fun a l => set_Bz a (Bz (pf a) + Fz_ l)) ].

(** ** particles.py *)
(** A species of [s_N] macroparticles, with its attributes as in Push_Model; [s_shape]: particle_shape. *)
Record species := { s_q : R; s_m : R; s_plane : option R; s_ionizer : bool; s_shape : shape; s_N : Z }.
(** Where it runs: GPU, or CPU with a number of threads. *)
Inductive backend := GPU | CPU (nthreads : Z).
(** One launch, or one call of a threaded function that uses prange over the particles. *)
Definition launched (b : backend) (n T : Z) (gpu cpu : list stmt) (a a' : Z -> mp) : Prop :=
  match b with
  | GPU => parallel (gpu_parts n T) gpu a a'
  | CPU _ => exists parts, prange_parts n parts /\ parallel parts cpu a a'
  end.
(** particles.py:557-636 push_p; a ballistic ionizable species raises (no execution). *)
Definition push_p_on (b : backend) (s : species) (dt : R) (a a' : Z -> mp) : Prop :=
  if Req_EM_T (s_q s) 0 then a' = a else
  match s_plane s, s_ionizer s with
  | Some _, true => False
  | None, true => launched b (s_N s) 256 (push_p_ioniz_gpu (s_m s) dt) (push_p_ioniz_cpu (s_m s) dt) a a'
  | Some zp, false => launched b (s_N s) 256 (push_p_after_plane_body zp (s_q s) (s_m s) dt) (push_p_after_plane_body zp (s_q s) (s_m s) dt) a a'
  | None, false => launched b (s_N s) 256 (push_p_body (s_q s) (s_m s) dt) (push_p_body (s_q s) (s_m s) dt) a a'
  end.
(** particles.py:639-671 push_x *)
Definition push_x_on (b : backend) (s : species) (dt x_push y_push z_push : R) (a a' : Z -> mp) : Prop :=
  launched b (s_N s) 256 (push_x_gpu dt x_push y_push z_push) (push_x_cpu dt x_push y_push z_push) a a'.
(** particles.py:242-250: gather_tpb *)
Definition gather_tpb (sh : shape) : Z := match sh with Cubic => 256%Z | Linear => 128%Z end.
(** A gathering function: prange over the particles with the linear shape, chunks with the cubic shape (particles.py:772-833). *)
Definition gathered (b : backend) (s : species) (gpu cpu : list stmt) (a a' : Z -> mp) : Prop :=
  match b, s_shape s with
  | CPU nthreads, Cubic => parallel (chunk_parts (s_N s) nthreads) cpu a a'
  | _, _ => launched b (s_N s) (gather_tpb (s_shape s)) gpu cpu a a'
  end.
Inductive gather_modes (b : backend) (s : species) (g : ggrid) (rmax_gather : R) : nat -> list (mfield * mfield) -> (Z -> mp) -> (Z -> mp) -> Prop :=
| gm_end m a : gather_modes b s g rmax_gather m [] a a
| gm_mode m E B fs a a1 a' :
    gathered b s (gather_one_mode true (s_shape s) g rmax_gather m E B) (gather_one_mode false (s_shape s) g rmax_gather m E B) a a1 ->
    gather_modes b s g rmax_gather (S m) fs a1 a' -> gather_modes b s g rmax_gather m ((E, B) :: fs) a a'.
(** particles.py:673-837 gather; [fs]: the fields E and B of the successive modes. *)
Definition gather_on (b : backend) (s : species) (g : ggrid) (rmax_gather : R) (fs : list (mfield * mfield)) (a a' : Z -> mp) : Prop :=
  if Req_EM_T (s_q s) 0 then a' = a else
  match fs with
  | [(E0, B0); (E1, B1)] =>
    gathered b s (gather_two_modes (s_shape s) g rmax_gather E0 E1 B0 B1) (gather_two_modes (s_shape s) g rmax_gather E0 E1 B0 B1) a a'
  | _ => exists a1, launched b (s_N s) (gather_tpb (s_shape s)) erase_eb erase_eb a a1 /\ gather_modes b s g rmax_gather 0 fs a1 a'
  end.
End Kernels.
