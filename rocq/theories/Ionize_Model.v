(** Ionization: particles/elementary_process/ionization/{ionizer,numba_methods,inline_functions}.py
    and elementary_process/cuda_numba_utils.py. Exact arithmetic. The CUDA versions
    (cuda_methods.py:25-120) differ only by one thread per batch instead of a loop. *)
From Verif Require Import Base Sort_Model.
From Coq Require Import Reals.
Open Scope Z_scope.

(** The attributes of a macroparticle copied to the new electrons (inline_functions.py:95-108). *)
Record ptc := { x : R; y : R; z : R; ux : R; uy : R; uz : R; inv_gamma : R; w : R;
                Ex : R; Ey : R; Ez : R; Bx : R; By : R; Bz : R }.

(** Python [range(a, b)]. *)
Definition range2 (a b : Z) : list Z := map (fun i => a + i) (range (b - a)).

(** inline_functions.py:11-30 get_E_amplitude; math.sqrt of a negative number raises ValueError. *)
Definition E2_on_particle (ux uy uz Ex Ey Ez cBx cBy cBz : R) : R :=
  let u_dot_E := (ux * Ex + uy * Ey + uz * Ez)%R in
  let gamma := sqrt (1 + ux ^ 2 + uy ^ 2 + uz ^ 2) in
  (- u_dot_E ^ 2 + (gamma * Ex + uy * cBz - uz * cBy) ^ 2
                 + (gamma * Ey + uz * cBx - ux * cBz) ^ 2
                 + (gamma * Ez + ux * cBy - uy * cBx) ^ 2)%R.
Definition get_E_amplitude (ux uy uz Ex Ey Ez cBx cBy cBz : R) : res (R * R) :=
  let E2 := E2_on_particle ux uy uz Ex Ey Ez cBx cBy cBz in
  if Rlt_dec E2 0 then Err ValueError
  else Ok (sqrt E2, sqrt (1 + ux ^ 2 + uy ^ 2 + uz ^ 2)).
(** inline_functions.py:32-50 get_ionization_probability *)
Definition get_ionization_probability (E gamma prefactor power exp_prefactor : R) : R :=
  if Req_EM_T E 0 then 0%R else
  let w_dtau := (1 / gamma * prefactor * Rpower E power * exp (exp_prefactor / E))%R in
  (1 - exp (- w_dtau))%R.

(** ionizer.py:203-207, the ADK tables (one element per level). *)
Record adk := { adk_prefactor : Z -> R; adk_power : Z -> R; adk_exp_prefactor : Z -> R }.

(** Arrays of the ion species and of its ionizer. *)
Record istate := { ionized_from : Z -> Z; n_ionized : Z -> Z -> Z; ionization_level : Z -> Z; w_times_level : Z -> R }.

Section I.
Context (c : R) (tab : adk) (level_start level_max n_levels Ntot batch_size : Z)
        (ion : Z -> ptc) (random_draw : Z -> R).

(** numba_methods.py:59-63; the exception of [get_E_amplitude] cannot occur (C28): the value is 0 there. *)
Definition probability (ip level : Z) : R :=
  let a := ion ip in
  match get_E_amplitude (ux a) (uy a) (uz a) (Ex a) (Ey a) (Ez a) (c * Bx a)%R (c * By a)%R (c * Bz a)%R with
  | Ok (E, gamma) => get_ionization_probability E gamma (adk_prefactor tab level) (adk_power tab level) (adk_exp_prefactor tab level)
  | Err _ => 0%R
  end.

(** numba_methods.py:52-81, body of the loop over ip *)
Definition ionize_one (i_batch : Z) (s : istate) (ip : Z) : istate :=
  let level := ionization_level s ip in
  if level >=? level_max then
    {| ionized_from := upd (ionized_from s) (ip, -1); n_ionized := n_ionized s;
       ionization_level := ionization_level s; w_times_level := w_times_level s |}
  else if Rlt_dec (random_draw ip) (probability ip level) then
    let row := if n_levels =? 1 then 0 else level - level_start in
    {| ionized_from := upd (ionized_from s) (ip, level - level_start);
       n_ionized := fun l b => if (l =? row) && (b =? i_batch) then n_ionized s l b + 1 else n_ionized s l b;
       ionization_level := upd (ionization_level s) (ip, level + 1);
       w_times_level := upd (w_times_level s) (ip, (w (ion ip) * IZR (level + 1))%R) |}
  else
    {| ionized_from := upd (ionized_from s) (ip, -1); n_ionized := n_ionized s;
       ionization_level := ionization_level s; w_times_level := w_times_level s |}.
(** numba_methods.py:45-51, one batch *)
Definition batch_ips (i_batch : Z) : list Z := range2 (i_batch * batch_size) (Z.min ((i_batch + 1) * batch_size) Ntot).
Definition ionize_batch (s : istate) (i_batch : Z) : istate :=
  let s0 := {| ionized_from := ionized_from s;
               n_ionized := fun l b => if (b =? i_batch) && (0 <=? l) && (l <? n_levels) then 0 else n_ionized s l b;
               ionization_level := ionization_level s; w_times_level := w_times_level s |} in
  fold_left (ionize_one i_batch) (batch_ips i_batch) s0.
(** numba_methods.py:21-83 ionize_ions_numba: the parallel loop over the batches, whose bodies
    touch different elements, written as a sequential one. *)
Definition ionize_ions (N_batch : Z) (s : istate) : istate := fold_left ionize_batch (range N_batch) s.

(** cuda_numba_utils.py:45-63 perform_cumsum_2d *)
Definition perform_cumsum_2d (a : Z -> Z -> Z) (l b : Z) : Z := fold_left (fun acc b' => acc + a l b') (range b) 0.

(** inline_functions.py:53-111 copy_ionized_electrons_batch: the elements written. *)
Definition electron_of (a : ptc) : ptc :=
  {| x := x a; y := y a; z := z a; ux := ux a; uy := uy a; uz := uz a; inv_gamma := inv_gamma a; w := w a;
     Ex := Ex a; Ey := Ey a; Ez := Ez a; Bx := Bx a; By := By a; Bz := Bz a |}.
Definition create_electron (store_per_level : bool) (i_level from : Z) : bool :=
  (negb store_per_level && (from >=? 0)) || (store_per_level && (from =? i_level)).
Definition copy_batch (store_per_level : bool) (i_level old_Ntot : Z) (cumul : Z -> Z -> Z) (from : Z -> Z) (i_batch : Z)
  : list (Z * option ptc) :=
  snd (fold_left (fun '(elec_index, ws) ion_index =>
         if create_electron store_per_level i_level (from ion_index)
         then (elec_index + 1, ws ++ [(elec_index, Some (electron_of (ion ion_index)))])
         else (elec_index, ws))
       (batch_ips i_batch) (old_Ntot + cumul i_level i_batch, [])).
(** numba_methods.py:85-115 copy_ionized_electrons_numba *)
Definition copy_electrons store_per_level i_level old_Ntot cumul from N_batch : list (Z * option ptc) :=
  flat_map (copy_batch store_per_level i_level old_Ntot cumul from) (range N_batch).

(** cuda_numba_utils.py:65-124 reallocate_and_copy_old: the first elements are copied, the others
    are left empty ([None]). *)
Definition reallocate_and_copy_old (old_Ntot : Z) (a : Z -> option ptc) : Z -> option ptc :=
  fun i => if (0 <=? i) && (i <? old_Ntot) then a i else None.

(** A target species: its arrays and its number of particles. *)
Definition store := nat -> Z * (Z -> option ptc).

(** ionizer.py:211-318 handle_ionization. [targets]: the objects in [self.target_species] (several
    levels may name the same object). Line 229 [int(Ntot/batch_size)]: exact quotient (a rounding
    up of the float division would only add an empty batch). The new ids (line 318) are modelled
    in Track_Model. *)
Definition handle_ionization_n (store_per_level : bool) (targets : list nat) (s : istate) (st : store) : res (istate * store) :=
  if Ntot =? 0 then Ok (s, st) else
  let N_batch := Z.quot Ntot batch_size + 1 in
  let s' := ionize_ions N_batch s in
  let cumul := perform_cumsum_2d (n_ionized s') in
  if forallb (fun l => cumul l N_batch =? 0) (range n_levels) then Ok (s', st) else
  if negb (Z.of_nat (length targets) =? n_levels) then Err AssertionError else
  Ok (s', fold_left (fun st '(i_level, o) =>
        let old_Ntot := fst (st o) in
        let new_Ntot := old_Ntot + cumul i_level N_batch in
        let a := apply_writes (reallocate_and_copy_old old_Ntot (snd (st o)))
                   (copy_electrons store_per_level i_level old_Ntot cumul (ionized_from s') N_batch) in
        fun o' => if Nat.eqb o' o then (new_Ntot, a) else st o')
      (combine (range n_levels) targets) st).
End I.
(** ionizer.py:233-237, the number of levels that are distinguished. *)
Definition handle_ionization (c : R) (tab : adk) (level_start level_max Ntot batch_size : Z) (ion : Z -> ptc)
  (random_draw : Z -> R) (store_per_level : bool) (targets : list nat) (s : istate) (st : store) : res (istate * store) :=
  let n_levels := if store_per_level then level_max - level_start else 1 in
  handle_ionization_n c tab level_start level_max n_levels Ntot batch_size ion random_draw store_per_level targets s st.
