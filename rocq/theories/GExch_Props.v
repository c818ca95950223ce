(** C91: exchange of the particles between the ranks on GPU. *)
From Coq Require Import Reals ZArith List Permutation.
From Verif Require Import Base Decomp_Model PExch_Model PExch_Spec Sort_Model Sort_Spec GExch_Model GExch_Spec GExch_Proofs.
Import ListNotations.
Open Scope Z_scope.

(** For every scheduling of the threads, any number of ranks: the particles of all the ranks after the exchange are those
    before it, each with all its attributes (id and ionization level included: compare C06 on CPU), except that those beyond
    an open end are gone, those crossing a periodic end are moved by the box length, and the injected ones are there.
    The arrays are then flagged as unsorted. *)
Theorem C91_conserved tr io b size n_guard L g inj S S' :
  1 <= size -> (b = Periodic -> 2 <= size) -> (inj <> None -> b = Open) ->
  (forall r, 0 <= r < size -> kind tr io (S r) /\ ready n_guard (g r) (S r) /\ p_N (S r) < 2 ^ 50) ->
  (forall l, inj = Some l -> Forall (has_attrs tr io) l /\ Z.of_nat (length l) < 2 ^ 50) ->
  exchange_particles b size n_guard L g (option_map (buffer tr io) inj) S S' ->
  (forall r, 0 <= r < size -> kind tr io (S' r) /\ p_sorted (S' r) = false) /\
  Permutation (all_ranks size (fun r => particles (S' r)))
    (all_ranks size (fun r => flat_map
       (destiny b size L (fun q => keep_lo n_guard (g q)) (fun q => keep_hi n_guard (g q)) r) (particles (S r)))
     ++ match inj with Some l => l | None => [] end).
Proof. exact (conserved tr io b size n_guard L g inj S S'). Qed.
Print Assumptions C91_conserved.

(** After the exchange, each rank holds only particles of its own subdomain (half a cell more on each side), and on the last
    rank the injected ones. *)
Theorem C91_inside tr io b size n_guard L g inj S S' :
  1 <= size -> (b = Periodic -> 2 <= size) -> (inj <> None -> b = Open) ->
  (forall r, 0 <= r < size -> kind tr io (S r) /\ ready n_guard (g r) (S r) /\ p_N (S r) < 2 ^ 50 /\ 4 * n_guard <= g_Nz (g r)) ->
  (forall l, inj = Some l -> Forall (has_attrs tr io) l /\ Z.of_nat (length l) < 2 ^ 50) ->
  contiguous n_guard b size L g ->
  exchange_particles b size n_guard L g (option_map (buffer tr io) inj) S S' ->
  forall r, 0 <= r < size -> exists Q, particles (S' r) = Q ++ injected size inj r /\
    forall p, In p Q -> (keep_lo n_guard (g r) < pz p <= keep_hi n_guard (g r))%R.
Proof. exact (inside tr io b size n_guard L g inj S S'). Qed.
Print Assumptions C91_inside.

(** The two theorems above are about executions that exist, whatever the particles. *)
Theorem C91_runs tr io b size n_guard L g inj S : 1 <= size -> (inj <> None -> b = Open) ->
  (forall r, 0 <= r < size -> kind tr io (S r) /\ ready n_guard (g r) (S r) /\ p_sorted (S r) = false /\ p_fields (S r) = []) ->
  exists S', exchange_particles b size n_guard L g (option_map (buffer tr io) inj) S S'.
Proof. exact (exchange_exists tr io b size n_guard L g inj S). Qed.
Print Assumptions C91_runs.

(** The condition that no particle has left the local grid ([on_grid] in [ready]) cannot be dropped, whereas the CPU does not
    need it: a particle beyond the left end of the grid is sent to the right. *)
Theorem C91_on_grid_needed : exists g n_guard s s' bl br, grid_ok g /\ 4 * n_guard <= g_Nz g /\ kind true false s /\ p_N s = 1 /\
  (pz (record s 0) < g_zmin g)%R /\ remove_particles_gpu g n_guard (Some 0) (Some 2) s s' bl br /\
  p_N s' = 0 /\ columns bl = 0 /\ br = buffer true false [record s 0].
Proof. exact far_wrong. Qed.
Print Assumptions C91_on_grid_needed.

(** Two ranks, a tracked particle crossing from the first to the second. *)
Example C91_met : (forall r, 0 <= r < 2 -> kind true false (wS r) /\ ready 4 (wg r) (wS r) /\ p_N (wS r) < 2 ^ 50 /\ 4 * 4 <= g_Nz (wg r)) /\
  contiguous 4 Open 2 100 wg /\
  exists S', exchange_particles Open 2 4 100 wg None wS S' /\ particles (S' 0) = [] /\
    particles (S' 1) = [record (wS 0) 0] /\ pid (record (wS 0) 0) = Some 1.
Proof. split; [exact wS_ok|]. split; [exact wS_contiguous|exact two_ranks]. Qed.
