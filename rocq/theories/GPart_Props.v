(** C99: gathering and push by concurrent threads act on each macroparticle as if it were alone. *)
From Coq Require Import Reals Lra.
From Coquelicot Require Import Complex.
From Verif Require Import Base Push_Model Shape_Model Gather_Model GPart_Model GPart_Spec GPart_Proofs.
Open Scope R_scope.

(** On the GPU and on the CPU, for every division of the particles among threads and every interleaving of their statements. *)
Theorem C99_gather : forall b s g rmax_gather fs a a', sized b s ->
  gather_on b s g rmax_gather fs a a' -> each (s_N s) (gathers s g rmax_gather fs) a a'.
Proof. intros. exact (gather_main 1 1 b s g rmax_gather fs a a' H H0). Qed.
Print Assumptions C99_gather.

Theorem C99_push_p : forall c e b s dt a a', sized b s ->
  push_p_on c e b s dt a a' -> each (s_N s) (pushes c e s dt) a a'.
Proof. intros c e b s dt a a'. exact (push_p_main c e b s dt a a'). Qed.
Print Assumptions C99_push_p.

Theorem C99_push_x : forall c b s dt x_push y_push z_push a a', sized b s ->
  push_x_on c b s dt x_push y_push z_push a a' -> each (s_N s) (fun p p' => p' = push_x c dt x_push y_push z_push p) a a'.
Proof. intros c b s dt xp yp zp a a'. exact (push_x_main c 1 b s dt xp yp zp a a'). Qed.
Print Assumptions C99_push_x.

(** Any sequence of calls: the same arrays on GPU and CPU, for any numbers of threads. *)
Theorem C99_backends : forall c e b1 b2 s os a a1 a2, sized b1 s -> sized b2 s ->
  run c e b1 s os a a1 -> run c e b2 s os a a2 -> a1 = a2.
Proof. intros c e b1 b2 s os a a1 a2. exact (backend_main c e b1 b2 s os a a1 a2). Qed.
Print Assumptions C99_backends.

(** The trajectory of a macroparticle does not depend on its index in the arrays, nor on the other macroparticles. *)
Theorem C99_alone : forall c e b1 b2 s n os a a1 u u1 i j, sized b1 s -> sized b2 (with_N s n) ->
  run c e b1 s os a a1 -> run c e b2 (with_N s n) os u u1 ->
  (0 <= i < s_N s)%Z -> (0 <= j < n)%Z -> u j = a i -> u1 j = a1 i.
Proof. intros c e b1 b2 s n os a a1 u u1 i j. exact (alone_main c e b1 b2 s n os a a1 u u1 i j). Qed.
Print Assumptions C99_alone.

(** Executions exist, for every species except a ballistic ionizable one (which raises). *)
Theorem C99_executions : forall c e b s os a, s_plane s = None \/ s_ionizer s = false -> exists a', run c e b s os a a'.
Proof. intros c e b s os a H. exact (run_exists c e b s os H a). Qed.
Print Assumptions C99_executions.

(** 300 particles with the cubic shape: gathering with three modes, push, motion; on the GPU (two blocks) and with 4 threads on the
    CPU. Particle 257, in the second block, at 1/2 after the motion. Two threads may alternate after each statement. *)
Example C99_met :
  let s := {| s_q := -1; s_m := 1; s_plane := None; s_ionizer := false; s_shape := Cubic; s_N := 300 |} in
  let zero := {| f_r := fun _ _ => RtoC 0; f_t := fun _ _ => RtoC 0; f_z := fun _ _ => RtoC 1 |} in
  let g := {| gg_invdz := 1; gg_zmin := 0; gg_Nz := 100; gg_invdr := 1; gg_rmin := 0; gg_Nr := 50 |} in
  let os := [Gather g 40 [(zero, zero); (zero, zero); (zero, zero)]; PushP 1; PushX 1 1 1 1] in
  let p := {| px := 0; py := 1; pz := 50; pm := {| ux := 1; uy := 1; uz := 1; ig := 1 / 2 |};
              pf := {| Ex := 0; Ey := 0; Ez := 0; Bx := 0; By := 0; Bz := 0 |}; plevel := 0 |} in
  sized GPU s /\ sized (CPU 4) s /\
  (exists a1 a2, run 1 1 GPU s os (fun _ => p) a1 /\ run 1 1 (CPU 4) s os (fun _ => p) a2 /\ a1 = a2) /\
  (exists a1, push_x_on 1 GPU s 1 1 1 1 (fun _ => p) a1 /\ px (a1 257%Z) = 1 / 2 /\ px (a1 300%Z) = 0) /\
  interleaved [[1; 2]; [3; 4]]%nat [3; 1; 4; 2]%nat.
Proof.
  intros s zero g os p.
  assert (S1 : sized GPU s) by (split; [cbn; lia|exact I]).
  assert (S2 : sized (CPU 4) s) by (split; cbn; lia).
  split; [exact S1|]. split; [exact S2|].
  destruct (C99_executions 1 1 GPU s os (fun _ => p) (or_introl eq_refl)) as [a1 R1].
  destruct (C99_executions 1 1 (CPU 4) s os (fun _ => p) (or_introl eq_refl)) as [a2 R2].
  destruct (call_exists 1 1 GPU s (PushX 1 1 1 1) (fun _ => p) (or_introl eq_refl)) as [a3 R3].
  split; [|split].
  - exists a1, a2. split; [exact R1|]. split; [exact R2|]. exact (C99_backends _ _ _ _ _ _ _ _ _ S1 S2 R1 R2).
  - exists a3. destruct (C99_push_x _ _ _ _ _ _ _ _ _ S1 R3) as [H1 H2]. split; [exact R3|].
    rewrite (H1 257%Z) by (cbn; lia). rewrite (H2 300%Z) by (cbn; lia). split; [|reflexivity]. unfold push_x, p. cbn [px pm ig ux]. lra.
  - apply (il_step [[1; 2]]%nat 3%nat [4]%nat []). apply (il_step [] 1%nat [2]%nat [[4]]%nat).
    apply (il_step [[2]]%nat 4%nat []%nat []). apply (il_step [] 2%nat [] [[]]). constructor. repeat constructor.
Qed.
