(** C102: what a reader that follows the openPMD standard finds in the field output. *)
From Coq Require Import ZArith Reals List String Lia Lra.
From Coquelicot Require Import Complex.
From Verif Require Pdiag_Model.
From Verif Require Import Base Decomp_Model GGrid_Model GGrid_Spec GGrid_Props Pdiag_Spec Pmd_Model Pmd_Spec Pmd_Proofs.
Import ListNotations.
Open Scope Z_scope.

(** The output of the fields succeeds. Each record that was asked for has the time of the iteration and its dimension, and the
    reader finds at (z, r, theta) exactly the field that the rank in charge of that position has there. *)
Theorem C102_fields : forall c q ns Nm G pml dt fieldtypes iteration old,
  simulation c q ns Nm G -> (forall ft, In ft fieldtypes -> In ft ["E"; "B"; "J"; "rho"]%string) ->
  compatible old Nm (r_Nr q) (c_Nz c) (comps_of fieldtypes) ->
  exists f, field_write_hdf5 (Some (moved_comm ns c, q)) Nm dt G pml fieldtypes iteration old = Ok f /\
    forall rec comp fn, In rec fieldtypes -> In (rec, comp, fn) documented_fields ->
      pmd_time f rec = Some (IZR iteration * dt)%R /\ (exists d, In (rec, d) dimension_of /\ pmd_dimension f rec d) /\
      forall z r theta x, pmd_read f rec comp z r theta x <->
        exists a, has_modes c q ns Nm G fn z r a /\ x = real_field Nm a theta.
Proof.
  intros c q ns Nm G pml dt fts it old HS V CP. destruct (field_main c q ns Nm G pml dt fts it old HS V CP) as (f & E & A & _). exists f. auto.
Qed.
Print Assumptions C102_fields.

(** The rest of the file stays what it was. *)
Theorem C102_rest : forall c q ns Nm G pml dt fieldtypes iteration old f,
  simulation c q ns Nm G -> (forall ft, In ft fieldtypes -> In ft ["E"; "B"; "J"; "rho"]%string) ->
  compatible old Nm (r_Nr q) (c_Nz c) (comps_of fieldtypes) ->
  field_write_hdf5 (Some (moved_comm ns c, q)) Nm dt G pml fieldtypes iteration old = Ok f ->
  forall p, ~ In p (comps_of fieldtypes) ->
    dsets f p = match old with Some f0 => dsets f0 p | None => None end /\
    (~ In p fieldtypes -> forall k, attrs f (Path p) k = match old with Some f0 => attrs f0 (Path p) k | None => None end).
Proof.
  intros c q ns Nm G pml dt fts it old f HS V CP E p Hp. destruct (field_main c q ns Nm G pml dt fts it old HS V CP) as (f' & E' & _ & B & D).
  rewrite E in E'. injection E' as <-. split; [apply B; exact Hp|]. intros Hq k. apply D; assumption.
Qed.
Print Assumptions C102_rest.

(** A file of a run with another number of modes or of cells is refused. *)
Theorem C102_clash : forall c q ns Nm G pml dt fieldtypes iteration f rec comp fn d,
  simulation c q ns Nm G -> (forall ft, In ft fieldtypes -> In ft ["E"; "B"; "J"; "rho"]%string) ->
  In rec fieldtypes -> In (rec, comp, fn) documented_fields -> dsets f comp = Some d -> h_shape d <> (2 * Nm - 1, r_Nr q, c_Nz c) ->
  field_write_hdf5 (Some (moved_comm ns c, q)) Nm dt G pml fieldtypes iteration (Some f) = Err TypeError.
Proof.
  intros c q ns Nm G pml dt fts it f rec comp fn d HS V Hr Hd E Hn.
  apply (field_clash c q ns Nm G pml dt fts it f rec comp d HS V Hr (proj1 (documented_comps rec comp fn Hd)) E Hn).
Qed.
Print Assumptions C102_clash.

(** The output of the charge density of each species: one record per species, the rest of the file unchanged. *)
Theorem C102_density : forall c q ns Nm G dt rho species iteration old,
  simulation c q ns Nm G -> compatible old Nm (r_Nr q) (c_Nz c) (map (fun s => "rho_" ++ s)%string species) ->
  exists f, density_write_hdf5 (moved_comm ns c) q Nm dt G rho species iteration old = Ok f /\
    (forall s, In s species -> let rec := ("rho_" ++ s)%string in
      pmd_time f rec = Some (IZR iteration * dt)%R /\ (exists d, In ("rho"%string, d) dimension_of /\ pmd_dimension f rec d) /\
      forall z r theta x, pmd_read f rec rec z r theta x <->
        exists a, has_modes c q ns Nm (fun m k => set_arr (G m k) frho (rho s m k)) frho z r a /\ x = real_field Nm a theta) /\
    (forall p, ~ In p (map (fun s => "rho_" ++ s)%string species) ->
      dsets f p = match old with Some f0 => dsets f0 p | None => None end /\
      forall k, attrs f (Path p) k = match old with Some f0 => attrs f0 (Path p) k | None => None end).
Proof.
  intros c q ns Nm G dt rho species it old HS CP. apply density_main; [exact HS|].
  intros f s d E Hs. apply (CP f _ d E). apply in_map_iff. exists s. auto.
Qed.
Print Assumptions C102_density.

(** The file of a snapshot in the lab frame: at the time of the snapshot, the cells of the lab frame, with what the flushes have
    put there so far, and zero elsewhere. *)
Theorem C102_lab : forall Nm Nr g0 fieldtypes t_lab zmin_lab v_lab Nz dz_lab dt flushes,
  (forall ft, In ft fieldtypes -> In ft ["E"; "B"; "J"; "rho"]%string) ->
  (forall lo hi data, In (lo, hi, data) flushes -> 0 <= lo <= hi /\ hi <= Nz) ->
  exists f0 f, lab_create Nm Nr g0 fieldtypes None t_lab zmin_lab v_lab Nz dz_lab dt = Ok f0 /\
    Pdiag_Model.foldM (fun f '(lo, hi, data) => write_slices fieldtypes data lo hi f) flushes f0 = Ok f /\
    forall rec comp fn s, In rec fieldtypes -> In (rec, comp, fn) documented_fields -> In (fn, s) names ->
      pmd_time f rec = Some t_lab /\ (exists d, In (rec, d) dimension_of /\ pmd_dimension f rec d) /\
      forall z r theta x, pmd_read f rec comp z r theta x <-> exists j i, 0 <= j < Nr /\ 0 <= i < Nz /\
        z = (zmin_lab + v_lab * t_lab + (1/2 + IZR i) * dz_lab)%R /\ r = (g_rmin g0 + (1/2 + IZR j) * g_dr g0)%R /\
        x = at_angle Nm (fun p => stored (map (fun '(lo, hi, data) => (lo, hi, data s)) flushes) p j i) theta.
Proof. intros Nm Nr g0 fts t_lab zmin_lab v_lab Nz dz_lab dt flushes V _. apply lab_main. exact V. Qed.
Print Assumptions C102_lab.

(** Three ranks, two modes, a window that has moved twice, and a file that already holds another record and the same [E]. *)
Definition pmd_G (m k : Z) : igrid C :=
  let g0 := match local_grid (RtoC 0) ex_c ex_q m k with Ok g => g | Err _ => InterpolationGrid (RtoC 0) 0 1 1 0 0 0 end in
  set_arr (moved_grid [3; 4] g0) fEz (fun i j => (IZR (100 * k + i + 10 * j), IZR m)).
Definition pmd_old : file :=
  {| dsets := fun p => if String.eqb p "E/z" then Some (mkH5 (3, 6, 40) (fun _ _ _ => 7%R))
                       else if String.eqb p "phi" then Some (mkH5 (1, 2, 3) (fun _ _ _ => 5%R)) else None;
     attrs := fun o k => None |}.
Example C102_met : simulation ex_c ex_q [3; 4] 2 pmd_G /\ compatible (Some pmd_old) 2 6 40 (comps_of ["E"; "rho"]%string) /\
  ~ In "phi"%string (comps_of ["E"; "rho"]%string).
Proof.
  split; [|split].
  - split; [lia|]. split; [cbn; lra|]. split; [cbn; lia|]. intros m Hm.
    unfold setting. split; [unfold valid_comm; cbn; lia|]. split; [cbn; lia|]. split; [cbn; lra|].
    split; [cbn; lia|]. split; [cbn; lia|]. cbn [ex_c c_size]. intros k Hk.
    assert (Hc : k = 0 \/ k = 1 \/ k = 2) by lia. unfold pmd_G.
    destruct Hc as [->|[->| ->]]; eexists; (split; [reflexivity|]); repeat split.
  - intros f p d E Hp Ed. injection E as <-. vm_compute in Hp.
    destruct Hp as [<-|[<-|[<-|[<-|[]]]]]; cbn in Ed; (discriminate Ed || (injection Ed as <-; reflexivity)).
  - vm_compute. intros [E|[E|[E|[E|[]]]]]; discriminate.
Qed.
