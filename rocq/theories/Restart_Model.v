(** Checkpoints and restart: openpmd_diag/checkpoint_restart.py with generic_diag.py, field_diag.py, particle_diag.py. Exact
    arithmetic. The disk is the list of files of each proc directory, changed by the write operations in order; a killed
    run leaves on each rank the effect of a prefix of its operations. *)
From Verif Require Import Base Store_Model.
From Coq Require Import Reals String.
From Coquelicot Require Import Complex.
From Flocq Require Import Core.Raux Core.Generic_fmt Core.Round_NE.
Open Scope R_scope.

(** A macroparticle as saved: x, y, z, ux, uy, uz, w, inv_gamma, id (if tracked) and ionization level (if ionizable) *)
Record mp := { m_x : R; m_y : R; m_z : R; m_ux : R; m_uy : R; m_uz : R; m_w : R; m_ig : R; m_id : option Z; m_lev : option Z }.
(** The state of a rank: box position, fields (E, B and PML components, by number; mode, iz, ir), species (mass, particles) *)
Record rstate := { r_zmin : R; r_fields : list (Z -> farray); r_species : list (R * list mp) }.
(** What a file keeps of a macroparticle: inv_gamma is not saved, the momentum is in SI units, the charge is e times the level
    (particle_diag.py:494-507) *)
Record fmp := { q_x : R; q_y : R; q_z : R; q_px : R; q_py : R; q_pz : R; q_w : R; q_id : option Z; q_charge : option R }.
(** A file data%08d.h5: iteration, time, position of the box, datasets of the fields, species groups by number (mass, particles) *)
Record file := { f_it : Z; f_time : R; f_zmin : R; f_data : list dataset; f_sp : list (R * list fmp) }.
Definition disk := list file.

Section WithConstants.
Context (cc ee : R). (* speed of light, elementary charge *)
(** particle_diag.py:494-507 *)
Definition to_file (m : R) (p : mp) : fmp :=
  let s := if Rlt_dec 0 m then m * cc else 1 in
  {| q_x := m_x p; q_y := m_y p; q_z := m_z p; q_px := m_ux p * s; q_py := m_uy p * s; q_pz := m_uz p * s; q_w := m_w p; q_id := m_id p;
     q_charge := option_map (fun l => ee * IZR l) (m_lev p) |}.
(** checkpoint_restart.py:305-345 load_species on one macroparticle, with openPMD-viewer version 1 (positions in meters, momenta divided by
    m c when m is not 0) *)
Definition of_file (m : R) (q : fmp) : mp :=
  let s := if Req_EM_T m 0 then 1 else m * cc in
  let ux := q_px q / s in let uy := q_py q / s in let uz := q_pz q / s in
  {| m_x := q_x q; m_y := q_y q; m_z := q_z q; m_ux := ux; m_uy := uy; m_uz := uz; m_w := q_w q; m_ig := 1 / sqrt (1 + ux ^ 2 + uy ^ 2 + uz ^ 2);
     m_id := q_id q; m_lev := option_map (fun c => ZnearestE (c / ee)) (q_charge q) |}.

(** The write operations of one checkpoint (main.py:563-565, checkpoint_restart.py:59-75, field_diag.py:120-160, particle_diag.py:227-295):
    the FieldDiagnostic creates the file with its empty datasets (0) and closes it, reopens it and fills the datasets one by one; then
    the ParticleDiagnostic adds the species one by one (one operation per species: simplification). *)
Inductive op := Create (it : Z) | Field (it : Z) (k : nat) | Species (it : Z) (k : nat).
Definition op_it (o : op) : Z := match o with Create it | Field it _ | Species it _ => it end.
Definition ckpt_ops (nf ns : nat) (it : Z) : list op := Create it :: map (Field it) (seq 0 nf) ++ map (Species it) (seq 0 ns).
Definition empty_dataset : dataset := fun _ _ _ => 0.
Fixpoint set_nth {A} (l : list A) (k : nat) (x : A) : list A := match l, k with [], _ => [] | _ :: l, O => x :: l | y :: l, S k => y :: set_nth l k x end.
(** [Nm]: number of modes; [st it]: the state of this rank after iteration it. File names are unique, so the first matching file is the
    file. *)
Definition update (it : Z) (f : file -> file) (d : disk) : disk := map (fun x => if (f_it x =? it)%Z then f x else x) d.
Definition exec (Nm : Z) (dt : R) (st : Z -> rstate) (d : disk) (o : op) : disk :=
  match o with
  | Create it => d ++ [{| f_it := it; f_time := IZR it * dt; f_zmin := r_zmin (st it); f_data := map (fun _ => empty_dataset) (r_fields (st it)); f_sp := [] |}]
  | Field it k => update it (fun f => {| f_it := f_it f; f_time := f_time f; f_zmin := f_zmin f;
      f_data := set_nth (f_data f) k (write_dataset Nm (nth k (r_fields (st it)) (fun _ _ _ => RtoC 0)) (nth k (f_data f) empty_dataset)); f_sp := f_sp f |}) d
  | Species it k => update it (fun f => {| f_it := f_it f; f_time := f_time f; f_zmin := f_zmin f; f_data := f_data f;
      f_sp := f_sp f ++ [let '(m, ps) := nth k (r_species (st it)) (0, []) in (m, map (to_file m) ps)] |}) d
  end.
(** generic_diag.py:131-149: the iterations of the checkpoints of a run of n periods (the iteration is incremented before the checkpoint,
    so 0 is not one of them) *)
Definition ckpt_its (period : Z) (n : nat) : list Z := map (fun k => (Z.of_nat k * period)%Z) (seq 1 n).
(** The disk of one rank after [j] operations of a run with checkpoints at [its] (in increasing order); the directory was empty. *)
Definition run_disk (Nm : Z) (dt : R) (nf ns : nat) (its : list Z) (st : Z -> rstate) (j : nat) : disk :=
  fold_left (exec Nm dt st) (firstn j (flat_map (ckpt_ops nf ns) its)) [].

(** The simulation after restart: iteration, time, position of the box, field arrays (loaded), species *)
Record resumed := { n_it : Z; n_time : R; n_zmin : R; n_fields : list (Z -> farray); n_species : list (list mp) }.
Definition RuntimeErr := ValueError. (* RuntimeError: not in the list of Base *)
(** checkpoint_restart.py:191-214 check_restart: directory, number of proc directories, moving window *)
Definition check_restart (exists_dir : bool) (nproc size : nat) (moving_win : bool) : res unit :=
  if negb exists_dir then Err RuntimeErr else if negb (nproc =? size)%nat then Err RuntimeErr else if moving_win then Err RuntimeErr else Ok tt.
(** OpenPMDTimeSeries: fails on an empty directory; iterations in increasing order; available species from the first file; get_field and
    get_particle raise if the iteration or the species does not exist (external library). *)
Definition find_file (d : disk) (it : Z) : res file := match find (fun f => (f_it f =? it)%Z) d with Some f => Ok f | None => Err KeyError end.
(** checkpoint_restart.py:127-189 on one rank: [nf] fields to load, [ms] the masses of the species of the simulation ([load_species] uses the
    mass of the file, through the viewer) *)
Definition restart_rank (Nr : Z) (nf ns : nat) (iteration : option Z) (d : disk) : res resumed :=
  match d with
  | [] => Err KeyError
  | f0 :: _ =>
    let it := match iteration with Some i => i | None => last (map f_it d) 0%Z end in
    if negb (List.length (f_sp f0) =? ns)%nat then Err RuntimeErr else
    bind (find_file d it) (fun f =>
      if (List.length (f_sp f) <? ns)%nat then Err KeyError else if (List.length (f_data f) <? nf)%nat then Err KeyError else
      Ok {| n_it := it; n_time := f_time f; n_zmin := f_zmin f;
            n_fields := map (fun ds => fun m => load_field ds Nr m 1) (firstn nf (f_data f));
            n_species := map (fun '(m, ps) => map (of_file m) ps) (firstn ns (f_sp f)) |})
  end.
(** All ranks: rank 0 checks, then each rank loads from its own directory *)
Definition restart (Nr : Z) (nf ns : nat) (iteration : option Z) (exists_dir : bool) (size : nat) (moving_win : bool) (disks : list disk) : res (list resumed) :=
  bind (check_restart exists_dir (List.length disks) size moving_win) (fun _ => all_ok (map (restart_rank Nr nf ns iteration) disks)).
End WithConstants.
