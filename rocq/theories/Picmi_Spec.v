(** What the PICMI objects ask for (C70-C74). *)
From Verif Require Import Base Fourier_Lib Boost_Model Smooth_Model Laser_Model Laser_Spec Bunch_Model Picmi_Model.
From Verif Require ExtField_Model.
From Coq Require Import Reals String.
From Coquelicot Require Import Complex.
Import ListNotations.
Open Scope R_scope.
Open Scope list_scope.

(** ** Laser (C70) *)
Definition norm2 (p : R * R) : R := sqrt (fst p ^ 2 + snd p ^ 2).
(** The pulse described by the PICMI laser: wavelength, direction +z or -z, polarization vector, phase and chirp. *)
Definition requested_laser (c m_e e : R) (l : picmi_laser) (lz : laser) : Prop :=
  let k0 := 2 * PI / pl_wavelength l in
  let dir := if Rlt_dec 0 (snd (pl_propagation l)) then 1 else - 1 in
  let cep := match pl_phi0 l with Some p => p | None => 0 end in
  let phi2 := match pl_phi2 l with Some p => p | None => 0 end in
  propag_direction lz = dir /\
  exists u, paraxial k0 dir u /\
    (forall r th, u (r * cos th) (r * sin th) (pl_focal l) = RtoC (gaussian_shape (pl_waist l) r)) /\
    forall x y z t,
      let F := pl_a0 l * E_unit c m_e e (pl_wavelength l) *
               Re (chirped_waveform c (pl_duration l) k0 cep phi2 (dir * (z - pl_centroid l) - c * t) * u x y z)%C in
      E_field lz x y z t = (fst (pl_polarization l) / norm2 (pl_polarization l) * F, snd (pl_polarization l) / norm2 (pl_polarization l) * F).

(** ** Gaussian bunch (C71) *)
(** Average over the elements of a list *)
Definition avg {A} (f : A -> R) (l : list A) : R := fold_right (fun a s => f a + s) 0 l / INR (List.length l).
(** The draws of a perfect sample of independent standard variables, as far as second moments are concerned. *)
Definition standard (l : list draw) : Prop :=
  avg (fun d => s_x d ^ 2) l = 1 /\ avg (fun d => s_ux d ^ 2) l = 1 /\ avg (fun d => s_x d * s_ux d) l = 0 /\
  avg (fun d => s_y d ^ 2) l = 1 /\ avg (fun d => s_uy d ^ 2) l = 1 /\ avg (fun d => s_y d * s_uy d) l = 0.
(** Lorentz factor, and position at time t of a particle that moves ballistically *)
Definition lorentz_factor (a : beam) : R := sqrt (1 + b_ux a ^ 2 + b_uy a ^ 2 + b_uz a ^ 2).
Definition x_at (c t : R) (a : beam) : R := b_x a + c * b_ux a / lorentz_factor a * t.
Definition y_at (c t : R) (a : beam) : R := b_y a + c * b_uy a / lorentz_factor a * t.
Definition z_at (c t : R) (a : beam) : R := b_z a + c * b_uz a / lorentz_factor a * t.

(** ** Species (C73) *)
(** Charge and mass of the requested species: those of the particle type if there is one; for an ion of charge state k, k e and the
    mass without k electrons. *)
Definition requested_charge (e : R) (s : pspecies) : option R :=
  match ps_charge_state s with Some k => Some (IZR k * e) | None => match ps_table s with Some (q, _) => Some q | None => ps_charge s end end.
Definition requested_mass (m_e : R) (s : pspecies) : option R :=
  match (match ps_table s with Some (_, m) => Some m | None => ps_mass s end), ps_charge_state s with
  | Some m, Some k => Some (m - IZR k * m_e)
  | m, _ => m
  end.

(** ** Diagnostics (C74) *)
(** The records that hold the component or quantity [d] of a data_list. *)
Definition records_of (d : string) : list string :=
  match (if existsb (String.eqb d) ["Ex"; "Ey"; "Ez"; "E"] then Some "E" else if existsb (String.eqb d) ["Bx"; "By"; "Bz"; "B"] then Some "B"
         else if existsb (String.eqb d) ["Jx"; "Jy"; "Jz"; "J"] then Some "J" else None)%string with
  | Some f => [f ++ "/r"; f ++ "/t"; f ++ "/z"]%string
  | None => if String.eqb d "rho" then ["rho"%string] else []
  end.
