(** What an evenly spaced plasma is, independently of how it is created. *)
From Verif Require Import Base Inject_Model.
From Coq Require Import Reals.
Open Scope Z_scope.

(** All macroparticles with positive weight on the sites [k] in [lo, hi) of the longitudinal
    lattice z = z0 + (k + 1/2) dzp, with [Npr] radii and [Nth] angles per site; the density
    function is taken at the site itself. [ang k j] is an arbitrary rotation. *)
Definition plane (z0 dzp : R) (Npr : Z) (rmin rmax : R) (Nth : Z) (n : R) (d : dens)
    (ang : Z -> Z -> R) (k : Z) : list mp :=
  flat_map (fun j => map (fun i =>
      let z := (z0 + dzp * (IZR k + /2))%R in
      let r := (rmin + (rmax - rmin) / IZR Npr * (IZR j + /2))%R in
      let th := (2 * PI / IZR Nth * IZR i + ang k j)%R in
      {| m_z := z; m_r := r; m_th := th;
         m_w := (n * dens_at d z r th * (r * (2 * PI / IZR Nth) * ((rmax - rmin) / IZR Npr) * dzp))%R |})
    (range Nth)) (range Npr).
Definition lattice (z0 dzp : R) (Npr : Z) (rmin rmax : R) (Nth : Z) (n : R) (d : dens)
    (ang : Z -> Z -> R) (lo hi : Z) : list mp :=
  filter keep (flat_map (fun k => plane z0 dzp Npr rmin rmax Nth n d ang (lo + k)) (range (hi - lo))).

(** The position of a particle created at time [t], in the frame moving at [vend]. *)
Definition in_plasma_frame (vend : R) (tp : R * mp) : mp :=
  let '(t, p) := tp in
  {| m_z := (m_z p - vend * t)%R; m_r := m_r p; m_th := m_th p; m_w := m_w p |}.

(** Histories: some move happened; time never goes back; elapsed time. *)
Definition moved (h : list iop) : bool := existsb (fun o => match o with Move _ => true | _ => false end) h.
Definition durations_ok (h : list iop) : Prop :=
  forall d, In (Move d) h -> (0 <= d)%R.
Fixpoint total (h : list iop) : R :=
  match h with [] => 0 | Move d :: h => d + total h | Gen _ :: h => total h end%R.
