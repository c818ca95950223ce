(** Positions of particles and grid at the depositions of a step, for C34. *)
From Verif Require Import Base Deposit_Model Cross_Model.
From Coq Require Import Reals.
Open Scope R_scope.
(** All particles have advanced along x, y by [a] times their velocity c u / gamma and along z by [b] times it, the grid by [d]. *)
Definition displaced (c a b d : R) (s : pic) : pic :=
  {| pic_l := map (fun sp => {| sp_q := sp_q sp; sp_tracer := sp_tracer sp; sp_ionizable := sp_ionizable sp; sp_shape := sp_shape sp;
       sp_ptcl := map (fun p => {| p_x := p_x p + a * (c * p_ux p * p_ig p); p_y := p_y p + a * (c * p_uy p * p_ig p);
         p_z := p_z p + b * (c * p_uz p * p_ig p); p_ux := p_ux p; p_uy := p_uy p; p_uz := p_uz p; p_ig := p_ig p;
         p_w := p_w p; p_wl := p_wl p |}) (sp_ptcl sp) |}) (pic_l s);
     pic_g := {| g_dz := g_dz (pic_g s); g_zmin := g_zmin (pic_g s) + d; g_Nz := g_Nz (pic_g s); g_dr := g_dr (pic_g s);
                 g_Nr := g_Nr (pic_g s); g_vol := g_vol (pic_g s); g_beta := g_beta (pic_g s) |} |}.
