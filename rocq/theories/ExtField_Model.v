(** lpa_utils/external_fields.py: ExternalField. Exact arithmetic; the compilation of the function (numba,
    for CPU or GPU) is not modelled: both call it once per macroparticle. *)
From Verif Require Import Base.
From Coq Require Import Reals.
Open Scope R_scope.

(** The strings 'Ex' ... 'Bz' and any other one *)
Inductive fieldtype := Ex | Ey | Ez | Bx | By | Bz | OtherField.
(** One element of the arrays of a species: position and gathered fields *)
Record point := { x : R; y : R; z : R; fEx : R; fEy : R; fEz : R; fBx : R; fBy : R; fBz : R }.
(** getattr(species, fieldtype), one element; there is no attribute with another name *)
Definition get (f : fieldtype) (p : point) : R :=
  match f with Ex => fEx p | Ey => fEy p | Ez => fEz p | Bx => fBx p | By => fBy p | Bz => fBz p | OtherField => 0 end.
(** the array written by out=field *)
Definition set (f : fieldtype) (v : R) (p : point) : point :=
  let '(Build_point x y z a b c d e g) := p in
  match f with
  | Ex => Build_point x y z v b c d e g | Ey => Build_point x y z a v c d e g | Ez => Build_point x y z a b v d e g
  | Bx => Build_point x y z a b c v e g | By => Build_point x y z a b c d v g | Bz => Build_point x y z a b c d e v
  | OtherField => p end.
(** field_func( F, x, y, z, t, amplitude, length_scale ) *)
Definition func := R -> R -> R -> R -> R -> R -> R -> R.
(** [ext_species]: None, or the identity of a species *)
Record external_field := { ext_func : func; ext_scale : R; ext_species : option Z; ext_fields : list (fieldtype * R) }.
(** external_fields.py:120: is there a boost? *)
Definition boosted (gamma_boost : option R) : option R :=
  match gamma_boost with None => None | Some g => if Req_EM_T g 1 then None else Some g end.
(** external_fields.py:119-128: the function in terms of boosted coordinates; c: speed of light *)
Definition lab_func (c : R) (gamma_boost : option R) (f : func) : func :=
  match boosted gamma_boost with
  | Some g => let beta_boost := sqrt (1 - 1 / g ^ 2) in let inv_c := 1 / c in
     fun F x y z t amplitude length_scale =>
       let zlab := g * (z + beta_boost * c * t) in
       let tlab := g * (t + beta_boost * inv_c * z) in
       f F x y zlab tlab amplitude length_scale
  | None => f
  end.
(** external_fields.py:152-171: the components and their amplitudes. (In the first branch an unknown fieldtype would leave
    the attribute unset; it was refused before.) *)
Definition amplitudes (c : R) (gamma_boost : option R) (ft : fieldtype) (amplitude : R) : list (fieldtype * R) :=
  match boosted gamma_boost with
  | Some g => let gb := g * sqrt (1 - 1 / g ^ 2) in let inv_c := 1 / c in
    match ft with
    | Ex => [(Ex, g * amplitude); (By, - gb * inv_c * amplitude)]
    | Ey => [(Ey, g * amplitude); (Bx, gb * inv_c * amplitude)]
    | Bx => [(Bx, g * amplitude); (Ey, gb * c * amplitude)]
    | By => [(By, g * amplitude); (Ex, - gb * c * amplitude)]
    | Ez | Bz => [(ft, amplitude)]
    | OtherField => []
    end
  | None => [(ft, amplitude)]
  end.
(** external_fields.py:17-171 __init__ *)
Definition external_field_init (c : R) (field_func : func) (ft : fieldtype) (amplitude length_scale : R) (species : option Z)
  (gamma_boost : option R) : res external_field :=
  match ft with
  | OtherField => Err ValueError
  | _ => Ok {| ext_func := lab_func c gamma_boost field_func; ext_scale := length_scale; ext_species := species;
               ext_fields := amplitudes c gamma_boost ft amplitude |}
  end.
(** external_fields.py:201-215: one component, one macroparticle *)
Definition apply_one (e : external_field) (t : R) (p : point) (fa : fieldtype * R) : point :=
  set (fst fa) (ext_func e (get (fst fa) p) (x p) (y p) (z p) t (snd fa) (ext_scale e)) p.
(** A species: its identity and its macroparticles *)
Definition species := (Z * list point)%type.
(** external_fields.py:193-215: the body of the loop for one species *)
Definition apply_species (e : external_field) (t : R) (s : species) : species :=
  let chosen := match ext_species e with None => true | Some i => Z.eqb (fst s) i end in
  if chosen then
    if Z.leb (Z.of_nat (length (snd s))) 0 then s
    else fold_left (fun s fa => (fst s, map (fun p => apply_one e t p fa) (snd s))) (ext_fields e) s
  else s.
(** external_fields.py:174-215 apply_expression *)
Definition apply_expression (e : external_field) (ptcl : list species) (t : R) : list species := map (apply_species e t) ptcl.
(** main.py:472-473: all external fields, in the order of the list *)
Definition apply_all (l : list external_field) (ptcl : list species) (t : R) : list species :=
  fold_left (fun ptcl e => apply_expression e ptcl t) l ptcl.
