(** What C107 says. *)
From Coq Require Import ZArith Reals List String Ascii.
From Verif Require Import Base Pmd_Model Script_Model.
Import ListNotations.

(** The name of a Python file *)
Definition py_name (s : string) : Prop := exists a, s = (a ++ ".py")%string.
(** Text without special characters *)
Definition plain (s : string) : Prop := forall c, In c (list_ascii_of_string s) -> (nat_of_ascii c < 128)%nat.
(** The attribute that stands for a parameter *)
Inductive stands_for : value -> attr -> Prop :=
  | sf_str s : plain s -> stands_for (VStr s) (AStr s)
  | sf_num x : stands_for (VNum x) (ANum x)
  | sf_nums l : stands_for (VNums l) (AVec l).
Definition params_of (p : option (list (string * value))) : list (string * value) := match p with Some l => l | None => [] end.
(** The file before the diagnostic acts *)
Definition opened (old : option file) : file := match old with Some f => f | None => new_file end.
(** The attributes of the root that make a file an openPMD file *)
Definition openpmd_keys : list string := ["openPMD"; "openPMDextension"; "meshesPath"; "particlesPath"; "iterationEncoding"; "iterationFormat"; "basePath"]%string.
