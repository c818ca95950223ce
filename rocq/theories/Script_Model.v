(** The input script that is saved with the output: openpmd_diag/inputscript_diag.py. The files are those of Pmd_Model.v. *)
From Coq Require Import ZArith Reals List String Ascii.
From Verif Require Import Base Pdiag_Model Pmd_Model.
Import ListNotations.
Open Scope Z_scope.

(** sub in s, for strings *)
Definition contains (sub s : string) : bool := match index 0 sub s with Some _ => true | None => false end.
(** inputscript_diag.py:68-86 _get_input_script; [fs]: the text files that can be read, [args]: sys.argv. Simplified: a file that cannot be read is a ValueError
    (OSError in Python); the characters are those of Latin-1. *)
Definition _get_input_script (fs : string -> option string) (args : list string) : res (option string) :=
  match filter (contains ".py") args with
  | [] => Ok None
  | py :: _ => match fs py with Some text => Ok (Some text) | None => Err ValueError end
  end.
(** The values of param_dict: a string, a number, lists of numbers, lists of strings, None. *)
Inductive value := VStr (s : string) | VNum (x : R) | VNums (l : list R) | VStrs (l : list string) | VNone.
Record script_diag := mkScript { input_script : option string; param_dict : option (list (string * value)) }.
(** inputscript_diag.py:20-66 __init__; the schedule and the directories are those of every diagnostic (generic_diag.py:26-94) *)
Definition script_init (fs : string -> option string) (args : list string) (params : option (list (string * value))) : res script_diag :=
  bind (_get_input_script fs args) (fun t => Ok (mkScript t params)).

(** np.string_(s): UnicodeEncodeError, a subclass of ValueError, if s is not ASCII *)
Definition is_ascii (c : ascii) : bool := (nat_of_ascii c <? 128)%nat.
Definition np_string (s : string) : res attr := if forallb is_ascii (list_ascii_of_string s) then Ok (AStr s) else Err ValueError.
(** inputscript_diag.py:112-118. An array of unicode strings and None have no HDF5 type: h5py raises TypeError (external library). *)
Definition attr_of (v : value) : res attr :=
  match v with
  | VStr s => np_string s
  | VNums l => Ok (AVec l)
  | VStrs _ => Err TypeError
  | VNum x => Ok (ANum x)
  | VNone => Err TypeError
  end.
(** inputscript_diag.py:88-120 write_hdf5 on the process that writes; [old]: the file of this iteration, if there is one (generic_diag.py:96-121) *)
Definition script_write_hdf5 (d : script_diag) (old : option file) : res (option file) :=
  match input_script d with
  | None => Ok old
  | Some script =>
      let f := match old with Some f => f | None => new_file end in
      bind (np_string script) (fun a =>
      let f := set_attr Root f ("inputScript"%string, a) in
      match param_dict d with
      | None => Ok (Some f)
      | Some l => bind (foldM (fun f kv => bind (attr_of (snd kv)) (fun a => Ok (set_attr Root f (fst kv, a)))) l f) (fun f => Ok (Some f))
      end)
  end.
