(** Model of the commands cd and back of pfainspector: titus/inspector/main.py:40-42 and 153-166, with do, maybe and switch of titus/inspector/defs.py:94-148 unfolded.

    Simplifications: the arguments are already read (SimpleCommand.action, defs.py:510-533); the directories do not change during the session; os.chdir that fails is an OSError. *)
From Verif Require Import Base.
Open Scope string_scope.
Open Scope list_scope.

(** os.path.isdir, os.chdir and os.path.expanduser: the directory that a path leads to from the present one, if it can be entered *)
Record directories := mkDirectories { isdir : string -> string -> bool; chdir : string -> string -> option string; expanduser : string -> string }.
(** the present directory and self.dirStack, its end first *)
Definition place : Type := string * list string.
(** [Enter] is cd *)
Inductive command := Enter (x : string) | Back.
Definition step (w : directories) (s : place) (c : command) : res unit * place :=
  match c with
  | Enter x =>   (* 154-157: the arguments of do are evaluated from the left *)
      if isdir w (fst s) x
      then match chdir w (fst s) (expanduser w x) with Some d => (Ok tt, (d, fst s :: snd s)) | None => (Raise (PyErr "OSError"), (fst s, fst s :: snd s)) end
      else (Raise (PyErr "InspectorError"), s)
  | Back =>   (* 163 *)
      match snd s with
      | [] => (Raise (PyErr "InspectorError"), s)
      | d :: st => match chdir w (fst s) d with Some d' => (Ok tt, (d', st)) | None => (Raise (PyErr "OSError"), (fst s, st)) end
      end
  end.
Fixpoint run (w : directories) (s : place) (l : list command) : list (res unit) * place :=
  match l with [] => ([], s) | c :: l' => let (r, s') := step w s c in let (rs, s'') := run w s' l' in (r :: rs, s'') end.
