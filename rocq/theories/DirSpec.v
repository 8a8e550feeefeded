(** Going into directories and back. *)
From Verif Require Import Base DirModel.
Open Scope string_scope.
Open Scope list_scope.

(** every directory that can be reached, and [home], can be entered again by its name, from everywhere *)
Definition open_again (w : directories) (home : string) : Prop :=
  (forall c, chdir w c home = Some home) /\ (forall c x d, chdir w c x = Some d -> forall c', chdir w c' d = Some d).
(** every cd has its back *)
Inductive nested : list command -> Prop :=
| nested_nil : nested []
| nested_cd : forall x l l', nested l -> nested l' -> nested (Enter x :: l ++ Back :: l').
(** no directory was there and could not be entered *)
Definition no_oserror (rs : list (res unit)) : Prop := ~ In (Raise (PyErr "OSError")) rs.
Definition all_ok (rs : list (res unit)) : Prop := forall r, In r rs -> r = Ok tt.
(** how many commands of a kind were obeyed *)
Definition obeyed (kind : command -> bool) (l : list command) (rs : list (res unit)) : nat :=
  length (filter (fun p => (kind (fst p) && match snd p with Ok _ => true | Raise _ => false end)%bool) (combine l rs)).
Definition is_cd (c : command) : bool := match c with Enter _ => true | Back => false end.
Definition is_back (c : command) : bool := match c with Enter _ => false | Back => true end.
