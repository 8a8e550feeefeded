(** What moving the initial value of a cell or pool into a file, or back, has to do. *)
From Verif Require Import Base ScopeModel XtnModel.
Open Scope string_scope.
Open Scope list_scope.

(** [o] is the cell or pool [name] of the document *)
Definition is_at (doc : list (string * val)) (sec name : string) (o : list (string * val)) : Prop :=
  exists c, assoc sec doc = Some (VDict c) /\ assoc name c = Some (VDict o).
(** Two documents differ at most in the cell or pool [name] of [sec] *)
Definition same_but (sec name : string) (doc doc' : list (string * val)) : Prop :=
  (forall k, k <> sec -> assoc k doc' = assoc k doc) /\
  (exists c c', assoc sec doc = Some (VDict c) /\ assoc sec doc' = Some (VDict c') /\ forall k, k <> name -> assoc k c' = assoc k c).
(** two descriptions of a cell or pool differ at most in source and init *)
Definition same_fields (o o' : list (string * val)) : Prop := forall k, k <> "source" -> k <> "init" -> assoc k o' = assoc k o.
(** nothing is in the other files, and in the web, than was *)
Definition only_written (w w' : disk) (file : string) : Prop :=
  (forall p, p <> place w file -> content w' p = content w p) /\ place w' = place w /\ web w' = web w /\ avro w' = avro w.
(** the cell takes its initial value from the file *)
Definition uses (w : disk) (o : list (string * val)) (file : string) : Prop :=
  exists u, assoc "source" o = Some (VStr "json") /\ assoc "init" o = Some (VStr u) /\ is_url u = false /\ place w u = place w file.
(** the keys of objects differ, as in every Python dict *)
Definition a_dict (o : list (string * val)) : Prop := NoDup (keys o).
(** a URL: a letter, then letters, digits and the signs plus, minus and dot, then a colon and two slashes *)
Definition alphabet : string := "ABCDEFGHIJKLMNOPQRSTUVWXYZabcdefghijklmnopqrstuvwxyz".
Definition chars (s : string) : list Ascii.ascii := list_ascii_of_string s.
Definition url (s : string) : Prop :=
  exists c a r, s = String c (a ++ "://" ++ r) /\ In c (chars alphabet) /\ forall x, In x (chars a) -> In x (chars (alphabet ++ "0123456789+-.")).
