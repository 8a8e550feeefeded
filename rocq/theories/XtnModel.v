(** Model of the commands "pfa externalize" and "pfa internalize" of pfainspector, titus/inspector/pfagadget.py:486-719, and of what the reader takes as the initial value of a cell or pool:
    titus/reader.py:386-391, 878-930 (_readCell), 943-995 (_readPool), titus/pfaast.py:1180-1184 and 1280-1284 (initJsonNode).

    Simplifications: the options are already read ([cell] is their value) and the document has been found by its name (541-566); files hold JSON values instead of texts, so json.dump and json.load are inverse;
    a file is closed when it has been written; the document is the JSON part of [val], its objects have different keys; what is printed is left out. The reader is followed for the fields init and
    source only: the others are the same before and after; the field "@" of a pool (388-389) is not set apart. *)
From Coq Require Import Ascii.
From Verif Require Import Base ScopeModel.
Open Scope string_scope.
Open Scope list_scope.

(** The world outside: which file a name stands for, what reading a file or a URL gives, which names may be written, and what Avro files hold. *)
Record disk := mkDisk { place : string -> string; content : string -> res val; web : string -> res val; writable : string -> bool; avro : string -> res val }.

(** re.match("^[a-zA-Z][a-zA-Z0-9\+\-\.]*://", url), pfagadget.py:705 and reader.py:911 *)
Definition between (a b : nat) (c : ascii) : bool := let n := nat_of_ascii c in (Nat.leb a n && Nat.leb n b)%bool.
Definition letter (c : ascii) : bool := (between 65 90 c || between 97 122 c)%bool.
Definition scheme_char (c : ascii) : bool := (letter c || between 48 57 c || Ascii.eqb c "+" || Ascii.eqb c "-" || Ascii.eqb c ".")%bool.
Fixpoint scheme_end (s : string) : bool :=
  match s with
  | EmptyString => false
  | String c r => if scheme_char c then scheme_end r else String.prefix "://" s
  end.
Definition is_url (s : string) : bool := match s with EmptyString => false | String c r => (letter c && scheme_end r)%bool end.
(** pfagadget.py:705-708, reader.py:910-914 *)
Definition fetch (w : disk) (u : string) : res val := if is_url u then web w u else content w (place w u).
(** json.dump(x, open(file, "w")), 596 *)
Definition write (w : disk) (file : string) (x : val) : res disk :=
  if writable w file
  then Ok (mkDisk (place w) (fun p => if String.eqb p (place w file) then Ok x else content w p) (web w) (writable w) (avro w))
  else Raise (PyErr "OSError").

(** 568-589, 669-699: the section in which the object is found, the section and the object; an object that is null counts as none *)
Definition section (doc : list (string * val)) (sec : string) : list (string * val) := match assoc sec doc with Some (VDict c) => c | _ => [] end.
Definition lookup (doc : list (string * val)) (sec name : string) : option val := match assoc name (section doc sec) with Some VNull => None | o => o end.
Definition find (doc : list (string * val)) (name : string) (cell : bool) : option (string * val) :=
  let first := if cell then "cells" else "pools" in
  let second := if cell then "pools" else "cells" in
  match lookup doc first name with
  | Some o => Some (first, o)
  | None => match lookup doc second name with Some o => Some (second, o) | None => None end
  end.
(** obj[...] = ... happens inside the document *)
Definition put (doc : list (string * val)) (sec name : string) (o : val) : list (string * val) := dict_set sec (VDict (dict_set name o (section doc sec))) doc.
Definition source (o : list (string * val)) : val := match assoc "source" o with Some s => s | None => VStr "embedded" end.
Definition init (o : list (string * val)) : val := match assoc "init" o with Some s => s | None => VNull end.
Definition is_text (v : val) (s : string) : bool := match v with VStr t => String.eqb t s | _ => false end.
Definition inspector {A} : res A := Raise (PyErr "InspectorError").

(** 566-599 *)
Definition externalize (w : disk) (doc : list (string * val)) (name file : string) (cell : bool) : res (list (string * val) * disk) :=
  match find doc name cell with
  | None => inspector
  | Some (sec, VDict o) =>
      if is_text (source o) "embedded"
      then w' <- write w file (init o) ;; Ok (put doc sec name (VDict (dict_set "init" (VStr file) (dict_set "source" (VStr "json") o))), w')
      else inspector
  | Some _ => Raise (PyErr "AttributeError")
  end.
(** 669-711 *)
Definition internalize (w : disk) (doc : list (string * val)) (name : string) (cell : bool) : res (list (string * val)) :=
  match find doc name cell with
  | None => inspector
  | Some (sec, VDict o) =>
      if is_text (source o) "json"
      then match init o with
           | VStr u => x <- fetch w u ;; Ok (put doc sec name (VDict (dict_set "init" x (dict_del "source" o))))
           | _ => inspector
           end
      else inspector
  | Some _ => Raise (PyErr "AttributeError")
  end.
(** What the command leaves: the error, the document and the files *)
Definition run_externalize (w : disk) (doc : list (string * val)) (name file : string) (cell : bool) : option exn * list (string * val) * disk :=
  match externalize w doc name file cell with Ok (doc', w') => (None, doc', w') | Raise e => (Some e, doc, w) end.
Definition run_internalize (w : disk) (doc : list (string * val)) (name : string) (cell : bool) : option exn * list (string * val) :=
  match internalize w doc name cell with Ok doc' => (None, doc') | Raise e => (Some e, doc) end.

Definition syntax {A} : res A := Raise (PyErr "PFASyntaxException").
(** reader.py:878-928: the value that an engine decodes for the cell *)
Definition read_cell (w : disk) (o : list (string * val)) : res val :=
  match source o, assoc "init" o with
  | VStr s, Some i =>
      if String.eqb s "avro" then match i with VStr u => avro w u | _ => syntax end
      else if String.eqb s "json" then match i with VStr u => fetch w u | _ => syntax end
      else if String.eqb s "embedded" then Ok i else syntax
  | _, _ => syntax
  end.
(** 943-993: init has to be a map of JSON values (386-391), which json.loads does not take (961, 970) *)
Definition read_pool (w : disk) (o : list (string * val)) : res val :=
  match source o, match assoc "init" o with None => Some [] | Some (VDict d) => Some d | Some _ => None end with
  | VStr s, Some d =>
      if (String.eqb s "avro" || String.eqb s "json")%bool then Raise (PyErr "TypeError")
      else if String.eqb s "embedded" then Ok (VDict d) else syntax
  | _, _ => syntax
  end.
