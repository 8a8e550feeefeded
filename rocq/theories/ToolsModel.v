(** titus/producer/tools.py: access by index, patterns and searching in JSON documents.
    Documents are the JSON part of [val]. Simplified: dicts have text as keys (Python would let assign create a key that
    is an integer; the model raises then), tuples are lists, and no object occurs at two places of a document. *)
From Verif Require Import Base PyNum ScopeModel MapModel.
Open Scope string_scope.
Open Scope list_scope.
Open Scope Z_scope.

(** *** Access by index *)
(** an item of an index: a key or a position *)
Inductive step := K (k : string) | I (i : Z).
Definition path := list step.
(** l[i], IndexError if there is none; negative positions count from the end *)
Definition offset {A} (l : list A) (i : Z) : option nat :=
  let n := Z.of_nat (length l) in
  let j := if i <? 0 then i + n else i in
  if (0 <=? j) && (j <? n) then Some (Z.to_nat j) else None.
Fixpoint letters (s : string) : list val :=
  match s with EmptyString => [] | String c r => VStr (String c EmptyString) :: letters r end.
(** out[i], line 44 *)
Definition item (v : val) (i : step) : res val :=
  match v, i with
  | VDict d, K k => match assoc k d with Some x => Ok x | None => Raise (PyErr "KeyError") end
  | VDict _, I _ => Raise (PyErr "KeyError")
  | VArr l, I i => match offset l i with
                   | Some n => match nth_error l n with Some x => Ok x | None => Raise (PyErr "IndexError") end
                   | None => Raise (PyErr "IndexError")
                   end
  | VStr s, I i => match offset (letters s) i with
                   | Some n => match nth_error (letters s) n with Some x => Ok x | None => Raise (PyErr "IndexError") end
                   | None => Raise (PyErr "IndexError")
                   end
  | _, _ => Raise (PyErr "TypeError")
  end.
(** 38-45 *)
Fixpoint get (v : val) (p : path) : res val := match p with [] => Ok v | i :: p' => x <- item v i ;; get x p' end.

Fixpoint set_nth {A} (n : nat) (x : A) (l : list A) : list A :=
  match l, n with [], _ => [] | _ :: l', O => x :: l' | y :: l', S n' => y :: set_nth n' x l' end.
Fixpoint del_nth {A} (n : nat) (l : list A) : list A :=
  match l, n with [], _ => [] | _ :: l', O => l' | y :: l', S n' => y :: del_nth n' l' end.
(** out[i] = to, 54 *)
Definition put (v : val) (i : step) (to : val) : res val :=
  match v, i with
  | VDict d, K k => Ok (VDict (dict_set k to d))
  | VDict _, I _ => Raise (PyErr "integer key")
  | VArr l, I i => match offset l i with Some n => Ok (VArr (set_nth n to l)) | None => Raise (PyErr "IndexError") end
  | _, _ => Raise (PyErr "TypeError")
  end.
(** del out[i], 81 *)
Definition del (v : val) (i : step) : res val :=
  match v, i with
  | VDict d, K k => if has_key k d then Ok (VDict (dict_del k d)) else Raise (PyErr "KeyError")
  | VDict _, I _ => Raise (PyErr "KeyError")
  | VArr l, I i => match offset l i with Some n => Ok (VArr (del_nth n l)) | None => Raise (PyErr "IndexError") end
  | _, _ => Raise (PyErr "TypeError")
  end.
(** Walk to index[:-1] and change the last place there (50-54, 77-81). In Python the change happens inside the object;
    here the objects on the way are rebuilt. Strings on the way have no places to change. *)
Fixpoint change (f : val -> step -> res val) (v : val) (p : path) : res val :=
  match p with
  | [] => Raise (PyErr "IndexError")                                  (* index[-1] of an empty index *)
  | [i] => f v i
  | i :: p' => x <- item v i ;; y <- change f x p' ;; put v i y
  end.
(** 47-60, 74-87; assigned and removed work on a deep copy *)
Definition assigned (v : val) (p : path) (to : val) : res val := change (fun w i => put w i to) v p.
Definition removed (v : val) (p : path) : res val := change del v p.

(** *** Patterns *)
Inductive pytype := Pdict | Plist | Pstr | Pint | Pfloat | Pbool | Pnone.
Inductive pat :=
| PDict (d : list (string * pat)) | PList (l : list pat) | PStr (s : string) | PNum (n : num) | PBool (b : bool) | PNull
| PGroup (name : string) (p : pat)                              (* 161-173 *)
| PMin (d : list (string * pat))                                (* 175-197 *)
| PStart (l : list pat) | PEnd (l : list pat)                   (* 199-245 *)
| POr (l : list pat) | PAnd (l : list pat)                      (* 247-279 *)
| PApprox (central error : num)                                 (* 281-292 *)
| PLT (n : num) | PLE (n : num) | PGT (n : num) | PGE (n : num) (* 294-340 *)
| PRegEx (matched : string -> bool) (sub : option (string -> string))   (* 342-375: re.match and re.sub as functions *)
| PAny (types : list pytype).                                   (* 377-387 *)
(** class Match, 91-103 *)
Record mt := Mt { m_orig : val; m_mod : val; m_groups : list (string * val) }.

(** isinstance(v, (int, float)) and its value *)
Definition as_num (v : val) : option num :=
  match v with VBool b => Some (NI (if b then 1 else 0)) | VInt z => Some (NI z) | VFlt f => Some (NF f) | _ => None end.
(** isinstance; bool is a subclass of int *)
Definition instance (v : val) (t : pytype) : bool :=
  match v, t with
  | VDict _, Pdict | VArr _, Plist | VStr _, Pstr | VInt _, Pint | VBool _, Pint | VFlt _, Pfloat | VBool _, Pbool | VNull, Pnone => true
  | _, _ => false
  end.
Definition whole (v : val) : mt := Mt v v [].
Definition found (b : bool) (v : val) : res (option mt) := Ok (if b then Some (whole v) else None).
(** groups.update *)
Definition update (g h : list (string * val)) : list (string * val) := fold_left (fun a kv => dict_set (fst kv) (snd kv) a) h g.
Definition dict_of (v : val) : list (string * val) := match v with VDict d => d | _ => [] end.
Definition list_of (v : val) : list val := match v with VArr l => l | _ => [] end.
(** out.original[key] = ...; out.modified[key] = ...; out.groups.update(m.groups) *)
Definition add_key (k : string) (m out : mt) : mt :=
  Mt (VDict (dict_set k (m_orig m) (dict_of (m_orig out)))) (VDict (dict_set k (m_mod m) (dict_of (m_mod out))))
     (update (m_groups out) (m_groups m)).
(** out.original.append(...) ... *)
Definition add_item (m out : mt) : mt :=
  Mt (VArr (list_of (m_orig out) ++ [m_orig m])) (VArr (list_of (m_mod out) ++ [m_mod m])) (update (m_groups out) (m_groups m)).
Definition unmarked {A} (d : list (string * A)) : list (string * A) := filter (fun kv => negb (String.eqb (fst kv) "@")) d.
Definition no_key_missing {A B} (d : list (string * A)) (e : list (string * B)) : bool := forallb (fun kv => has_key (fst kv) e) (unmarked d).
(** patterns that have a method getmatch *)
Definition is_matcher (p : pat) : bool :=
  match p with PDict _ | PList _ | PStr _ | PNum _ | PBool _ | PNull => false | _ => true end.

(** 105-154 and the methods getmatch *)
Fixpoint getmatch (p : pat) (h : val) {struct p} : res (option mt) :=
  let entries := fix entries (d : list (string * pat)) (e : list (string * val)) (out : mt) : res (option mt) :=
    match d with
    | [] => Ok (Some out)
    | (k, q) :: d' =>
        if String.eqb k "@" then entries d' e out
        else match assoc k e with
             | None => Raise (PyErr "KeyError")
             | Some x => r <- getmatch q x ;; match r with Some m => entries d' e (add_key k m out) | None => Ok None end
             end
    end in
  let items := fix items (l : list pat) (w : list val) (out : mt) : res (option mt) :=
    match l, w with
    | [], _ => Ok (Some out)
    | _ :: _, [] => Raise (PyErr "IndexError")
    | q :: l', x :: w' => r <- getmatch q x ;; match r with Some m => items l' w' (add_item m out) | None => Ok None end
    end in
  match p with
  | PDict d =>
      match h with
      | VDict e => if (no_key_missing d e && no_key_missing e d)%bool then entries d e (Mt (VDict []) (VDict []) []) else Ok None
      | _ => Ok None
      end
  | PList l =>
      match h with
      | VArr w => if Nat.eqb (length l) (length w) then items l w (Mt (VArr []) (VArr []) []) else Ok None
      | _ => Ok None
      end
  | PStr s => found (match h with VStr t => String.eqb s t | _ => false end) h
  | PNum n => found (match as_num h with Some m => num_eq n m | None => false end) h
  | PBool b => found (match as_num h with Some m => num_eq (NI (if b then 1 else 0)) m | None => false end) h   (* 141: bool is int *)
  | PNull => found (match h with VNull => true | _ => false end) h
  | PGroup name q =>
      if is_matcher q then
        r <- getmatch q h ;;
        Ok (match r with Some m => Some (Mt (m_orig m) (m_mod m) (dict_set name (m_mod m) (m_groups m))) | None => None end)
      else Raise (PyErr "AttributeError")                         (* 168: self.matcher.getmatch *)
  | PMin d =>
      match h with
      | VDict e => if no_key_missing d e then entries d e (Mt (VDict (unmarked e)) (VDict (unmarked e)) []) else Ok None
      | _ => Ok None
      end
  | PStart l =>
      match h with
      | VArr w =>
          if (length w <? length l)%nat then Ok None
          else r <- items l w (Mt (VArr []) (VArr []) []) ;;
               Ok (match r with
                   | Some m => let rest := skipn (length l) w in
                               Some (Mt (VArr (list_of (m_orig m) ++ rest)) (VArr (list_of (m_mod m) ++ rest)) (m_groups m))
                   | None => None
                   end)
      | _ => Ok None
      end
  | PEnd l =>
      match h with
      | VArr w =>
          if (length w <? length l)%nat then Ok None
          else let k := (length w - length l)%nat in
               r <- items l (skipn k w) (Mt (VArr []) (VArr []) []) ;;
               Ok (match r with
                   | Some m => Some (Mt (VArr (firstn k w ++ list_of (m_orig m))) (VArr (firstn k w ++ list_of (m_mod m))) (m_groups m))
                   | None => None
                   end)
      | _ => Ok None
      end
  | POr l =>
      (fix some (l : list pat) : res (option mt) :=
         match l with
         | [] => Ok None
         | q :: l' => r <- getmatch q h ;; match r with Some m => Ok (Some m) | None => some l' end
         end) l
  | PAnd l =>
      (fix every (l : list pat) (last : option mt) : res (option mt) :=
         match l with
         | [] => Ok last
         | q :: l' => r <- getmatch q h ;; match r with Some m => every l' (Some m) | None => Ok None end
         end) l None
  | PApprox c e =>
      match as_num h with
      | Some m => d <- py_sub m c ;; found (negb (num_gt (py_abs d) e)) h
      | None => Ok None
      end
  | PLT n => found (match as_num h with Some m => negb (num_ge m n) | None => false end) h
  | PLE n => found (match as_num h with Some m => negb (num_gt m n) | None => false end) h
  | PGT n => found (match as_num h with Some m => negb (num_le m n) | None => false end) h
  | PGE n => found (match as_num h with Some m => negb (num_lt m n) | None => false end) h
  | PRegEx f sub =>
      match h with
      | VStr s => if f s then Ok (Some (Mt h (match sub with Some g => VStr (g s) | None => h end) [])) else Ok None
      | _ => Ok None
      end
  | PAny ts => found (match ts with [] => true | _ => existsb (instance h) ts end) h
  end.

(** *** Searching *)
(** sorted(haystack.keys()) with what belongs to the keys *)
Fixpoint insert_key {A} (x : string * A) (l : list (string * A)) : list (string * A) :=
  match l with
  | [] => [x]
  | y :: l' => if str_lt (fst y) (fst x) then y :: insert_key x l' else x :: l
  end.
Definition by_key {A} (d : list (string * A)) : list (string * A) := fold_right insert_key [] d.
(** search, 391-405, as the sequence of its calls of getmatch: first inside the parts, then on the whole. *)
Fixpoint places (v : val) (at_ : path) : list (path * val) :=
  match v with
  | VDict d => flat_map snd (by_key (map (fun kv => (fst kv, places (snd kv) (at_ ++ [K (fst kv)]))) d))
  | VArr l => (fix go (l : list val) (i : Z) : list (path * val) :=
                 match l with [] => [] | x :: l' => places x (at_ ++ [I i]) ++ go l' (i + 1) end) l 0
  | _ => []
  end ++ [(at_, v)].
(** The generator: what it yields, and the exception it ends with, if any. *)
Fixpoint yields (p : pat) (l : list (path * val)) : list (path * mt) * option exn :=
  match l with
  | [] => ([], None)
  | (i, x) :: l' =>
      match getmatch p x with
      | Raise e => ([], Some e)
      | Ok None => yields p l'
      | Ok (Some m) => let '(out, e) := yields p l' in ((i, m) :: out, e)
      end
  end.
Definition search (p : pat) (h : val) := yields p (places h []).
(** list(generator) *)
Definition consumed {A} (g : list A * option exn) : res (list A) := match snd g with Some e => Raise e | None => Ok (fst g) end.
(** the first item, or the exception before it (407-411) *)
Definition searchFirst (p : pat) (h : val) : res (option (path * mt)) :=
  match search p h with
  | (x :: _, _) => Ok (Some x)
  | ([], Some e) => Raise e
  | ([], None) => Ok None
  end.
(** 413-457 *)
Definition index (p : pat) (h : val) : res (option path) := r <- searchFirst p h ;; Ok (option_map fst r).
Definition indexes (p : pat) (h : val) : res (list path) := l <- consumed (search p h) ;; Ok (map fst l).
Definition contains (p : pat) (h : val) : res bool := r <- searchFirst p h ;; Ok (match r with Some _ => true | None => false end).
Definition count (p : pat) (h : val) : res Z := l <- consumed (search p h) ;; Ok (Z.of_nat (length l)).
Definition findRef (p : pat) (h : val) : res (option val) :=
  r <- searchFirst p h ;; match r with Some x => y <- get h (fst x) ;; Ok (Some y) | None => Ok None end.
Definition findCopy (p : pat) (h : val) : res (option val) := r <- searchFirst p h ;; Ok (option_map (fun x => m_orig (snd x)) r).

(** *** assignAt, 62-72 *)
(** indexes(...) is a generator: the loop assigns while the search goes on. What the search has still to visit has not
    been changed, so the keys are those of the original; but getmatch sees the parts as they are by then. *)
Fixpoint walk (p : pat) (to : val) (v : val) (at_ : path) (root : val) : res val :=
  let run := fix run (l : list (val -> res val)) (root : val) : res val :=
    match l with [] => Ok root | f :: l' => r <- f root ;; run l' r end in
  root' <- match v with
           | VDict d => run (map snd (by_key (map (fun kv => (fst kv, walk p to (snd kv) (at_ ++ [K (fst kv)]))) d))) root
           | VArr l => run ((fix go (l : list val) (i : Z) : list (val -> res val) :=
                               match l with [] => [] | x :: l' => walk p to x (at_ ++ [I i]) :: go l' (i + 1) end) l 0) root
           | _ => Ok root
           end ;;
  x <- get root' at_ ;;
  r <- getmatch p x ;;
  match r with Some _ => assigned root' at_ to | None => Ok root' end.
Definition assignedAt (p : pat) (v to : val) : res val := walk p to v [] v.
