(** Model of the search patterns of pfainspector: titus/inspector/parser.py:47-51, 65-76, 101-137, 151-164, 178-204, 206-232, 257-270, 281-294, 301-353, 355-386 (methods value and regex of the syntax tree) and 598-710 (the rules of the
    grammar that build it: groups and their numbers, ranges, chains, arrays, objects). What the patterns find is in ToolsModel.

    Simplifications: the text is already a syntax tree; keys are texts (the words null, true and false as keys become None, True and False in Python and are left out); Python's re module is the two
    functions of [PRegEx]. *)
From Coq Require Import Decimal DecimalString.
From Verif Require Import Base PyNum ScopeModel ToolsModel.
Open Scope string_scope.
Open Scope list_scope.

Inductive sign := Less | LessEq | More | MoreEq.
(** [CBetween a s t b] is "a s # t b" with [s] and [t] < (false) or <= (true); [CGroup (alternatives)] is "( .. & .. | .. & .. )" *)
Inductive cmd :=
| CWord (s : string) | CString (s : string) | CNum (n : num) | CUnder
| CRegex (matched : string -> bool) (sub : option (string -> string))
| CObject (pairs : list (string * cmd)) (ellipsis : bool)
| CArray (items : list cmd) (before after : bool)
| CRange (s : option (sign * num))
| CBetween (a : num) (s t : bool) (b : num)
| CApprox (central error : num)
| CGroup (alternatives : list (list cmd)).

(** 313-325 *)
Definition range (s : option (sign * num)) : pat :=
  match s with
  | None => PAny [Pint; Pint; Pfloat]
  | Some (Less, n) => PLT n | Some (LessEq, n) => PLE n | Some (More, n) => PGT n | Some (MoreEq, n) => PGE n
  end.
(** 663-665: reverse = {"<": ">=", "<=": ">"} *)
Definition reverse (s : bool) : sign := if s then More else MoreEq.
Definition upper (t : bool) : sign := if t then LessEq else Less.
(** str(self.counter), 294 *)
Definition group_name (n : nat) : string := NilEmpty.string_of_uint (Nat.to_uint n).

(** dict(...) keeps the last of equal keys *)
Definition dict_of_pairs {A} (l : list (string * A)) : list (string * A) := fold_left (fun d kv => dict_set (fst kv) (snd kv) d) l [].

Section Each.
Variable A B : Type.
Variable f : nat -> A -> res (B * nat).
Fixpoint each (n : nat) (l : list A) : res (list B * nat) :=
  match l with [] => Ok ([], n) | a :: l' => r <- f n a ;; s <- each (snd r) l' ;; Ok (fst r :: fst s, snd s) end.
End Each.
Arguments each {A B} f n l.

(** The pattern, and the number of the next group: groups are numbered when their closing parenthesis is read (625-629). *)
Fixpoint regex (n : nat) (c : cmd) : res (pat * nat) :=
  match c with
  | CWord s => Ok (if String.eqb s "null" then PNull else if String.eqb s "true" then PBool true else if String.eqb s "false" then PBool false else PStr s, n)   (* 129-137 *)
  | CString s => Ok (PStr s, n)
  | CNum x => Ok (PNum x, n)
  | CUnder => Ok (PAny [], n)
  | CRegex f g => Ok (PRegEx f g, n)
  | CObject l e =>   (* 228-232 *)
      r <- each (fun n kc => match kc with (k, c) => r <- regex n c ;; Ok ((k, fst r), snd r) end) n l ;;
      let d := dict_of_pairs (fst r) in
      if e then if has_key "self" d then Raise (PyErr "TypeError") else Ok (PMin d, snd r) else Ok (PDict d, snd r)
  | CArray l b a =>   (* 378-386; 687-694: not both ellipses *)
      if (b && a)%bool then Raise (PyErr "ParserError")
      else r <- each regex n l ;; Ok (if b then PEnd (fst r) else if a then PStart (fst r) else PList (fst r), snd r)
  | CRange s => Ok (range s, n)
  | CBetween a s t b => Ok (PAnd [range (Some (reverse s, a)); range (Some (upper t, b))], n)
  | CApprox x e => Ok (PApprox x e, n)
  | CGroup l =>   (* a single chain is not in an OrChain: 626-627 *)
      r <- each (each regex) n l ;;
      Ok (PGroup (group_name (snd r)) (match fst r with [q] => PAnd q | qs => POr (map PAnd qs) end), S (snd r))
  end.
(** 771: groupCounter = 1 *)
Definition pattern (c : cmd) : res pat := r <- regex 1 c ;; Ok (fst r).

(** *** Extraction: name[key, 3, "key"] *)
(** defs.py:260-287: what errors become; [K] is a Word or String, [I] an Integer *)
Definition ext_item (v : val) (i : step) : res val :=
  match item v i with
  | Ok x => Ok x
  | Raise (PyErr e) =>
      if match i with K _ => (String.eqb e "KeyError" || String.eqb e "TypeError")%bool | I _ => (String.eqb e "IndexError" || String.eqb e "TypeError")%bool end
      then Raise (PyErr "InspectorError") else Raise (PyErr e)
  | Raise e => Raise e
  end.
Fixpoint extaction (v : val) (p : path) : res val := match p with [] => Ok v | i :: p' => x <- ext_item v i ;; extaction x p' end.
Definition deep (v : val) : bool := match v with VDict _ | VArr _ => true | _ => false end.
Fixpoint number_items (n : nat) (l : list val) : list (step * bool) := match l with [] => [] | x :: l' => (I (Z.of_nat n), deep x) :: number_items (S n) l' end.
(** defs.py:219-258: the items offered next, and whether ", " follows (else "]"). Simplified: the item is offered as its text, in quotes if there is a space in it, numbers with zeros in front. *)
Fixpoint extcomplete (v : val) (p : path) : res (list (step * bool)) :=
  match p with
  | [] => match v with
          | VDict d => Ok (map (fun kx => (K (fst kx), deep (snd kx))) d)
          | VArr [] => Raise (PyErr "ValueError")                      (* math.log10(0) *)
          | VArr l => Ok (number_items 0 l)
          | _ => Ok []
          end
  | K k :: p' => match v with VDict d => match assoc k d with Some x => extcomplete x p' | None => Ok [] end | _ => Ok [] end
  | I i :: p' => match v with
                 | VArr l => if (i <? Z.of_nat (length l))%Z
                             then match offset l i with
                                  | Some n => match nth_error l n with Some x => extcomplete x p' | None => Raise (PyErr "IndexError") end
                                  | None => Raise (PyErr "IndexError")
                                  end
                             else Ok []
                 | _ => Ok []
                 end
  end.
