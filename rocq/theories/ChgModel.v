(** Model of the command "json change" of pfainspector: titus/inspector/jsongadget.py:435-590 (ChangeCommand) and the methods replacement of titus/inspector/parser.py:51-52, 233-237, 295-299, 387-391.

    Simplifications: the line is already a syntax tree (the third argument, "to", is not looked at by the code); answers are already recognised; what is printed is left out, and so is model.reset() (it forgets the
    compiled engine); the document is a tree: parts that are one object in Python (a group used twice in a replacement) are copies here. *)
From Verif Require Import Base PyNum ScopeModel ToolsModel InspModel.
Open Scope string_scope.
Open Scope list_scope.

(** what a replacement is after parsing: JSON with groups in it (parser.Replacement) *)
Inductive repl := RLeaf (v : val) | RGroup (name : string) | RDict (d : list (string * repl)) | RArr (l : list repl).
Section All.
Variable A B : Type.
Variable f : A -> res B.
Fixpoint all_res (l : list A) : res (list B) := match l with [] => Ok [] | a :: l' => b <- f a ;; bs <- all_res l' ;; Ok (b :: bs) end.
End All.
Arguments all_res {A B} f l.

Definition of_num (n : num) : val := match n with NI z => VInt z | NF f => VFlt f end.
(** str(num) *)
Definition int_name (z : Z) : string := if (z <? 0)%Z then "-" ++ group_name (Z.to_nat (- z)) else group_name (Z.to_nat z).
(** parser.py: what is not a value is a TypeError (48; 389 because super(JsonObject, self) is called on a JsonArray) *)
Fixpoint replacement (c : cmd) : res repl :=
  match c with
  | CWord s => Ok (RLeaf (if String.eqb s "null" then VNull else if String.eqb s "true" then VBool true else if String.eqb s "false" then VBool false else VStr s))
  | CString s => Ok (RLeaf (VStr s))
  | CNum n => Ok (RLeaf (of_num n))
  | CObject l false => d <- all_res (fun kc => match kc with (k, c) => r <- replacement c ;; Ok (k, r) end) l ;; Ok (RDict (dict_of_pairs d))
  | CArray l false false => w <- all_res replacement l ;; Ok (RArr w)
  | CGroup [[CNum (NI z)]] => Ok (RGroup (int_name z))
  | _ => Raise (PyErr "TypeError")
  end.
(** jsongadget.py:523-537 *)
Fixpoint replace (r : repl) (groups : list (string * val)) : res val :=
  match r with
  | RLeaf v => Ok v
  | RGroup n => match assoc n groups with Some v => Ok v | None => Raise (PyErr "InspectorError") end
  | RDict d => e <- all_res (fun kr => match kr with (k, r) => v <- replace r groups ;; Ok (k, v) end) d ;; Ok (VDict e)
  | RArr l => w <- all_res (fun r => replace r groups) l ;; Ok (VArr w)
  end.

(** 558-571; anything else is asked again; no more input is an EOFError *)
Inductive answer := Yes | No | All | Stop | Revert | Unclear.
Fixpoint reply (l : list answer) : res (answer * list answer) :=
  match l with [] => Raise (PyErr "EOFError") | Unclear :: l' => reply l' | a :: l' => Ok (a, l') end.
(** [Asking l]: ask is True, [l] are the answers to come; [Silent]: ask is False; [Stopped] and [Reverted]: after break *)
Inductive mode := Asking (l : list answer) | Silent | Stopped | Reverted.
(** 550-586: the body of the loop, for the part at [a] if it matches. After break the search does not go on. *)
Definition visit (p : pat) (r : repl) (a : path) (s : val * mode) : res (val * mode) :=
  match snd s with
  | Stopped | Reverted => Ok s
  | m =>
      x <- get (fst s) a ;; o <- getmatch p x ;;
      match o with
      | None => Ok s
      | Some found =>
          y <- replace r (m_groups found) ;;
          match m with
          | Asking l =>
              q <- reply l ;;
              match fst q with
              | Yes => root <- assigned (fst s) a y ;; Ok (root, Asking (snd q))
              | All => root <- assigned (fst s) a y ;; Ok (root, Silent)
              | Stop => Ok (fst s, Stopped)
              | Revert => Ok (fst s, Reverted)
              | _ => Ok (fst s, Asking (snd q))
              end
          | _ => root <- assigned (fst s) a y ;; Ok (root, m)
          end
      end
  end.
(** tools.py:391-405: the search goes on while the document is changed, as in [walk] of ToolsModel *)
Section Through.
Variable body : path -> val * mode -> res (val * mode).
Fixpoint runs (l : list (val * mode -> res (val * mode))) (s : val * mode) : res (val * mode) := match l with [] => Ok s | f :: l' => t <- f s ;; runs l' t end.
Fixpoint through (v : val) (a : path) (s : val * mode) : res (val * mode) :=
  t <- match v with
       | VDict d => runs (map snd (by_key (map (fun kv => (fst kv, through (snd kv) (a ++ [K (fst kv)]))) d))) s
       | VArr l => runs ((fix go (l : list val) (i : Z) : list (val * mode -> res (val * mode)) := match l with [] => [] | x :: l' => through x (a ++ [I i]) :: go l' (i + 1)%Z end) l 0%Z) s
       | _ => Ok s
       end ;;
  body a t.
End Through.
(** 488-509 and 546-593: the error, if any, and the document in memory afterwards. The node is changed inside the document; inside a text there is nothing to change. *)
Definition change_command (doc : val) (at_ : path) (c r : cmd) (answers : list answer) : option exn * val :=
  match (node <- extaction doc at_ ;; p <- pattern c ;; q <- replacement r ;; through (visit p q) node [] (node, Asking answers)) with
  | Raise e => (Some e, doc)
  | Ok (_, Reverted) => (None, doc)
  | Ok (node, _) => (None, match at_ with [] => node | _ => match assigned doc at_ node with Ok d => d | Raise _ => doc end end)
  end.
