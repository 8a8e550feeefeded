(** Model of titus/producer/expression.py: Python code turned into PFA expressions.

    Simplifications, all deliberate:
    - the input is what ast.parse makes of the text: the nodes the module knows, with their line numbers, and one node for all others;
    - the versions of Python the package is for, 3.4 to 3.9 (setup.py:66): their ast has no Print; True, False and None are constants and no names;
      subscripts have an Index until 3.8 ([st_index]);
    - keyword arguments have names (no "**"), numbers are integers and doubles (no complex ones);
    - where the module calls itself with the same arguments for ever, Python raises RecursionError. *)
From Verif Require Import Base PyNum ScopeModel ChainModel.
Open Scope string_scope.
Open Scope list_scope.

Inductive binop := Add | Sub | Mult | Div | Mod | Pow | LShift | RShift | BitOr | BitXor | BitAnd | FloorDiv | MatMult.
Inductive unop := Invert | NotOp | UAdd | USub.
Inductive cmpop := EqOp | NotEq | LtOp | LtE | GtOp | GtE | IsOp | IsNot | InOp | NotIn.
(** nodes of expressions, with the line they start in *)
Inductive pex :=
| PNum (n : nat) (v : val)
| PStr (n : nat) (s : string)
| PConst (n : nat) (v : val)
| PName (n : nat) (s : string)
| PBool (n : nat) (both_of : bool) (l : list pex)
| PBin (n : nat) (op : binop) (l r : pex)
| PUn (n : nat) (op : unop) (x : pex)
| PIf (n : nat) (test body orelse : pex)
| PDict (n : nat) (l : list (pex * pex))
| PCompare (n : nat) (l : pex) (r : list (cmpop * pex))
| PCall (n : nat) (f : pex) (args : list pex) (kwds : list (string * pex))
| PAttr (n : nat) (x : pex) (a : string)
| PSub (n : nat) (x i : pex)
| PSlice (n : nat) (x : pex)
| PList (n : nat) (l : list pex)
| PTuple (n : nat) (l : list pex)
| POther (n : nat).
Definition lineno (e : pex) : nat :=
  match e with
  | PNum n _ | PStr n _ | PConst n _ | PName n _ | PBool n _ _ | PBin n _ _ _ | PUn n _ _ | PIf n _ _ _ | PDict n _ | PCompare n _ _ | PCall n _ _ _
  | PAttr n _ _ | PSub n _ _ | PSlice n _ | PList n _ | PTuple n _ | POther n => n
  end.
(** statements: assignments, and all others *)
Inductive stmt := Assign (n : nat) (targets : list pex) (value : pex) | Statement (n : nat).

(** the state without its symbols, expression.py:74 *)
Record state := State { st_subs : list (string * val); st_cells : list string; st_pools : list string; st_lines : bool; st_index : bool }.
Definition no_equivalent {A} : res A := Raise (PyErr "PythonToPfaException").
Definition memb (s : string) (l : list string) : bool := existsb (String.eqb s) l.

(** _form, 105-109 *)
Definition form (st : state) (n : nat) (others : list (string * val)) : val :=
  VDict (if st_lines st then ("@", VStr ("Python line " ++ dec n)) :: others else others).

(** the operators, 231-254, 258-265, 278-286; MatMult has no branch and leaves op unset; operators have no line of their own *)
Definition bin_name (op : binop) : res string :=
  match op with
  | Add => Ok "+" | Sub => Ok "-" | Mult => Ok "*" | Div => Ok "/" | Mod => Ok "%" | Pow => Ok "**" | LShift | RShift => no_equivalent
  | BitOr => Ok "|" | BitXor => Ok "^" | BitAnd => Ok "&" | FloorDiv => Ok "//" | MatMult => Raise (PyErr "UnboundLocalError")
  end.
Definition un_name (op : unop) : res string := match op with Invert => Ok "~" | NotOp => Ok "!" | UAdd => no_equivalent | USub => Ok "u-" end.
Definition cmp_name (op : cmpop) : res string :=
  match op with EqOp => Ok "==" | NotEq => Ok "!=" | LtOp => Ok "<" | LtE => Ok "<=" | GtOp => Ok ">" | GtE => Ok ">=" | _ => Raise (PyErr "AttributeError") end.

(** calls, 301-333 *)
Definition special_forms : list string :=
  ["Int"; "Long"; "Float"; "Double"; "String"; "Base64"; "Type"; "Value"; "New"; "Do"; "Let"; "Set"; "Attr"; "Path"; "To"; "Cell"; "Pool"; "Init"; "If"; "Then"; "Else"; "Cond";
   "While"; "Until"; "For"; "Step"; "Foreach"; "In"; "Forkey"; "Forval"; "Cast"; "Cases"; "Partial"; "Upcast"; "As"; "Ifnotnull"; "Doc"; "Error"; "Log"; "Namespace"; "Params";
   "Ret"; "Fcn"].
Definition core_library : list (string * string) :=
  [("Plus", "+"); ("Minus", "-"); ("Times", "*"); ("Divide", "/"); ("FloorDivide", "//"); ("Negative", "U-"); ("Modulo", "%"); ("Remainder", "%%"); ("Pow", "**");
   ("Comparison", "cmp"); ("Equal", "=="); ("GreaterOrEqual", ">="); ("GreaterThan", ">"); ("NotEqual", "!="); ("LessThan", "<"); ("LessOrEqual", "<="); ("Max", "max");
   ("Min", "min"); ("And", "&&"); ("Or", "||"); ("XOr", "^^"); ("Not", "!"); ("BitwiseAnd", "&"); ("BitwiseOr", "|"); ("BitwiseXOr", "^"); ("BitwiseNot", "~")].
Definition text_forms : list string := ["string"; "base64"; "value"; "attr"; "cell"; "pool"; "foreach"; "forkey"; "forval"; "doc"; "error"; "fcn"].
Definition low (c : Ascii.ascii) : Ascii.ascii := let n := Ascii.nat_of_ascii c in if (Nat.leb 65 n && Nat.leb n 90)%bool then Ascii.ascii_of_nat (n + 32) else c.
Fixpoint lower (s : string) : string := match s with EmptyString => EmptyString | String c s' => String (low c) (lower s') end.
Definition lower_special (s : string) : string := if memb s special_forms then lower s else s.
Definition call_name (s : string) : string := let n := lower_special s in match assoc n core_library with Some f => f | None => n end.
Fixpoint unfold_name (f : pex) : res string :=
  match f with PName _ s => Ok s | PAttr _ x a => s <- unfold_name x ;; Ok (s ++ "." ++ a)%string | _ => no_equivalent end.
Definition one_arg (l : list val) : val := match l with [x] => x | _ => VArr l end.
Definition unwrap (name : string) (args : val) : val :=
  if memb name text_forms then match args with VDict [(k, x)] => if String.eqb k "string" then x else args | _ => args end else args.

(** _literal, 384-420 *)
Fixpoint literal (st : state) (e : pex) : res val :=
  match e with
  | PDict _ l =>
      d <- (fix go (l : list (pex * pex)) (out : list (string * val)) :=
              match l with
              | [] => Ok out
              | (k, v) :: l' =>
                  kk <- match k with
                        | PStr _ s => Ok s
                        | PName _ s => match assoc s (st_subs st) with Some (VStr t) => Ok t | _ => no_equivalent end
                        | _ => no_equivalent
                        end ;;
                  vv <- literal st v ;; go l' (dict_set kk vv out)
              end) l [] ;; Ok (VDict d)
  | PNum _ v => Ok v
  | PStr _ s => Ok (VStr s)
  | PName _ s => match assoc s (st_subs st) with Some v => Ok v | None => no_equivalent end
  | PList _ l => l' <- (fix go (l : list pex) := match l with [] => Ok [] | x :: l' => y <- literal st x ;; ys <- go l' ;; Ok (y :: ys) end) l ;; Ok (VArr l')
  | _ => no_equivalent
  end.

(** the last branch of _unfold, 376-382, for what _expression makes of the node *)
Definition based (st : state) (n : nat) (x : res val) (path : list val) : res val := j <- x ;; Ok (form st n [("attr", j); ("path", VArr path)]).
Definition based_name (st : state) (n : nat) (s : string) (x : res val) (path : list val) : res val :=
  if memb s (st_cells st) then Ok (form st n [("cell", VStr s); ("path", VArr path)])
  else if memb s (st_pools st) then Ok (form st n [("pool", VStr s); ("path", VArr path)])
  else based st n x path.
Definition endless {A} : res A := Raise (PyErr "RecursionError").
(** _expression, 215-365, and _unfold, 367-382, of a node: the second calls the first with the node it is given *)
Fixpoint both (st : state) (e : pex) {struct e} : res val * (list val -> res val) :=
  let each := fix go (l : list pex) := match l with [] => Ok [] | x :: l' => y <- fst (both st x) ;; ys <- go l' ;; Ok (y :: ys) end in
  match e with
  | PBool n all l =>                                                                                        (* 216-228 *)
      let andor := if all then "&&" else "||" in
      let x := match l with
               | a :: b :: rest =>
                   ja <- fst (both st a) ;; jb <- fst (both st b) ;;
                   (fix go (l : list pex) (out : val) := match l with [] => Ok out | y :: l' => j <- fst (both st y) ;; go l' (form st n [(andor, VArr [out; j])]) end)
                     rest (form st n [(andor, VArr [ja; jb])])
               | _ => Raise (PyErr "IndexError")
               end in (x, based st n x)
  | PBin n op l r =>                                                                                         (* 230-255 *)
      let x := (o <- bin_name op ;; jl <- fst (both st l) ;; jr <- fst (both st r) ;; Ok (form st n [(o, VArr [jl; jr])])) in (x, based st n x)
  | PUn n op a =>                                                                                            (* 257-266 *)
      let x := (o <- un_name op ;; j <- fst (both st a) ;; Ok (form st n [(o, j)])) in (x, based st n x)
  | PIf n t b o =>                                                                                           (* 268-272 *)
      let x := (jt <- fst (both st t) ;; jb <- fst (both st b) ;; jo <- fst (both st o) ;; Ok (form st n [("if", jt); ("then", jb); ("else", jo)])) in (x, based st n x)
  | PDict n _ => let x := literal st e in (x, based st n x)                                                   (* 274-275 *)
  | PCompare n l r =>                                                                                        (* 277-299 *)
      let x := match r with
               | [] => Raise (PyErr "IndexError")
               | (op, c) :: rest =>
                   last <- fst (both st c) ;; o <- cmp_name op ;; jl <- fst (both st l) ;;
                   (fix go (r : list (cmpop * pex)) (last out : val) :=
                      match r with
                      | [] => Ok out
                      | (op, c) :: r' => new <- fst (both st c) ;; o <- cmp_name op ;; go r' new (form st n [("&&", VArr [out; form st n [(o, VArr [last; new])]])])
                      end) rest last (form st n [(o, VArr [jl; last])])
               end in (x, based st n x)
  | PCall n f args kwds =>                                                                                   (* 301-333 *)
      let x := (s <- unfold_name f ;; l <- each args ;;
                let name := call_name s in
                out <- (fix go (k : list (string * pex)) (out : list (string * val)) :=
                          match k with [] => Ok out | (a, y) :: k' => j <- fst (both st y) ;; go k' (dict_set (lower_special a) j out) end)
                       kwds [(name, unwrap name (one_arg l))] ;;
                Ok (form st n out)) in (x, based st n x)
  | PNum n v => (Ok v, based st n (Ok v))                                                                    (* 335-336 *)
  | PStr n s => let x := Ok (VDict [("string", VStr s)]) in (x, based st n x)                                (* 338-339 *)
  | PAttr _ y a => let u := snd (both st y) in let step := VDict [("string", VStr a)] in (u [step], fun path => u (step :: path))     (* 341-342, 368-370 *)
  | PSub _ y i =>                                                                                            (* 344-345, 372-374 *)
      if st_index st then let u := snd (both st y) in let ji := fst (both st i) in ((j <- ji ;; u [j]), fun path => j <- ji ;; u (j :: path)) else (endless, fun _ => endless)
  | PSlice _ _ => (endless, fun _ => endless)
  | PName n s =>                                                                                             (* 347-357 *)
      let x := Ok (match assoc s (st_subs st) with Some v => v | None => VStr s end) in (x, based_name st n s x)
  | PList n _ => let x := literal st e in (x, based st n x)
  | PTuple n l => let x := (l' <- each l ;; Ok (VArr l')) in (x, based st n x)
  | PConst n _ | POther n => let x := no_equivalent in (x, based st n x)
  end.
Definition expression (st : state) (e : pex) : res val := fst (both st e).
Definition unfold (st : state) (e : pex) : list val -> res val := snd (both st e).

(** _statement, 122-198: an assignment of names, an assignment of a tuple, no other assignment; any other statement asks for ast.Print, which there is not *)
Fixpoint name_list (l : list pex) : option (list string) :=
  match l with [] => Some [] | PName _ s :: l' => match name_list l' with Some r => Some (s :: r) | None => None end | _ :: _ => None end.
Fixpoint assign_tuple (st : state) (symbols : list string) (names : list string) (values : list pex) (lets sets : nat) (out : list (string * val))
  : res (list string * nat * nat * list (string * val)) :=
  match names, values with
  | x :: names', v :: values' =>
      let known := memb x symbols in
      j <- expression st v ;;
      assign_tuple st (if known then symbols else x :: symbols) names' values' (if known then lets else S lets) (if known then S sets else sets) (dict_set x j out)
  | _, _ => Ok (symbols, lets, sets, out)
  end.
Definition statement (st : state) (symbols : list string) (s : stmt) : res (list string * val) :=
  match s with
  | Assign n [PName _ x] value =>
      j <- expression st value ;;
      Ok (x :: symbols, form st n [((if memb x symbols then "set" else "let"), VDict [(x, j)])])
  | Assign n [PTuple _ elts] (PTuple _ values) =>
      match name_list elts with
      | Some names =>
          r <- assign_tuple st symbols names values 0 0 [] ;;
          let '(symbols', lets, sets, out) := r in
          match lets, sets with
          | S _, O => Ok (symbols', form st n [("let", VDict out)])
          | O, S _ => Ok (symbols', form st n [("set", VDict out)])
          | _, _ => no_equivalent
          end
      | None => no_equivalent
      end
  | Assign _ _ _ => no_equivalent
  | Statement _ => Raise (PyErr "AttributeError")
  end.
(** _statements, 119-120 *)
Fixpoint statements (st : state) (symbols : list string) (l : list stmt) : res (list val) :=
  match l with [] => Ok [] | s :: l' => r <- statement st symbols s ;; js <- statements st (fst r) l' ;; Ok (snd r :: js) end.
(** pfa, 30-78, and fcn, 80-103, which has no symbols to give *)
Definition pfa (st : state) (symbols : list string) (want_array : bool) (l : list stmt) : res val :=
  js <- statements st symbols l ;; Ok (match js with [j] => if want_array then VArr js else j | _ => VArr js end).
Definition fcn (st : state) (want_array : bool) (params ret : val) (l : list stmt) : res val :=
  j <- pfa st [] want_array l ;; Ok (VDict [("params", params); ("ret", ret); ("do", j)]).
