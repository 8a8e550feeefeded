(** What Python code and PFA expressions are worth, told without the functions of the producer. *)
From Verif Require Import Base PyNum ScopeModel PexModel.
Open Scope string_scope.
Open Scope list_scope.

(** a document without its notes on lines *)
Fixpoint strip (j : val) : val :=
  match j with
  | VArr l => VArr ((fix go (l : list val) := match l with [] => [] | x :: l' => strip x :: go l' end) l)
  | VDict d => VDict ((fix go (d : list (string * val)) := match d with [] => [] | (k, x) :: d' => if String.eqb k "@" then go d' else (k, strip x) :: go d' end) d)
  | _ => j
  end.
(** how often a function is called (or a form used) in a document *)
Fixpoint occurrences (f : string) (j : val) : nat :=
  match j with
  | VArr l => (fix go (l : list val) := match l with [] => O | x :: l' => (occurrences f x + go l')%nat end) l
  | VDict d => (fix go (d : list (string * val)) := match d with [] => O | (k, x) :: d' => ((if String.eqb k f then 1 else 0) + occurrences f x + go d')%nat end) d
  | _ => O
  end.

(** ** the functions of PFA that operators of Python stand for *)
Definition bin_function (op : binop) : option string :=
  match op with Add => Some "+" | Sub => Some "-" | Mult => Some "*" | Div => Some "/" | FloorDiv => Some "//" | Mod => Some "%" | Pow => Some "**"
  | BitAnd => Some "&" | BitOr => Some "|" | BitXor => Some "^" | LShift | RShift | MatMult => None end.
Definition un_function (op : unop) : option string := match op with USub => Some "u-" | NotOp => Some "!" | Invert => Some "~" | UAdd => None end.
Definition cmp_function (op : cmpop) : option string :=
  match op with LtOp => Some "<" | GtOp => Some ">" | LtE => Some "<=" | GtE => Some ">=" | EqOp => Some "==" | NotEq => Some "!=" | IsOp | IsNot | InOp | NotIn => None end.
(** names under which Python code may call functions of the core library *)
Definition python_names : list (string * string) :=
  [("Plus", "+"); ("Minus", "-"); ("Times", "*"); ("Divide", "/"); ("FloorDivide", "//"); ("Modulo", "%"); ("Remainder", "%%"); ("Pow", "**");
   ("Equal", "=="); ("NotEqual", "!="); ("LessThan", "<"); ("LessOrEqual", "<="); ("GreaterThan", ">"); ("GreaterOrEqual", ">="); ("Comparison", "cmp");
   ("Max", "max"); ("Min", "min"); ("XOr", "^^"); ("Not", "!"); ("BitwiseAnd", "&"); ("BitwiseOr", "|"); ("BitwiseXOr", "^"); ("BitwiseNot", "~")].
(** words that are no functions of PFA, and the three functions this file does not speak of *)
Definition forms : list string :=
  ["int"; "long"; "float"; "double"; "string"; "base64"; "type"; "value"; "new"; "do"; "let"; "set"; "attr"; "path"; "to"; "cell"; "pool"; "init"; "if"; "then"; "else"; "cond";
   "while"; "until"; "for"; "step"; "foreach"; "in"; "forkey"; "forval"; "cast"; "cases"; "partial"; "upcast"; "as"; "ifnotnull"; "doc"; "error"; "log"; "namespace"; "params";
   "ret"; "fcn"; "@"; "&&"; "||"].
(** the words of forms, as Python code writes them *)
Definition form_words : list string := filter (fun s => negb (existsb (String.eqb s) ["@"; "&&"; "||"])) forms.
Definition capitalised (s : string) : string := match s with String c r => String (Ascii.ascii_of_nat (Ascii.nat_of_ascii c - 32)) r | EmptyString => EmptyString end.
Definition other_names : list string := ["And"; "Or"; "Negative"].
Definition capital (s : string) : bool :=
  match s with String c _ => let n := Ascii.nat_of_ascii c in (Nat.leb 65 n && Nat.leb n 90)%bool | EmptyString => false end.
(** the function a call is of: a name of the core library, or its own name when that is no other capitalised word and no form *)
Definition call_function (s : string) : option string :=
  match assoc s python_names with Some f => Some f | None => if (capital s || existsb (String.eqb s) forms)%bool then None else Some s end.
Fixpoint dotted (f : pex) : option string :=
  match f with PName _ s => Some s | PAttr _ x a => match dotted x with Some s => Some (s ++ "." ++ a)%string | None => None end | _ => None end.

Section Values.
  Variable V : Type.
  Variable lit : val -> V.                            (* numbers *)
  Variable text : string -> V.                        (* texts *)
  Variable fn : string -> list V -> option V.         (* the functions of PFA; they may fail *)
  Variable get : V -> V -> option V.                  (* items and fields *)
  Variable truth : V -> option bool.                  (* booleans; other values have no truth *)
  Variable of_bool : bool -> V.
  Variable cellv poolv : string -> option V.          (* what is in the cells and pools *)

  (** evaluate in turn until one is false (true) *)
  Fixpoint every (l : list (option V)) : option V :=
    match l with
    | [] => Some (of_bool true)
    | Some v :: l' => match truth v with Some true => every l' | Some false => Some (of_bool false) | None => None end
    | None :: _ => None
    end.
  Fixpoint any (l : list (option V)) : option V :=
    match l with
    | [] => Some (of_bool false)
    | Some v :: l' => match truth v with Some false => any l' | Some true => Some (of_bool true) | None => None end
    | None :: _ => None
    end.
  Definition choose (t b o : option V) : option V := match t with Some v => match truth v with Some true => b | Some false => o | None => None end | None => None end.
  Fixpoint all_some (l : list (option V)) : option (list V) :=
    match l with [] => Some [] | Some v :: l' => match all_some l' with Some r => Some (v :: r) | None => None end | None :: _ => None end.
  Definition apply (f : string) (l : list (option V)) : option V := match all_some l with Some vs => fn f vs | None => None end.
  Definition item (x i : option V) : option V := match x, i with Some v, Some k => get v k | _, _ => None end.

  (** *** PFA *)
  Fixpoint meaning (env : string -> option V) (j : val) {struct j} : option V :=
    let each := fix go (l : list val) := match l with [] => [] | x :: l' => meaning env x :: go l' end in
    match j with
    | VStr s => env s
    | VInt _ | VFlt _ => Some (lit j)
    | VDict [(k, x)] =>
        if String.eqb k "string" then match x with VStr s => Some (text s) | _ => None end
        else if String.eqb k "&&" then match x with VArr [a; b] => every [meaning env a; meaning env b] | _ => None end
        else if String.eqb k "||" then match x with VArr [a; b] => any [meaning env a; meaning env b] | _ => None end
        else if existsb (String.eqb k) forms then None
        else match x with VArr l => apply k (each l) | _ => apply k [meaning env x] end
    | VDict [(k, x); (p, VArr l)] =>
        if negb (String.eqb p "path") then None
        else if String.eqb k "attr" then fold_left item (each l) (meaning env x)
        else if String.eqb k "cell" then match x with VStr c => fold_left item (each l) (cellv c) | _ => None end
        else if String.eqb k "pool" then match x with VStr c => fold_left item (each l) (poolv c) | _ => None end
        else None
    | VDict [(i, x); (t, y); (e, z)] =>
        if (String.eqb i "if" && String.eqb t "then" && String.eqb e "else")%bool then choose (meaning env x) (meaning env y) (meaning env z) else None
    | _ => None
    end.
  (** programs of let and set: let declares, set changes what is declared; all values are taken before *)
  Definition run1 (env : list (string * V)) (j : val) : option (list (string * V)) :=
    match j with
    | VDict [(k, VDict d)] =>
        match all_some (map (fun kx => meaning (fun s => assoc s env) (snd kx)) d) with
        | Some vs =>
            if (String.eqb k "let" && forallb (fun kx => negb (has_key (fst kx) env)) d) || (String.eqb k "set" && forallb (fun kx => has_key (fst kx) env) d)
            then Some (fold_left (fun e kv => dict_set (fst kv) (snd kv) e) (combine (map fst d) vs) env) else None
        | None => None
        end
    | _ => None
    end.
  Fixpoint run (env : list (string * V)) (l : list val) : option (list (string * V)) :=
    match l with [] => Some env | j :: l' => match run1 env j with Some env' => run env' l' | None => None end end.

  (** *** Python *)
  Variable st : state.
  (** names stand for cells, pools, the expressions that are to be put for them, or variables *)
  Definition name_value (env : string -> option V) (s : string) : option V :=
    if memb s (st_cells st) then cellv s else if memb s (st_pools st) then poolv s
    else match assoc s (st_subs st) with Some j => meaning env (strip j) | None => env s end.
  Definition two (f : option string) (a b : option V) : option V := match f with Some g => apply g [a; b] | None => None end.
  Fixpoint python (env : string -> option V) (e : pex) {struct e} : option V :=
    let each := fix go (l : list pex) := match l with [] => [] | x :: l' => python env x :: go l' end in
    match e with
    | PNum _ v => Some (lit v)
    | PStr _ s => Some (text s)
    | PName _ s => name_value env s
    | PBool _ a l => if a then every (each l) else any (each l)
    | PBin _ op l r => two (bin_function op) (python env l) (python env r)
    | PUn _ op x => match un_function op with Some f => apply f [python env x] | None => None end
    | PIf _ t b o => choose (python env t) (python env b) (python env o)
    | PCompare _ l r =>
        match (fix go (x : option V) (r : list (cmpop * pex)) := match r with [] => [] | (op, y) :: r' => two (cmp_function op) x (python env y) :: go (python env y) r' end) (python env l) r with
        | [x] => x
        | xs => every xs
        end
    | PCall _ f args [] => match dotted f with Some s => match call_function s with Some g => apply g (each args) | None => None end | None => None end
    | PAttr _ x a => item (python env x) (Some (text a))
    | PSub _ x i => item (python env x) (python env i)
    | _ => None
    end.
  Fixpoint names_of (l : list pex) : option (list string) :=
    match l with [] => Some [] | PName _ s :: l' => match names_of l' with Some r => Some (s :: r) | None => None end | _ => None end.
  (** assignments: of one name, and of as many names as there are values, all taken before *)
  Definition step (env : list (string * V)) (s : stmt) : option (list (string * V)) :=
    match s with
    | Assign _ [PName _ x] e => match python (fun s => assoc s env) e with Some v => Some (dict_set x v env) | None => None end
    | Assign _ [PTuple _ elts] (PTuple _ values) =>
        match names_of elts, all_some (map (python (fun s => assoc s env)) values) with
        | Some ns, Some vs => if Nat.eqb (length ns) (length vs) then Some (fold_left (fun e kv => dict_set (fst kv) (snd kv) e) (combine ns vs) env) else None
        | _, _ => None
        end
    | _ => None
    end.
  Fixpoint steps (env : list (string * V)) (l : list stmt) : option (list (string * V)) :=
    match l with [] => Some env | s :: l' => match step env s with Some env' => steps env' l' | None => None end end.
End Values.

(** ** expressions that have their like in PFA *)
Section Fits.
  Variable st : state.
  (** cells and pools are used by items only; no subscripts where Python has no Index *)
  Fixpoint fits (e : pex) : Prop :=
    let each := fix go (l : list pex) : Prop := match l with [] => True | x :: l' => fits x /\ go l' end in
    match e with
    | PNum _ v => match v with VInt _ | VFlt _ => True | _ => False end
    | PStr _ _ => True
    | PName _ s => memb s (st_cells st) = false /\ memb s (st_pools st) = false
    | PBool _ _ l => (2 <= length l)%nat /\ each l
    | PBin _ op l r => bin_function op <> None /\ fits l /\ fits r
    | PUn _ op x => un_function op <> None /\ fits x
    | PIf _ t b o => fits t /\ fits b /\ fits o
    | PCompare _ l r => r <> [] /\ fits l /\ (fix go (r : list (cmpop * pex)) : Prop := match r with [] => True | (op, x) :: r' => (cmp_function op <> None /\ fits x) /\ go r' end) r
    | PCall _ f args kwds => (exists s, dotted f = Some s /\ call_function s <> None) /\ kwds = [] /\ each args
    | PAttr _ x _ => match x with PName _ _ => True | _ => fits x end
    | PSub _ x i => st_index st = true /\ match x with PName _ _ => True | _ => fits x end /\ fits i
    | _ => False
    end.
  (** no name of Python is "@" *)
  Definition named (s : stmt) : Prop :=
    match s with
    | Assign _ [PName _ x] _ => x <> "@"
    | Assign _ [PTuple _ elts] _ => match names_of elts with Some ns => ~ In "@" ns | None => True end
    | _ => True
    end.
  Definition fits_statement (s : stmt) : Prop :=
    match s with Assign _ [PName _ _] e => fits e | Assign _ [PTuple _ elts] (PTuple _ values) => names_of elts <> None /\ Forall fits values | _ => False end.
End Fits.

(** documents that declare a name once, and before they change it *)
Inductive scoped : list string -> list val -> Prop :=
| scoped_nil : forall known, scoped known []
| scoped_let : forall known d l, d <> [] -> NoDup (map fst d) -> (forall x, In x (map fst d) -> ~ In x known) -> scoped (map fst d ++ known) l -> scoped known (VDict [("let", VDict d)] :: l)
| scoped_set : forall known d l, d <> [] -> NoDup (map fst d) -> incl (map fst d) known -> scoped known l -> scoped known (VDict [("set", VDict d)] :: l).

(** a subscript or slice anywhere in the expression *)
Fixpoint subscripted (e : pex) : Prop :=
  let each := fix go (l : list pex) : Prop := match l with [] => False | x :: l' => subscripted x \/ go l' end in
  match e with
  | PSub _ _ _ | PSlice _ _ => True
  | PBool _ _ l => each l
  | PBin _ _ l r => subscripted l \/ subscripted r
  | PUn _ _ x | PAttr _ x _ => subscripted x
  | PIf _ t b o => subscripted t \/ subscripted b \/ subscripted o
  | PCompare _ l r => subscripted l \/ (fix go (r : list (cmpop * pex)) : Prop := match r with [] => False | (_, x) :: r' => subscripted x \/ go r' end) r
  | PCall _ _ args kwds => each args \/ (fix go (k : list (string * pex)) : Prop := match k with [] => False | (_, x) :: k' => subscripted x \/ go k' end) kwds
  | PList _ l | PTuple _ l => each l
  | PDict _ l => (fix go (l : list (pex * pex)) : Prop := match l with [] => False | (k, x) :: l' => subscripted x \/ go l' end) l
  | _ => False
  end.
(** no call has a call of String as its only argument *)
Definition string_call (e : pex) : bool :=
  match e with PCall _ f _ _ => match dotted f with Some s => (String.eqb s "String" || String.eqb s "string")%bool | None => false end | _ => false end.
Fixpoint no_string_calls (e : pex) : Prop :=
  let each := fix go (l : list pex) : Prop := match l with [] => True | x :: l' => no_string_calls x /\ go l' end in
  match e with
  | PBool _ _ l => each l
  | PBin _ _ l r => no_string_calls l /\ no_string_calls r
  | PUn _ _ x | PAttr _ x _ => no_string_calls x
  | PSub _ x i => no_string_calls x /\ no_string_calls i
  | PIf _ t b o => no_string_calls t /\ no_string_calls b /\ no_string_calls o
  | PCompare _ l r => no_string_calls l /\ (fix go (r : list (cmpop * pex)) : Prop := match r with [] => True | (_, x) :: r' => no_string_calls x /\ go r' end) r
  | PCall _ _ args kwds =>
      match args with [x] => string_call x = false | _ => True end /\ each args /\
      (fix go (k : list (string * pex)) : Prop := match k with [] => True | (_, x) :: k' => no_string_calls x /\ go k' end) kwds
  | PTuple _ l => each l
  | _ => True
  end.
