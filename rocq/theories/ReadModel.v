(** Reading a document into a syntax tree and writing the tree back: titus/reader.py:294-995 and the jsonNode methods of
    titus/pfaast.py. A document is the tree that json.loads gives (dicts have unique keys, no bytes). Simplified:
    - A type is the JSON that describes it. The code resolves descriptions later and writes a named type in full only
      the first time (the [memo] argument of jsonNode); resolving is DeclModel.
    - json.dumps of a value and json.loads of the text are left out: a value stays a tree.
    - Positions ("@") are dropped; jsonNode is called with lineNumbers=False.
    - Fields are read in the order of the document. The code iterates over a set, so which of several errors is raised
      first is not determined there.
    - The reader recurses to any depth (Python's recursion limit is left out); [n] bounds the depth and running out
      of it is the exception "fuel". *)
From Verif Require Import Base PyNum ScopeModel.
From Verif Require SnapModel.
From Coq Require Import Ascii.
Open Scope string_scope.
Open Scope list_scope.
Open Scope Z_scope.

Definition syntax {A} : res A := Raise (PyErr "PFASyntaxException").
Definition unbound {A} : res A := Raise (PyErr "UnboundLocalError").

(** What the reader takes from Python: int(text) or ValueError (reader.py:588), base64.b64decode with the conversion to
    text (497) and its inverse (pfaast.py:2515), and the JSON that a cell with a "source" fetches (1180-1184). *)
Record outside := Outside {
  int_of : string -> option Z;
  b64_dec : string -> res string;
  b64_enc : string -> string;
  fetch : string -> string -> val }.

(** ** Names *)
Definition alpha (c : ascii) : bool :=
  let n := nat_of_ascii c in ((Nat.leb 65 n && Nat.leb n 90) || (Nat.leb 97 n && Nat.leb n 122))%bool.
Definition word (c : ascii) : bool :=
  let n := nat_of_ascii c in (alpha c || (Nat.leb 48 n && Nat.leb n 57) || Nat.eqb n 95)%bool.
Definition newline (c : ascii) : bool := Nat.eqb (nat_of_ascii c) 10.
Definition first_char (c : ascii) : bool := (alpha c || Nat.eqb (nat_of_ascii c) 95)%bool.
(** the rest of a name; "$" also matches before a newline at the end *)
Fixpoint words (s : string) : bool :=
  match s with
  | EmptyString => true
  | String c r => if word c then words r else (newline c && match r with EmptyString => true | _ => false end)%bool
  end.
(** pfaast.py:107-115: ^[A-Za-z_][A-Za-z0-9_]*$ *)
Definition valid_symbol (s : string) : bool :=
  match s with EmptyString => false | String c r => (first_char c && words r)%bool end.
(** pfaast.py:306-314: ^[A-Za-z_]([A-Za-z0-9_]|\.[A-Za-z][A-Za-z0-9_]* )*$ *)
Fixpoint dotted (s : string) : bool :=
  match s with
  | EmptyString => true
  | String c r =>
      if word c then dotted r
      else if Ascii.eqb c "." then match r with String c' r' => (alpha c' && dotted r')%bool | EmptyString => false end
      else (newline c && match r with EmptyString => true | _ => false end)%bool
  end.
Definition valid_function (s : string) : bool :=
  match s with EmptyString => false | String c r => (first_char c && dotted r)%bool end.
(** data.split(".") *)
Fixpoint split_dots (s : string) : string * list string :=
  match s with
  | EmptyString => (EmptyString, [])
  | String c r => let (w, ws) := split_dots r in
                  if Ascii.eqb c "." then (EmptyString, w :: ws) else (String c w, ws)
  end.

(** ** Syntax trees, pfaast.py:1409-6290. A literal integer keeps the Python object, which may be a boolean. *)
Inductive node :=
| ANull | ABool (b : bool) | AInt (v : val) | ALong (v : val) | AFloat (f : pf) | ADouble (f : pf)
| AStr (s : string) | ABase64 (s : string) | ALit (t v : val)
| ANewObj (fs : list (string * node)) (t : val) | ANewArr (xs : list node) (t : val)
| ADo (body : list node) | ALet (fs : list (string * node)) | ASet (fs : list (string * node))
| ARef (x : string)
| AAttrGet (e : node) (path : list node) | AAttrTo (e : node) (path : list node) (to : node)
| ACellGet (c : string) (path : list node) | ACellTo (c : string) (path : list node) (to : node)
| APoolGet (p : string) (path : list node) | APoolTo (p : string) (path : list node) (to init : node)
| APoolDel (p : string) (e : node)
| AIf (p : node) (yes : list node) (no : option (list node))
| ACond (ifs : list node) (no : option (list node))
| AWhile (p : node) (body : list node) | AUntil (body : list node) (p : node)
| AFor (start : list (string * node)) (p : node) (step : list (string * node)) (body : list node)
| AForeach (x : string) (e : node) (body : list node) (seq : bool)
| AForkey (k v : string) (e : node) (body : list node)
| ACast (e : node) (cases : list (val * string * list node)) (partial : bool)
| AUpcast (e : node) (t : val)
| AIfNotNull (fs : list (string * node)) (yes : list node) (no : option (list node))
| APack (l : list (string * node))
| AUnpack (e : node) (format : list (string * string)) (yes : list node) (no : option (list node))
| ADoc (s : string) | AError (s : string) (code : option val)
| ATry (xs : list node) (filter : option (list val)) | ALog (xs : list node) (space : option string)
| AFcnDef (params : list (string * val)) (ret : val) (body : list node)
| AFcnRef (f : string) | AFcnFill (f : string) (fill : list (string * node))
| ACallUser (e : node) (args : list node) | ACall (f : string) (args : list node).

(** Expressions are arguments that are not functions (class Expression(Argument), pfaast.py:1350; FcnDef, FcnRef and
    FcnRefFill are Arguments only). *)
Definition is_expr (a : node) : bool :=
  match a with AFcnDef _ _ _ | AFcnRef _ | AFcnFill _ _ => false | _ => true end.

(** ** Writing: the jsonNode methods *)
Definition dict_if {A} (k : string) (f : A -> val) (o : option A) : list (string * val) :=
  match o with Some x => [(k, f x)] | None => [] end.
Section Write.
  Context (E : outside).
  Fixpoint write (a : node) : val :=
    let many := fun l => VArr (map write l) in
    let named := fun fs => VDict (map (fun p => (fst p, write (snd p))) fs) in
    match a with
    | ANull => VNull                                                                                  (* 2128 *)
    | ABool b => VBool b                                                                              (* 2182 *)
    | AInt v => v                                                                                     (* 2237 *)
    | ALong v => VDict [("long", v)]                                                                  (* 2292 *)
    | AFloat f => VDict [("float", VFlt f)]                                                           (* 2349 *)
    | ADouble f => VFlt f                                                                             (* 2406 *)
    | AStr s => VDict [("string", VStr s)]                                                            (* 2461 *)
    | ABase64 s => VDict [("base64", VStr (b64_enc E s))]                                             (* 2518 *)
    | ALit t v => VDict [("type", t); ("value", v)]                                                   (* 2590 *)
    | ANewObj fs t => VDict [("type", t); ("new", named fs)]                                          (* 2722 *)
    | ANewArr xs t => VDict [("type", t); ("new", many xs)]                                           (* 2845 *)
    | ADo body => VDict [("do", many body)]                                                           (* 2942 *)
    | ALet fs => VDict [("let", named fs)]                                                            (* 3058 *)
    | ASet fs => VDict [("set", named fs)]                                                            (* 3170 *)
    | ARef x => VStr x                                                                                (* 2071 *)
    | AAttrGet e p => VDict [("attr", write e); ("path", many p)]                                     (* 3272 *)
    | AAttrTo e p to => VDict [("attr", write e); ("path", many p); ("to", write to)]                 (* 3402 *)
    | ACellGet c p => VDict (("cell", VStr c) :: match p with [] => [] | _ => [("path", many p)] end) (* 3507 *)
    | ACellTo c p to =>
        VDict (("cell", VStr c) :: match p with [] => [("to", write to)] | _ => [("path", many p); ("to", write to)] end)  (* 3634 *)
    | APoolGet c p => VDict [("pool", VStr c); ("path", many p)]                                      (* 3740 *)
    | APoolTo c p to init => VDict [("pool", VStr c); ("path", many p); ("to", write to); ("init", write init)]  (* 3882 *)
    | APoolDel c e => VDict [("pool", VStr c); ("del", write e)]                                      (* 3992 *)
    | AIf p yes no => VDict ([("if", write p); ("then", many yes)] ++ dict_if "else" many no)         (* 4130 *)
    | ACond ifs no => VDict ([("cond", many ifs)] ++ dict_if "else" many no)                          (* 4284 *)
    | AWhile p body => VDict [("while", write p); ("do", many body)]                                  (* 4394 *)
    | AUntil body p => VDict [("do", many body); ("until", write p)]                                  (* 4502 *)
    | AFor i p s body => VDict [("for", named i); ("while", write p); ("step", named s); ("do", many body)]  (* 4665 *)
    | AForeach x e body seq =>
        VDict [("foreach", VStr x); ("in", write e); ("do", many body); ("seq", VBool seq)]           (* 4806 *)
    | AForkey k v e body => VDict [("forkey", VStr k); ("forval", VStr v); ("in", write e); ("do", many body)]  (* 4947 *)
    | ACast e cases partial =>
        VDict [("cast", write e);
               ("cases", VArr (map (fun c => VDict [("as", fst (fst c)); ("named", VStr (snd (fst c))); ("do", many (snd c))]) cases));
               ("partial", VBool partial)]                                                            (* 5064, 5200 *)
    | AUpcast e t => VDict [("upcast", write e); ("as", t)]                                           (* 5306 *)
    | AIfNotNull fs yes no => VDict ([("ifnotnull", named fs); ("then", many yes)] ++ dict_if "else" many no)  (* 5466 *)
    | APack l => VDict [("pack", VArr (map (fun p => VDict [(fst p, write (snd p))]) l))]             (* 5777 *)
    | AUnpack e fmt yes no =>
        VDict ([("unpack", write e); ("format", VArr (map (fun p => VDict [(fst p, VStr (snd p))]) fmt));
                ("then", many yes)] ++ dict_if "else" many no)                                        (* 5939 *)
    | ADoc s => VDict [("doc", VStr s)]                                                               (* 6003 *)
    | AError s code => VDict (("error", VStr s) :: dict_if "code" (fun v => v) code)                  (* 6067 *)
    | ATry xs filter => VDict (("try", many xs) :: dict_if "filter" VArr filter)                      (* 6177 *)
    | ALog xs space => VDict (("log", many xs) :: dict_if "namespace" VStr space)                     (* 6274 *)
    | AFcnDef params ret body =>
        VDict [("params", VArr (map (fun p => VDict [p]) params)); ("ret", ret); ("do", many body)]   (* 1524 *)
    | AFcnRef f => VDict [("fcn", VStr f)]                                                            (* 1603 *)
    | AFcnFill f fill => VDict [("fcn", VStr f); ("fill", named fill)]                                (* 1741 *)
    | ACallUser e args => VDict [("call", write e); ("args", many args)]                              (* 1881 *)
    | ACall f args => VDict [(f, many args)]                                                          (* 2013 *)
    end.
End Write.

(** ** Reading *)
(** the entries of a dict that are not position marks *)
Definition unmarked {A} (d : list (string * A)) : list (string * A) := filter (fun p => negb (String.eqb (fst p) "@")) d.
Definition strip := SnapModel.strip.

(** 393-415, 483-493 *)
Definition read_bool (v : val) : res val := match v with VBool _ => Ok v | _ => syntax end.
Definition read_int (v : val) : res val :=
  match v with
  | VBool _ => Ok v
  | VInt z => if ((-2147483648 <=? z) && (z <=? 2147483647))%bool then Ok v else syntax
  | _ => syntax
  end.
Definition read_long (v : val) : res val :=
  match v with
  | VBool _ => Ok v
  | VInt z => if ((-9223372036854775808 <=? z) && (z <=? 9223372036854775807))%bool then Ok v else syntax
  | _ => syntax
  end.
(** 417-427: float(data) *)
Definition read_float (v : val) : res val :=
  match v with
  | VBool b => f <- py_float (if b then 1 else 0) ;; Ok (VFlt f)
  | VInt z => f <- py_float z ;; Ok (VFlt f)
  | VFlt _ => Ok v
  | _ => syntax
  end.
Definition read_string (v : val) : res string := match v with VStr s => Ok s | _ => syntax end.
Definition read_string_or_int (v : val) : res val := match v with VStr _ | VInt _ | VBool _ => Ok v | _ => syntax end.
(** 470-481 *)
Definition read_array {A} (f : val -> res A) (v : val) : res (list A) := match v with VArr l => rmapM f l | _ => syntax end.
Definition read_map {A} (f : val -> res A) (v : val) : res (list (string * A)) :=
  match v with VDict d => rmapM (fun p => x <- f (snd p) ;; Ok (fst p, x)) (unmarked d) | _ => syntax end.
(** 445-462 and 853-866: an array of dicts of one entry *)
Definition read_single {A} (f : val -> res A) (v : val) : res (string * A) :=
  m <- read_map f v ;; match m with [p] => Ok p | _ => syntax end.

Section Read.
  Context (E : outside).

  (** The local variables that _readArgument fills, 617-724: one for every field. *)
  Inductive slot :=
  | SVal (v : val) | SText (s : string) | SList (l : list node) | SMap (m : list (string * node)) | SNode (a : node)
  | SCases (l : list (val * string * list node)) | SParams (l : list (string * val)) | SFilter (l : list val)
  | SPairs (l : list (string * string)) | SPack (l : option (list (string * node))) | SCall (l : list node).
  Inductive kind :=
  | KInt | KLong | KFloat | KString | KBase64 | KJson | KMap | KBody | KExprs | KExpr | KCond | KCases | KBool | KNew
  | KParams | KArg | KArgMap | KFilter | KPairs | KPack.

  (** 618-717 *)
  Definition kinds : list (string * kind) :=
    [("int", KInt); ("long", KLong); ("float", KFloat); ("double", KFloat); ("string", KString); ("base64", KBase64);
     ("type", KJson); ("value", KJson);
     ("let", KMap); ("set", KMap); ("for", KMap); ("step", KMap); ("ifnotnull", KMap);
     ("do", KBody); ("then", KBody); ("else", KBody); ("log", KBody); ("path", KExprs); ("args", KExprs); ("try", KBody);
     ("attr", KExpr); ("if", KExpr); ("while", KExpr); ("until", KExpr); ("unpack", KExpr); ("del", KExpr);
     ("cond", KCond); ("cases", KCases);
     ("foreach", KString); ("forkey", KString); ("forval", KString); ("fcn", KString); ("cell", KString); ("pool", KString);
     ("in", KExpr); ("cast", KExpr); ("upcast", KExpr); ("init", KExpr); ("call", KExpr);
     ("seq", KBool); ("partial", KBool); ("doc", KString); ("error", KString); ("code", KInt); ("namespace", KString);
     ("new", KNew); ("params", KParams); ("ret", KJson); ("as", KJson); ("to", KArg); ("fill", KArgMap);
     ("filter", KFilter); ("format", KPairs); ("pack", KPack)].

  Section Fields.
    Context (reader : val -> res node).
    (** 545-550 *)
    Definition read_expr (v : val) : res node := a <- reader v ;; if is_expr a then Ok a else syntax.
    (** 633-637 and the like: an array of expressions, or one expression *)
    Definition read_body (v : val) : res (list node) :=
      match v with VArr l => rmapM read_expr l | _ => a <- read_expr v ;; Ok [a] end.
    (** 853-866: [at] has no value when data is not a dict *)
    Definition read_param (v : val) : res (string * val) :=
      match v with
      | VDict d => match unmarked d with
                   | [(x, t)] => if valid_symbol x then Ok (x, strip t) else syntax
                   | _ => syntax
                   end
      | _ => unbound
      end.
    (** 672: any(x.elseClause is not None for x in _cond) *)
    Definition else_of (a : node) : option (option (list node)) :=
      match a with
      | AIf _ _ no | ACond _ no | AIfNotNull _ _ no | AUnpack _ _ _ no => Some no
      | _ => None
      end.
    Fixpoint any_else (l : list node) : res bool :=
      match l with
      | [] => Ok false
      | a :: l' => match else_of a with
                   | None => Raise (PyErr "AttributeError")
                   | Some (Some _) => Ok true
                   | Some None => any_else l'
                   end
      end.
    (** a field of a cast case, 526-534 *)
    Definition case_field (p : string * val) : res (string * slot) :=
      let (k, v) := p in
      if String.eqb k "as" then Ok (k, SVal (strip v))
      else if String.eqb k "named" then s <- read_string v ;; Ok (k, SText s)
      else if String.eqb k "do" then l <- read_body v ;; Ok (k, SList l)
      else syntax.
    (** CastCase, 4966-4996 *)
    Definition make_case (t : val) (x : string) (body : list node) : res (val * string * list node) :=
      match body with [] => syntax | _ => if valid_symbol x then Ok (t, x, body) else syntax end.
    (** 520-543: [keys] has no value when data is not a dict *)
    Definition read_case (v : val) : res (val * string * list node) :=
      match v with
      | VDict d =>
          fs <- rmapM case_field (unmarked d) ;;
          ok <- match assoc "named" fs with
                | Some (SText x) => if valid_symbol x then Ok tt else syntax
                | _ => Ok tt
                end ;;
          match assoc "as" fs, assoc "named" fs, assoc "do" fs with
          | Some (SVal t), Some (SText x), Some (SList body) => make_case t x body
          | _, _, _ => syntax
          end
      | _ => unbound
      end.

    (** one field, 618-717 *)
    Definition read_kind (k : kind) (v : val) : res slot :=
      match k with
      | KInt => x <- read_int v ;; Ok (SVal x)
      | KLong => x <- read_long v ;; Ok (SVal x)
      | KFloat => x <- read_float v ;; Ok (SVal x)
      | KBool => x <- read_bool v ;; Ok (SVal x)
      | KString => s <- read_string v ;; Ok (SText s)
      | KBase64 => s <- read_string v ;; r <- b64_dec E s ;; Ok (SText r)
      | KJson => Ok (SVal (strip v))
      | KMap => m <- read_map read_expr v ;; Ok (SMap m)
      | KArgMap => m <- read_map reader v ;; Ok (SMap m)
      | KBody => l <- read_body v ;; Ok (SList l)
      | KExprs => l <- read_array read_expr v ;; Ok (SList l)
      | KExpr => a <- read_expr v ;; Ok (SNode a)
      | KArg => a <- reader v ;; Ok (SNode a)
      | KCond => l <- read_array read_expr v ;; b <- any_else l ;; if b then syntax else Ok (SList l)
      | KCases => l <- read_array read_case v ;; Ok (SCases l)
      | KNew => match v with
                | VDict _ => m <- read_map read_expr v ;; Ok (SMap m)
                | VArr _ => l <- read_array read_expr v ;; Ok (SList l)
                | _ => syntax
                end
      | KParams => l <- read_array read_param v ;; Ok (SParams l)
      | KFilter => l <- read_array read_string_or_int v ;; Ok (SFilter l)
      | KPairs => l <- read_array (read_single read_string) v ;; Ok (SPairs l)
      | KPack => match v with
                 | VArr l => m <- rmapM (read_single read_expr) l ;; Ok (SPack (Some m))
                 | _ => Ok (SPack None)                  (* 443 returns the exception instead of raising it *)
                 end
      end.
    (** 617-724; any other field is the name of a function *)
    Definition read_field (p : string * val) : res (string * slot) :=
      let (k, v) := p in
      match assoc k kinds with
      | Some kd => x <- read_kind kd v ;; Ok (k, x)
      | None => match v with
                | VArr l => args <- rmapM reader l ;; Ok (k, SCall args)
                | _ => a <- reader v ;; Ok (k, SCall [a])
                end
      end.
  End Fields.

  Definition fields := list (string * slot).
  Definition get {A} (pick : slot -> option A) (k : string) (fs : fields) : res A :=
    match assoc k fs with
    | Some x => match pick x with Some a => Ok a | None => unbound end
    | None => unbound
    end.
  Definition gval := get (fun x => match x with SVal v => Some v | _ => None end).
  Definition gtext := get (fun x => match x with SText s => Some s | _ => None end).
  Definition glist := get (fun x => match x with SList l => Some l | _ => None end).
  Definition gmap := get (fun x => match x with SMap m => Some m | _ => None end).
  Definition gnode := get (fun x => match x with SNode a => Some a | _ => None end).
  Definition gflt := get (fun x => match x with SVal (VFlt f) => Some f | _ => None end).
  Definition gbool := get (fun x => match x with SVal (VBool b) => Some b | _ => None end).
  Definition gcases := get (fun x => match x with SCases l => Some l | _ => None end).
  Definition gparams := get (fun x => match x with SParams l => Some l | _ => None end).
  Definition gfilter := get (fun x => match x with SFilter l => Some l | _ => None end).
  Definition gpairs := get (fun x => match x with SPairs l => Some l | _ => None end).
  Definition gpack := get (fun x => match x with SPack l => Some l | _ => None end).
  Definition gcall := get (fun x => match x with SCall l => Some l | _ => None end).
  Definition or_else {A} (present : bool) (m : res A) (dflt : A) : res A := if present then m else Ok dflt.

  (** the checks of the constructors: lists that must not be empty *)
  Definition some {A} (l : list A) : res (list A) := match l with [] => syntax | _ => Ok l end.
  Definition some_opt {A} (l : option (list A)) : res (option (list A)) := match l with Some [] => syntax | _ => Ok l end.
  Definition is_if (a : node) : bool := match a with AIf _ _ _ => true | _ => false end.
  (** Error, 6042-6044: the code is negative *)
  Definition negative (v : val) : bool := match v with VInt z => z <? 0 | _ => false end.

  (** 735-799: the special forms, each with its set of fields and the node it makes (with the checks of the constructor) *)
  Definition forms : list (list string * (fields -> res node)) :=
    [(["int"], fun fs => v <- gval "int" fs ;; Ok (AInt v));
     (["long"], fun fs => v <- gval "long" fs ;; Ok (ALong v));
     (["float"], fun fs => f <- gflt "float" fs ;; Ok (AFloat f));
     (["double"], fun fs => f <- gflt "double" fs ;; Ok (ADouble f));
     (["string"], fun fs => s <- gtext "string" fs ;; Ok (AStr s));
     (["base64"], fun fs => s <- gtext "base64" fs ;; Ok (ABase64 s));
     (["type"; "value"], fun fs => t <- gval "type" fs ;; v <- gval "value" fs ;; Ok (ALit t v));
     (["new"; "type"], fun fs =>
        t <- gval "type" fs ;;
        match assoc "new" fs with
        | Some (SMap m) => Ok (ANewObj m t)
        | Some (SList l) => Ok (ANewArr l t)
        | _ => unbound
        end);
     (["do"], fun fs => l <- glist "do" fs ;; l <- some l ;; Ok (ADo l));
     (["let"], fun fs => m <- gmap "let" fs ;; m <- some m ;; Ok (ALet m));
     (["set"], fun fs => m <- gmap "set" fs ;; m <- some m ;; Ok (ASet m));
     (["attr"; "path"], fun fs => e <- gnode "attr" fs ;; p <- glist "path" fs ;; p <- some p ;; Ok (AAttrGet e p));
     (["attr"; "path"; "to"], fun fs =>
        e <- gnode "attr" fs ;; p <- glist "path" fs ;; to <- gnode "to" fs ;; p <- some p ;; Ok (AAttrTo e p to));
     (["cell"], fun fs => c <- gtext "cell" fs ;; Ok (ACellGet c []));
     (["cell"; "path"], fun fs => c <- gtext "cell" fs ;; p <- glist "path" fs ;; Ok (ACellGet c p));
     (["cell"; "to"], fun fs => c <- gtext "cell" fs ;; to <- gnode "to" fs ;; Ok (ACellTo c [] to));
     (["cell"; "path"; "to"], fun fs =>
        c <- gtext "cell" fs ;; p <- glist "path" fs ;; to <- gnode "to" fs ;; Ok (ACellTo c p to));
     (["pool"; "path"], fun fs => c <- gtext "pool" fs ;; p <- glist "path" fs ;; p <- some p ;; Ok (APoolGet c p));
     (["pool"; "path"; "to"; "init"], fun fs =>
        c <- gtext "pool" fs ;; p <- glist "path" fs ;; to <- gnode "to" fs ;; i <- gnode "init" fs ;;
        p <- some p ;; Ok (APoolTo c p to i));
     (["pool"; "del"], fun fs => c <- gtext "pool" fs ;; e <- gnode "del" fs ;; Ok (APoolDel c e));
     (["if"; "then"], fun fs => p <- gnode "if" fs ;; y <- glist "then" fs ;; y <- some y ;; Ok (AIf p y None));
     (["if"; "then"; "else"], fun fs =>
        p <- gnode "if" fs ;; y <- glist "then" fs ;; e <- glist "else" fs ;; y <- some y ;; e <- some e ;; Ok (AIf p y (Some e)));
     (["cond"], fun fs => l <- glist "cond" fs ;; if forallb is_if l then l <- some l ;; Ok (ACond l None) else syntax);
     (["cond"; "else"], fun fs =>
        l <- glist "cond" fs ;; e <- glist "else" fs ;;
        if forallb is_if l then l <- some l ;; e <- some e ;; Ok (ACond l (Some e)) else syntax);
     (["while"; "do"], fun fs => p <- gnode "while" fs ;; b <- glist "do" fs ;; Ok (AWhile p b));
     (["do"; "until"], fun fs => b <- glist "do" fs ;; p <- gnode "until" fs ;; Ok (AUntil b p));
     (["for"; "while"; "step"; "do"], fun fs =>
        i <- gmap "for" fs ;; p <- gnode "while" fs ;; s <- gmap "step" fs ;; b <- glist "do" fs ;;
        i <- some i ;; s <- some s ;; b <- some b ;; Ok (AFor i p s b));
     (["foreach"; "in"; "do"], fun fs =>
        x <- gtext "foreach" fs ;; e <- gnode "in" fs ;; b <- glist "do" fs ;; b <- some b ;; Ok (AForeach x e b true));
     (["foreach"; "in"; "do"; "seq"], fun fs =>
        x <- gtext "foreach" fs ;; e <- gnode "in" fs ;; b <- glist "do" fs ;; q <- gbool "seq" fs ;;
        b <- some b ;; Ok (AForeach x e b q));
     (["forkey"; "forval"; "in"; "do"], fun fs =>
        k <- gtext "forkey" fs ;; v <- gtext "forval" fs ;; e <- gnode "in" fs ;; b <- glist "do" fs ;;
        b <- some b ;; Ok (AForkey k v e b));
     (["cast"; "cases"], fun fs => e <- gnode "cast" fs ;; l <- gcases "cases" fs ;; Ok (ACast e l false));
     (["cast"; "cases"; "partial"], fun fs =>
        e <- gnode "cast" fs ;; l <- gcases "cases" fs ;; b <- gbool "partial" fs ;; Ok (ACast e l b));
     (["upcast"; "as"], fun fs => e <- gnode "upcast" fs ;; t <- gval "as" fs ;; Ok (AUpcast e t));
     (["ifnotnull"; "then"], fun fs =>
        m <- gmap "ifnotnull" fs ;; y <- glist "then" fs ;; m <- some m ;; y <- some y ;; Ok (AIfNotNull m y None));
     (["ifnotnull"; "then"; "else"], fun fs =>
        m <- gmap "ifnotnull" fs ;; y <- glist "then" fs ;; e <- glist "else" fs ;;
        m <- some m ;; y <- some y ;; e <- some e ;; Ok (AIfNotNull m y (Some e)));
     (["pack"], fun fs =>
        l <- gpack "pack" fs ;; match l with Some l => l <- some l ;; Ok (APack l) | None => syntax end);
     (["unpack"; "format"; "then"], fun fs =>
        e <- gnode "unpack" fs ;; f <- gpairs "format" fs ;; y <- glist "then" fs ;;
        f <- some f ;; y <- some y ;; Ok (AUnpack e f y None));
     (["unpack"; "format"; "then"; "else"], fun fs =>
        e <- gnode "unpack" fs ;; f <- gpairs "format" fs ;; y <- glist "then" fs ;; l <- glist "else" fs ;;
        f <- some f ;; y <- some y ;; l <- some l ;; Ok (AUnpack e f y (Some l)));
     (["doc"], fun fs => s <- gtext "doc" fs ;; Ok (ADoc s));
     (["error"], fun fs => s <- gtext "error" fs ;; Ok (AError s None));
     (["error"; "code"], fun fs =>
        s <- gtext "error" fs ;; c <- gval "code" fs ;; if negative c then Ok (AError s (Some c)) else syntax);
     (["try"], fun fs => l <- glist "try" fs ;; Ok (ATry l None));
     (["try"; "filter"], fun fs => l <- glist "try" fs ;; f <- gfilter "filter" fs ;; Ok (ATry l (Some f)));
     (["log"], fun fs => l <- glist "log" fs ;; Ok (ALog l None));
     (["log"; "namespace"], fun fs => l <- glist "log" fs ;; s <- gtext "namespace" fs ;; Ok (ALog l (Some s)));
     (["params"; "ret"; "do"], fun fs =>
        p <- gparams "params" fs ;; r <- gval "ret" fs ;; b <- glist "do" fs ;; b <- some b ;; Ok (AFcnDef p r b));
     (["fcn"], fun fs => f <- gtext "fcn" fs ;; Ok (AFcnRef f));
     (["fcn"; "fill"], fun fs => f <- gtext "fcn" fs ;; m <- gmap "fill" fs ;; m <- some m ;; Ok (AFcnFill f m));
     (["call"; "args"], fun fs => e <- gnode "call" fs ;; l <- glist "args" fs ;; Ok (ACallUser e l))].

  (** 802-805: the words that cannot be the name of a function; "del" is not among them *)
  Definition reserved : list string :=
    ["args"; "as"; "attr"; "base64"; "call"; "cases"; "cast"; "cell"; "code"; "cond"; "do"; "doc"; "double"; "else";
     "error"; "fcn"; "fill"; "filter"; "float"; "for"; "foreach"; "forkey"; "format"; "forval"; "if"; "ifnotnull"; "in"; "init";
     "int"; "let"; "log"; "long"; "namespace"; "new"; "pack"; "params"; "partial"; "path"; "pool"; "ret"; "seq";
     "set"; "step"; "string"; "then"; "to"; "try"; "type"; "unpack"; "until"; "upcast"; "value"; "while"].

  (** keys == set(names), for keys and names without repetition *)
  Definition same_keys (names ks : list string) : bool :=
    (Nat.eqb (length ks) (length names) && forallb (fun k => existsb (String.eqb k) ks) names)%bool.
  (** 726-733: the message of the exception is made with data[keys], a TypeError (a set is not hashable) *)
  Definition check_name (valid : string -> bool) (k : string) (fs : fields) : res unit :=
    match assoc k fs with
    | Some (SText s) => if valid s then Ok tt else Raise (PyErr "TypeError")
    | _ => Ok tt
    end.
  (** 735-808 *)
  Definition make (fs : fields) : res node :=
    match find (fun f => same_keys (fst f) (keys fs)) forms with
    | Some (_, build) => build fs
    | None => match fs with
              | [(k, x)] => if existsb (String.eqb k) reserved then syntax else l <- gcall k fs ;; Ok (ACall k l)
              | _ => syntax
              end
    end.
  (** 605-808 *)
  Definition read_dict (reader : val -> res node) (d : list (string * val)) : res node :=
    fs <- rmapM (read_field reader) (unmarked d) ;;
    u <- check_name valid_symbol "foreach" fs ;;
    u <- check_name valid_symbol "forkey" fs ;;
    u <- check_name valid_symbol "forval" fs ;;
    u <- check_name valid_function "fcn" fs ;;
    make fs.
  (** 586-592: a part of a dotted name is an index when int() reads it, and a key otherwise *)
  Definition path_part (s : string) : node := match int_of E s with Some z => AInt (VInt z) | None => AStr s end.

  (** 565-811 *)
  Fixpoint read (n : nat) (v : val) : res node :=
    match n with
    | O => Raise (PyErr "fuel")
    | S n' =>
        match v with
        | VNull => Ok ANull
        | VBool b => Ok (ABool b)
        | VInt z =>
            if ((-2147483648 <=? z) && (z <=? 2147483647))%bool then Ok (AInt v)
            else if ((-9223372036854775808 <=? z) && (z <=? 9223372036854775807))%bool then Ok (ALong v)
            else syntax
        | VFlt f => Ok (ADouble f)
        | VStr s =>
            match split_dots s with
            | (x, []) => if valid_symbol x then Ok (ARef x) else syntax
            | (x, rest) => if valid_symbol x then Ok (AAttrGet (ARef x) (map path_part rest)) else syntax
            end
        | VArr [VStr s] => Ok (AStr s)
        | VArr _ => syntax
        | VDict d => read_dict (read n') d
        | VBytes _ => syntax
        end
    end.

  (** *** Documents *)
  (** 813-845: [at] has no value when data is not a dict *)
  Definition fcn_field (reader : val -> res node) (p : string * val) : res (string * slot) :=
    let (k, v) := p in
    if String.eqb k "params" then l <- read_array read_param v ;; Ok (k, SParams l)
    else if String.eqb k "ret" then Ok (k, SVal (strip v))
    else if String.eqb k "do" then l <- read_body reader v ;; Ok (k, SList l)
    else syntax.
  Definition read_fcn (reader : val -> res node) (v : val) : res node :=
    match v with
    | VDict d =>
        fs <- rmapM (fcn_field reader) (unmarked d) ;;
        match assoc "params" fs, assoc "ret" fs, assoc "do" fs with
        | Some (SParams p), Some (SVal r), Some (SList b) => b <- some b ;; Ok (AFcnDef p r b)
        | _, _, _ => syntax
        end
    | _ => unbound
    end.
  (** the names of functions (816-818), cells (871-873) and pools (935-937) are checked before anything is read *)
  Definition read_named {A} (valid : string -> bool) (f : val -> res A) (d : list (string * val)) : res (list (string * A)) :=
    if forallb valid (keys (unmarked d)) then rmapM (fun p => x <- f (snd p) ;; Ok (fst p, x)) (unmarked d) else syntax.
  Definition read_fcns (reader : val -> res node) (v : val) : res (list (string * node)) :=
    match v with VDict d => read_named valid_function (read_fcn reader) d | _ => unbound end.

  (** The init of a cell, 897-926: JSON, or a function that fetches it from a URL; a pool has a dict of JSON. *)
  Inductive init := Text (v : val) | Fetch (url : string).
  Record cell := Cell { ce_type : val; ce_init : init; ce_shared : bool; ce_rollback : bool; ce_source : string }.
  Record pool := Pool { po_type : val; po_init : list (string * val); po_shared : bool; po_rollback : bool; po_source : string }.
  Definition flag (k : string) (d : list (string * val)) : res bool :=
    match assoc k d with Some (VBool b) => Ok b | Some _ => syntax | None => Ok false end.
  Definition source_of (d : list (string * val)) : res string :=
    match assoc "source" d with Some v => read_string v | None => Ok "embedded" end.
  Definition item_keys : list string := ["type"; "init"; "shared"; "rollback"; "source"].
  Definition known_keys (d : list (string * val)) : bool := forallb (fun k => existsb (String.eqb k) item_keys) (keys d).
  (** 878-930, with the checks of Cell, pfaast.py:1130-1146 *)
  Definition read_cell (v : val) : res cell :=
    match v with
    | VDict d0 =>
        let d := unmarked d0 in
        sh <- flag "shared" d ;; rb <- flag "rollback" d ;; src <- source_of d ;;
        if known_keys d then
          match assoc "type" d, assoc "init" d with
          | Some t, Some i =>
              ini <- (if (String.eqb src "avro" || String.eqb src "json")%bool
                      then match strip i with VStr url => Ok (Fetch url) | _ => syntax end
                      else if String.eqb src "embedded" then Ok (Text (strip i)) else syntax) ;;
              if (sh && rb)%bool then syntax else Ok (Cell (strip t) ini sh rb src)
          | _, _ => syntax
          end
        else syntax
    | _ => syntax
    end.
  (** 386-391 *)
  Definition json_map (v : val) : res (list (string * val)) :=
    match v with VDict d => Ok (map (fun p => (fst p, strip (snd p))) (unmarked d)) | _ => syntax end.
  (** 942-995, with the checks of Pool, pfaast.py:1230-1246; json.loads of a dict is a TypeError (961, 970); [at] has no
      value when data is not a dict *)
  Definition read_pool (v : val) : res pool :=
    match v with
    | VDict d0 =>
        let d := unmarked d0 in
        sh <- flag "shared" d ;; rb <- flag "rollback" d ;; src <- source_of d ;;
        ini <- match assoc "init" d with Some i => json_map i | None => Ok [] end ;;
        if known_keys d then
          match assoc "type" d with
          | Some t =>
              if (String.eqb src "avro" || String.eqb src "json")%bool then Raise (PyErr "TypeError")
              else if String.eqb src "embedded" then
                if (sh && rb)%bool then syntax else Ok (Pool (strip t) ini sh rb src)
              else syntax
          | None => syntax
          end
        else syntax
    | _ => unbound
    end.
  Definition read_cells (v : val) : res (list (string * cell)) :=
    match v with VDict d => read_named valid_symbol read_cell d | _ => unbound end.
  Definition read_pools (v : val) : res (list (string * pool)) :=
    match v with VDict d => read_named valid_symbol read_pool d | _ => syntax end.

  (** EngineConfig, pfaast.py:662-787 *)
  Record config := Config {
    co_name : string; co_method : string; co_input : val; co_output : val;
    co_begin : list node; co_action : list node; co_end : list node; co_fcns : list (string * node);
    co_zero : option val; co_merge : option (list node); co_cells : list (string * cell); co_pools : list (string * pool);
    co_seed : option val; co_doc : option string; co_version : option val;
    co_metadata : list (string * string); co_options : list (string * val) }.

  Definition top_keys : list string :=
    ["name"; "method"; "input"; "output"; "begin"; "action"; "end"; "fcns"; "zero"; "merge"; "cells"; "pools"; "randseed";
     "doc"; "version"; "metadata"; "options"].
  Definition opt_field {A} (k : string) (f : val -> res A) (d : list (string * val)) : res (option A) :=
    match assoc k d with Some v => x <- f v ;; Ok (Some x) | None => Ok None end.
  Definition dflt {A} (o : option A) (a : A) : A := match o with Some x => x | None => a end.
  Definition read_method (v : val) : res string :=
    s <- read_string v ;;
    if (String.eqb s "map" || String.eqb s "emit" || String.eqb s "fold")%bool then Ok s else syntax.
  (** 294-369; the name is made up when there is none (363), here [fresh]; the mark of the document itself must be text
      (EngineConfig's pos) *)
  Definition read_doc (n : nat) (fresh : string) (v : val) : res config :=
    match v with
    | VDict d0 =>
        let d := unmarked d0 in
        if forallb (fun k => existsb (String.eqb k) top_keys) (keys d) then
          name <- opt_field "name" read_string d ;;
          method <- opt_field "method" read_method d ;;
          input <- opt_field "input" (fun v => Ok (strip v)) d ;;
          output <- opt_field "output" (fun v => Ok (strip v)) d ;;
          begin <- opt_field "begin" (read_body (read n)) d ;;
          action <- opt_field "action" (read_body (read n)) d ;;
          fin <- opt_field "end" (read_body (read n)) d ;;
          fcns <- opt_field "fcns" (read_fcns (read n)) d ;;
          zero <- opt_field "zero" (fun v => Ok (strip v)) d ;;
          merge <- opt_field "merge" (read_body (read n)) d ;;
          cells <- opt_field "cells" read_cells d ;;
          pools <- opt_field "pools" read_pools d ;;
          seed <- opt_field "randseed" read_long d ;;
          doc <- opt_field "doc" read_string d ;;
          version <- opt_field "version" read_int d ;;
          metadata <- opt_field "metadata" (read_map read_string) d ;;
          options <- opt_field "options" json_map d ;;
          match input, output, action with
          | Some i, Some o, Some a =>
              if match assoc "@" d0 with Some (VStr _) | Some VNull | None => true | Some _ => false end then
                a <- some a ;;
                let m := dflt method "map" in
                if (if String.eqb m "fold"
                    then match zero, merge with Some _, Some (_ :: _) => true | _, _ => false end
                    else match zero, merge with None, None => true | _, _ => false end)
                then Ok (Config (dflt name fresh) m i o (dflt begin []) a (dflt fin []) (dflt fcns []) zero merge
                                (dflt cells []) (dflt pools []) seed doc version (dflt metadata []) (dflt options []))
                else syntax
              else syntax
          | _, _, _ => syntax
          end
        else syntax
    | _ => Raise (PyErr "AttributeError")                     (* 295: data.get *)
    end.

  (** pfaast.py:1186-1203, 1286-1303 *)
  Definition write_source (src : string) : list (string * val) :=
    if String.eqb src "embedded" then [] else [("source", VStr src)].
  Definition write_cell (c : cell) : val :=
    VDict ([("type", ce_type c);
            ("init", match ce_init c with Text v => v | Fetch url => fetch E (ce_source c) url end);
            ("shared", VBool (ce_shared c)); ("rollback", VBool (ce_rollback c))] ++ write_source (ce_source c)).
  Definition write_pool (p : pool) : val :=
    VDict ([("type", po_type p); ("init", VDict (po_init p));
            ("shared", VBool (po_shared p)); ("rollback", VBool (po_rollback p))] ++ write_source (po_source p)).
  Definition unless_empty {A} (k : string) (f : list A -> val) (l : list A) : list (string * val) :=
    match l with [] => [] | _ => [(k, f l)] end.
  Definition mapv {A} (f : A -> val) (l : list (string * A)) : list (string * val) := map (fun p => (fst p, f (snd p))) l.
  (** 1023-1077 *)
  Definition write_doc (c : config) : val :=
    let many := fun l => VArr (map (write E) l) in
    VDict ([("name", VStr (co_name c)); ("input", co_input c); ("output", co_output c); ("method", VStr (co_method c))]
           ++ unless_empty "begin" many (co_begin c)
           ++ [("action", many (co_action c))]
           ++ unless_empty "end" many (co_end c)
           ++ unless_empty "fcns" (fun l => VDict (mapv (write E) l)) (co_fcns c)
           ++ unless_empty "cells" (fun l => VDict (mapv write_cell l)) (co_cells c)
           ++ unless_empty "pools" (fun l => VDict (mapv write_pool l)) (co_pools c)
           ++ dict_if "zero" (fun v => v) (co_zero c)
           ++ dict_if "merge" many (co_merge c)
           ++ dict_if "randseed" (fun v => v) (co_seed c)
           ++ dict_if "doc" VStr (co_doc c)
           ++ dict_if "version" (fun v => v) (co_version c)
           ++ unless_empty "metadata" (fun l => VDict (mapv VStr l)) (co_metadata c)
           ++ unless_empty "options" VDict (co_options c)).
End Read.
