(** Model of titus/producer/transformation.py: expressions applied to Numpy columns and put into PFA documents.

    Simplifications, all deliberate:
    - expressions are the syntax trees ppfa makes (the parser of PrettyPFA is left out), with the nodes toNumpyExpr knows and one node
      for all others, whose JSON is any document;
    - the text of the lambda that __init__ evaluates is the tree the text stands for;
    - a dataset has named columns (the record array, the dict and the two-dimensional table differ in how they are given names);
    - Numpy functions work on every row by itself, and give a value for all arguments (Numpy warns instead of raising). *)
From Verif Require Import Base PyNum ScopeModel.
Open Scope string_scope.
Open Scope list_scope.

(** titus/pfaast.py:1901-2468 *)
Inductive ast :=
| ARef (name : string)
| ANull
| ABool (b : bool)
| AInt (z : Z)
| ALong (z : Z)
| AFloat (v : pf)
| ADouble (v : pf)
| AString (s : string)
| ACall (name : string) (args : list ast)
| AOther (json : val).
(** jsonNode(False, set()), pfaast.py:2013-2025, 2071-2081, 2119-2468 *)
Fixpoint to_json (a : ast) : val :=
  match a with
  | ARef n => VStr n
  | ANull => VNull
  | ABool b => VBool b
  | AInt z => VInt z
  | ALong z => VDict [("long", VInt z)]
  | AFloat v => VDict [("float", VFlt v)]
  | ADouble v => VFlt v
  | AString s => VDict [("string", VStr s)]
  | ACall n args => VDict [(n, VArr (map to_json args))]
  | AOther v => v
  end.

(** findFields, transformation.py:95-112 *)
Fixpoint find_fields (x : val) : list string :=
  match x with
  | VDict d => (fix go (d : list (string * val)) := match d with [] => [] | (k, v) :: d' => (if String.eqb k "@" then [] else find_fields v) ++ go d' end) d
  | VArr l => (fix go (l : list val) := match l with [] => [] | v :: l' => find_fields v ++ go l' end) l
  | VStr s => [s]
  | _ => []
  end.
(** replace, 114-133 *)
Fixpoint replace (subs : list (string * val)) (x : val) : val :=
  match x with
  | VDict d => VDict ((fix go (d : list (string * val)) := match d with [] => [] | (k, v) :: d' => (k, replace subs v) :: go d' end) d)
  | VArr l => VArr ((fix go (l : list val) := match l with [] => [] | v :: l' => replace subs v :: go l' end) l)
  | VStr s => match assoc s subs with Some v => v | None => x end
  | _ => x
  end.

(** *** toNumpyExpr, 135-159 *)
Inductive nexpr := NName (s : string) | NLit (a : ast) | NCall (f : string) (args : list nexpr).
Definition constants : list (string * string) := [("m.pi", "math.pi"); ("m.e", "math.e")].                (* 43-46 *)
Definition functions : list (string * string) :=                                                          (* 48-88 *)
  [("+", "numpy.add"); ("-", "numpy.subtract"); ("*", "numpy.multiply"); ("/", "numpy.true_divide"); ("u-", "numpy.negative"); ("**", "numpy.power");
   ("%", "numpy.mod"); ("%%", "numpy.remainder"); ("==", "numpy.equal"); ("!=", "numpy.not_equal"); (">", "numpy.greater"); (">=", "numpy.greater_equal");
   ("<", "numpy.less"); ("<=", "numpy.less_equal"); ("&&", "numpy.logical_and"); ("||", "numpy.logical_or"); ("^^", "numpy.logical_xor"); ("!", "numpy.logical_not");
   ("m.abs", "numpy.absolute"); ("m.acos", "numpy.arccos"); ("m.asin", "numpy.arcsin"); ("m.atan", "numpy.arctan"); ("m.atan2", "numpy.arctan2"); ("m.ceil", "numpy.ceil");
   ("m.copysign", "numpy.copysign"); ("m.cos", "numpy.cos"); ("m.cosh", "numpy.cosh"); ("m.exp", "numpy.exp"); ("m.expm1", "numpy.expm1"); ("m.floor", "numpy.floor");
   ("m.hypot", "numpy.hypot"); ("m.ln", "numpy.log"); ("m.log10", "numpy.log10"); ("m.round", "numpy.round"); ("m.rint", "numpy.rint"); ("m.sin", "numpy.sin");
   ("m.sinh", "numpy.sinh"); ("m.sqrt", "numpy.sqrt"); ("m.tan", "numpy.tan"); ("m.tanh", "numpy.tanh")].
Fixpoint to_numpy (a : ast) : res nexpr :=
  match a with
  | ACall n args =>
      match assoc n constants, args with
      | Some c, [] => Ok (NCall c [])
      | _, _ =>
          match assoc n functions with
          | Some f => l <- (fix go (l : list ast) := match l with [] => Ok [] | x :: l' => y <- to_numpy x ;; ys <- go l' ;; Ok (y :: ys) end) args ;; Ok (NCall f l)
          | None => Raise (PyErr "ValueError")
          end
      end
  | ARef n => Ok (NName n)
  | ANull => Raise (PyErr "TypeError")                       (* float("nan") is a number; 147 and 189 join it to text *)
  | ABool _ | AInt _ | ALong _ | AFloat _ | ADouble _ | AString _ => Ok (NLit a)
  | AOther _ => Raise (PyErr "ValueError")
  end.

(** *** __init__, 161-189 *)
Fixpoint insert (s : string) (l : list string) : list string :=
  match l with [] => [s] | x :: l' => match String.compare s x with Lt => s :: l | Eq => l | Gt => x :: insert s l' end end.
Definition sort_set (l : list string) : list string := fold_right insert [] l.              (* sorted(set(l)) *)
Record transformation := Transformation {
  t_order : list string; t_exprs : list (string * ast); t_fields : list string; t_lambdas : list (string * nexpr) }.
(** "_%d" % i for one digit *)
Definition digit (n : nat) : string := String (Ascii.ascii_of_nat (48 + n)) EmptyString.
Definition index_name (i : nat) : string := String.append "_" (if Nat.ltb i 10 then digit i else String.append (digit (i / 10)) (digit (i mod 10))).
(** names that Python cannot take for the parameters of a lambda *)
Definition keywords : list string :=
  ["False"; "None"; "True"; "and"; "as"; "assert"; "async"; "await"; "break"; "class"; "continue"; "def"; "del"; "elif"; "else"; "except"; "finally"; "for"; "from";
   "global"; "if"; "import"; "in"; "is"; "lambda"; "nonlocal"; "not"; "or"; "pass"; "raise"; "return"; "try"; "while"; "with"; "yield"].
Definition letter (c : Ascii.ascii) : bool :=
  let n := Ascii.nat_of_ascii c in (Nat.leb 65 n && Nat.leb n 90) || (Nat.leb 97 n && Nat.leb n 122) || Nat.eqb n 95.
Definition digit_char (c : Ascii.ascii) : bool := let n := Ascii.nat_of_ascii c in Nat.leb 48 n && Nat.leb n 57.
Fixpoint name_rest (s : string) : bool := match s with EmptyString => true | String c s' => (letter c || digit_char c) && name_rest s' end.
Definition python_name (s : string) : bool :=
  match s with EmptyString => false | String c s' => letter c && name_rest s' end && negb (existsb (String.eqb s) keywords).
(** positional expressions up to the hundredth *)
Definition new_transformation (indexed : list ast) (named : list (string * ast)) : res transformation :=
  let ix := combine (map index_name (seq 0 (length indexed))) indexed in
  let exprs := fold_left (fun d kv => dict_set (fst kv) (snd kv) d) ix named in
  let order := map fst ix ++ sort_set (map fst named) in
  let fields := sort_set (flat_map (fun kv => find_fields (to_json (snd kv))) exprs) in
  lambdas <- rmapM (fun kv => n <- to_numpy (snd kv) ;; if forallb python_name fields then Ok (fst kv, n) else Raise (PyErr "SyntaxError")) exprs ;;
  Ok (Transformation order exprs fields lambdas).

(** *** transform, 191-242 *)
Section Transform.
  Variable V : Type.
  Variable lit : ast -> V.                          (* the value of a literal *)
  Variable numpy : string -> list V -> V.           (* a Numpy function on one row *)
  Inductive column := Scalar (v : V) | Column (l : list V).
  Definition at_row (i : nat) (c : column) : option V := match c with Scalar v => Some v | Column l => nth_error l i end.
  (** broadcasting: a function of scalars is a scalar, otherwise every row by itself *)
  Definition is_scalar (c : column) : bool := match c with Scalar _ => true | Column _ => false end.
  Fixpoint rows_of (i : nat) (cs : list column) : option (list V) :=
    match cs with [] => Some [] | c :: cs' => match at_row i c, rows_of i cs' with Some v, Some vs => Some (v :: vs) | _, _ => None end end.
  Fixpoint every {A B} (f : A -> option B) (l : list A) : option (list B) :=
    match l with [] => Some [] | x :: l' => match f x, every f l' with Some y, Some ys => Some (y :: ys) | _, _ => None end end.
  Definition apply (n : nat) (f : string) (cs : list column) : res column :=
    if forallb is_scalar cs then match rows_of 0 cs with Some vs => Ok (Scalar (numpy f vs)) | None => Raise (PyErr "ValueError") end
    else match every (fun i => match rows_of i cs with Some vs => Some (numpy f vs) | None => None end) (seq 0 n) with
         | Some l => Ok (Column l) | None => Raise (PyErr "ValueError") end.
  (** the module a function is taken from: the parameters of the lambda hide the two modules *)
  Definition module_of (f : string) : string := if String.prefix "math." f then "math" else "numpy".
  Fixpoint run (n : nat) (env : list (string * list V)) (e : nexpr) : res column :=
    match e with
    | NName s => match assoc s env with Some l => Ok (Column l) | None => Raise (PyErr "NameError") end
    | NLit a => Ok (Scalar (lit a))
    | NCall f args =>
        if has_key (module_of f) env then Raise (PyErr "AttributeError")
        else cs <- (fix go (l : list nexpr) := match l with [] => Ok [] | x :: l' => y <- run n env x ;; ys <- go l' ;; Ok (y :: ys) end) args ;; apply n f cs
    end.
  (** 227-235: what the lambdas make of the columns of their parameters; every column has [n] rows *)
  Definition compute (t : transformation) (n : nat) (dataset : list (string * list V)) (names : list string) : res (list (string * column)) :=
    if negb (forallb (fun f => existsb (String.eqb f) names) (t_fields t)) then Raise (PyErr "TypeError")
    else
      rmapM (fun kl =>
               env <- rmapM (fun f => match assoc f dataset with Some l => Ok (f, l) | None => Raise (PyErr "KeyError") end) (t_fields t) ;;
               c <- run n env (snd kl) ;; Ok (fst kl, c)) (t_lambdas t).
  Definition in_order (t : transformation) (computed : list (string * column)) : res (list column) :=
    rmapM (fun k => match assoc k computed with Some c => Ok c | None => Raise (PyErr "KeyError") end) (t_order t).
  (** a two-dimensional table, 216-222 and 242: the columns of the result *)
  Definition vstack (n : nat) (cs : list column) : res (list (list V)) :=
    rmapM (fun c => match c with
                    | Column l => Ok l
                    | Scalar v => if forallb is_scalar cs || Nat.eqb n 1 then Ok [v] else Raise (PyErr "ValueError") end) cs.
  Definition transform_table (t : transformation) (n : nat) (table : list (list V)) (fieldNames : option (list string)) : res (list (list V)) :=
    let names := match fieldNames with None => t_fields t | Some l => l end in
    if negb (Nat.eqb (length names) (length table)) then Raise (PyErr "TypeError")
    else computed <- compute t n (combine names table) names ;; cs <- in_order t computed ;; vstack n cs.
  (** a dict of columns, 210-213 and 240: what was computed, by name *)
  Definition transform_dict (t : transformation) (n : nat) (dataset : list (string * list V)) (fieldNames : option (list string)) : res (list (string * column)) :=
    compute t n dataset (match fieldNames with None => map fst dataset | Some l => l end).
End Transform.
Arguments Scalar {V}. Arguments Column {V}.

(** *** new, let and expr, 261-339; substitutions are given as trees (interpret, 245-258) and those of the dict win *)
Definition substitutions (subs subs2 : list (string * ast)) : list (string * val) :=
  map (fun ka => (fst ka, to_json (snd ka))) (fold_left (fun d kv => dict_set (fst kv) (snd kv) d) subs subs2).
Definition replaced (t : transformation) (subs subs2 : list (string * ast)) (k : string) : res val :=
  match assoc k (t_exprs t) with Some a => Ok (replace (substitutions subs subs2) (to_json a)) | None => Raise (PyErr "KeyError") end.
Definition all_replaced (t : transformation) (subs subs2 : list (string * ast)) : list (string * val) :=
  map (fun ka => (fst ka, replace (substitutions subs subs2) (to_json (snd ka)))) (t_exprs t).
Definition new_array (t : transformation) (type : val) (subs subs2 : list (string * ast)) : res val :=
  l <- rmapM (replaced t subs subs2) (t_order t) ;; Ok (VDict [("type", type); ("new", VArr l)]).
Definition new_record (t : transformation) (type : val) (subs subs2 : list (string * ast)) : val :=
  VDict [("type", type); ("new", VDict (all_replaced t subs subs2))].
Definition let_expr (t : transformation) (subs subs2 : list (string * ast)) : val := VDict [("let", VDict (all_replaced t subs subs2))].
Definition expr_of (t : transformation) (name : string) (subs subs2 : list (string * ast)) : res val := replaced t subs subs2 name.
