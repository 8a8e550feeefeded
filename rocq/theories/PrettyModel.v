(** Model of the operator expressions of PrettyPFA: the tokens of titus/prettypfa.py and what ply makes of its grammar.

    Simplifications, all deliberate:
    - of the expressions, numbers, raw strings, names, operators, groups, calls, extractions by name and from expressions are modelled (1562-1604 without parameters, 1625-1727,
      2036-2042, 2071-2091); blocks, assignments, functions, control structures, substitutions and documents are not. Texts have one expression;
    - the parser is the machine that ply generates: it shifts a token or reduces the rule on its stack. Where it could do both it follows the levels of 1625-1636 as ply documents it:
      the level of a rule is that of its last token or of its %prec, tokens and rules without a level have 0 and shift;
    - line numbers are left out; numbers stay texts (int and float of them are Python's). *)
From Verif Require Import Base.
Open Scope string_scope.
Open Scope list_scope.

(** the operators, 1662-1723, and those before their operand, 1647-1660 *)
Inductive binop := OR | XOR | AND | EQ | NE | LT | LE | GT | GE | BITOR | BITXOR | BITAND | PLUS | MINUS | TIMES | FDIV | IDIV | MOD | REM | POW.
Inductive unop := UMINUS | BITNOT | NOT.
Inductive token := TNum (s : string) | TStr (s : string) | TName (s : string) | TOp (o : binop) | TBitnot | TNot | TL | TR | TLb | TRb | TComma.
(** MiniNumber, MiniString, MiniDotName, MiniCall, MiniGet, MiniGenGet, 345-533 *)
Inductive tree := Num (s : string) | Str (s : string) | Name (s : string) | Call (f : string) (args : list tree) | Get (s : string) (args : list tree) | GenGet (e : tree) (args : list tree).
Definition un_call (u : unop) : string := match u with UMINUS => "u-" | BITNOT => "~" | NOT => "!" end.
Definition bin_call (o : binop) : string :=
  match o with
  | OR => "||" | XOR => "^^" | AND => "&&" | EQ => "==" | NE => "!=" | LT => "<" | LE => "<=" | GT => ">" | GE => ">=" | BITOR => "|" | BITXOR => "^" | BITAND => "&"
  | PLUS => "+" | MINUS => "-" | TIMES => "*" | FDIV => "/" | IDIV => "//" | MOD => "%" | REM => "%%" | POW => "**"
  end.

(** precedence, 1625-1636 *)
Inductive side := ToLeft | ToRight | Neither.
Definition bin_prec (o : binop) : side * nat :=
  match o with
  | OR => (ToLeft, 1) | XOR => (ToLeft, 2) | AND => (ToLeft, 3) | EQ | NE | LT | LE | GT | GE => (Neither, 5) | BITOR => (ToLeft, 6) | BITXOR => (ToLeft, 7) | BITAND => (ToLeft, 8)
  | PLUS | MINUS => (ToLeft, 9) | TIMES | FDIV | IDIV | MOD | REM => (ToLeft, 10) | POW => (ToLeft, 12)
  end%nat.
Definition un_prec (u : unop) : side * nat := match u with NOT => (ToRight, 4%nat) | UMINUS | BITNOT => (ToRight, 11%nat) end.

(** what ply does with a rule of a level and a token of a level *)
Inductive act := Reduce | Shift | Stop.
Definition decide (rule : side * nat) (next : nat) : act :=
  if Nat.ltb next (snd rule) then Reduce else if Nat.eqb next (snd rule) then match fst rule with ToLeft => Reduce | Neither => Stop | ToRight => Shift end else Shift.
Definition syntax_error {A} : res A := Raise (PyErr "PrettyPfaException").

(** the stack: what has been read of expressions that are not finished; [None]: no arguments yet, not even none (arguments: empty | argument | arguments "," argument, 1593-1604) *)
Inductive frame := FBin (l : tree) (o : binop) | FUn (u : unop) | FGroup | FCall (s : string) (a : option (list tree)) | FGet (s : string) (a : option (list tree)) | FGenGet (e : tree) (a : option (list tree)).
(** its end: an expression has to come, a name has come, or an expression *)
Inductive top := Need | Named (s : string) | Have (e : tree).
Definition given (a : option (list tree)) : list tree := match a with Some l => l | None => [] end.
Fixpoint reduce (next : nat) (e : tree) (fs : list frame) : res (tree * list frame) :=
  match fs with
  | FBin l o :: fs' => match decide (bin_prec o) next with Reduce => reduce next (Call (bin_call o) [l; e]) fs' | Shift => Ok (e, fs) | Stop => syntax_error end
  | FUn u :: fs' => match decide (un_prec u) next with Reduce => reduce next (Call (un_call u) [e]) fs' | Shift => Ok (e, fs) | Stop => syntax_error end
  | _ => Ok (e, fs)
  end.
Definition after (fs : list frame) (e : tree) (t : token) : res (list frame * top) :=
  match t with
  | TOp o => r <- reduce (snd (bin_prec o)) e fs ;; Ok (FBin (fst r) o :: snd r, Need)
  | TLb => r <- reduce 0 e fs ;; Ok (FGenGet (fst r) None :: snd r, Need)
  | TR => r <- reduce 0 e fs ;;
      match snd r with FGroup :: fs' => Ok (fs', Have (fst r)) | FCall s a :: fs' => Ok (fs', Have (Call s (given a ++ [fst r]))) | _ => syntax_error end
  | TRb => r <- reduce 0 e fs ;;
      match snd r with FGet s a :: fs' => Ok (fs', Have (Get s (given a ++ [fst r]))) | FGenGet x a :: fs' => Ok (fs', Have (GenGet x (given a ++ [fst r]))) | _ => syntax_error end
  | TComma => r <- reduce 0 e fs ;;
      match snd r with
      | FCall s a :: fs' => Ok (FCall s (Some (given a ++ [fst r])) :: fs', Need)
      | FGet s a :: fs' => Ok (FGet s (Some (given a ++ [fst r])) :: fs', Need)
      | FGenGet x a :: fs' => Ok (FGenGet x (Some (given a ++ [fst r])) :: fs', Need)
      | _ => syntax_error
      end
  | _ => syntax_error
  end.
Definition feed (st : list frame * top) (t : token) : res (list frame * top) :=
  let (fs, tp) := st in
  match tp with
  | Need =>
      match t, fs with
      | TNum s, _ => Ok (fs, Have (Num s))
      | TStr s, _ => Ok (fs, Have (Str s))
      | TName s, _ => Ok (fs, Named s)
      | TOp MINUS, _ => Ok (FUn UMINUS :: fs, Need)
      | TBitnot, _ => Ok (FUn BITNOT :: fs, Need)
      | TNot, _ => Ok (FUn NOT :: fs, Need)
      | TL, _ => Ok (FGroup :: fs, Need)
      | TR, FCall s None :: fs' => Ok (fs', Have (Call s []))
      | TRb, FGet s None :: fs' => Ok (fs', Have (Get s []))
      | TRb, FGenGet x None :: fs' => Ok (fs', Have (GenGet x []))
      | TComma, FCall s None :: fs' => Ok (FCall s (Some []) :: fs', Need)
      | TComma, FGet s None :: fs' => Ok (FGet s (Some []) :: fs', Need)
      | TComma, FGenGet x None :: fs' => Ok (FGenGet x (Some []) :: fs', Need)
      | _, _ => syntax_error
      end
  | Named s => match t with TL => Ok (FCall s None :: fs, Need) | TLb => Ok (FGet s None :: fs, Need) | _ => after fs (Name s) t end
  | Have e => after fs e t
  end.
Fixpoint feeds (st : list frame * top) (ts : list token) : res (list frame * top) := match ts with [] => Ok st | t :: ts' => st' <- feed st t ;; feeds st' ts' end.
Definition closing (st : list frame * top) : res tree :=
  let finish e := (r <- reduce 0 e (fst st) ;; match snd r with [] => Ok (fst r) | _ => syntax_error end) in
  match snd st with Need => syntax_error | Named s => finish (Name s) | Have e => finish e end.
Definition parse (ts : list token) : res tree := st <- feeds ([], Need) ts ;; closing st.

(** ** tokens, 1262-1441. The functions are tried in their order at every place, after blanks and tabs: comments, names, numbers, raw strings, then the operators.
    Of two operators that begin alike the longer is first (POW before TIMES, REM before MOD, LE before LT, AND before BITAND and so on), except "->" before "-", which is no part of the modelled
    expressions, like "{", "}", "<<", double quotes and the literal characters ";", ":", "=" and "@": they are errors here. *)
Import Ascii.
Definition between (a b : nat) (c : ascii) : bool := (Nat.leb a (nat_of_ascii c) && Nat.leb (nat_of_ascii c) b)%bool.
Definition digit (c : ascii) : bool := between 48 57 c.
Definition letter (c : ascii) : bool := (between 65 90 c || between 97 122 c || Ascii.eqb c "_")%bool.
Definition newline (c : ascii) : bool := (Nat.eqb (nat_of_ascii c) 10 || Nat.eqb (nat_of_ascii c) 13)%bool.
Definition blank (c : ascii) : bool := (Nat.eqb (nat_of_ascii c) 32 || Nat.eqb (nat_of_ascii c) 9)%bool.
(** the longest beginning of characters that are so *)
Fixpoint span (p : ascii -> bool) (s : string) : string * string :=
  match s with String c s' => if p c then let (a, b) := span p s' in (String c a, b) else (EmptyString, s) | EmptyString => (EmptyString, EmptyString) end.
(** letters, digits and dots before letters; [w] tells that a digit or a dot may come *)
Fixpoint dotname (w : bool) (s : string) : string * string :=
  match s with
  | String c s' =>
      if (letter c || (w && digit c))%bool then let (a, b) := dotname true s' in (String c a, b)
      else if (w && Ascii.eqb c ".")%bool then
        match s' with String d _ => if letter d then let (a, b) := dotname false s' in (String c a, b) else (EmptyString, s) | EmptyString => (EmptyString, s) end
      else (EmptyString, s)
  | EmptyString => (EmptyString, EmptyString)
  end.
Definition reserved : list string := ["fcn"; "if"; "else"; "while"; "do"; "until"; "for"; "foreach"; "cast"; "as"; "ifnotnull"; "unpack"; "try"; "var"; "to"; "init"].
Definition name_token (s : string) : option token :=
  if String.eqb s "idiv" then Some (TOp IDIV) else if existsb (String.eqb s) reserved then None else Some (TName s).
(** a number after its sign: 0 or digits that begin with another; a dot with any digits; an exponent with digits *)
Definition whole (s : string) : string * string :=
  match s with String c s' => if Ascii.eqb c "0" then (String c EmptyString, s') else span digit s | EmptyString => (EmptyString, EmptyString) end.
Definition fraction (s : string) : string * string :=
  match s with String c s' => if Ascii.eqb c "." then let (a, b) := span digit s' in (String c a, b) else (EmptyString, s) | EmptyString => (EmptyString, EmptyString) end.
Definition exponent (s : string) : string * string :=
  match s with
  | String c s' =>
      if (Ascii.eqb c "e" || Ascii.eqb c "E")%bool then
        match s' with
        | String d s'' =>
            if (Ascii.eqb d "-" || Ascii.eqb d "+")%bool
            then match span digit s'' with (EmptyString, _) => (EmptyString, s) | (a, b) => (String c (String d a), b) end
            else match span digit s' with (EmptyString, _) => (EmptyString, s) | (a, b) => (String c a, b) end
        | EmptyString => (EmptyString, s)
        end
      else (EmptyString, s)
  | EmptyString => (EmptyString, EmptyString)
  end.
Definition unsigned (s : string) : string * string :=
  let (a, r) := whole s in let (b, r') := fraction r in let (c, r'') := exponent r' in ((a ++ b ++ c)%string, r'').
Definition operator (c : ascii) (s : string) : option (token * string) :=
  let two d (t1 : token) (t2 : option token) := match s with String c' s' => if Ascii.eqb c' d then Some (t1, s') else match t2 with Some t => Some (t, s) | None => None end
                                                            | EmptyString => match t2 with Some t => Some (t, s) | None => None end end in
  if Ascii.eqb c "(" then Some (TL, s) else if Ascii.eqb c ")" then Some (TR, s) else if Ascii.eqb c "[" then Some (TLb, s) else if Ascii.eqb c "]" then Some (TRb, s)
  else if Ascii.eqb c "," then Some (TComma, s) else if Ascii.eqb c "~" then Some (TBitnot, s) else if Ascii.eqb c "+" then Some (TOp PLUS, s)
  else if Ascii.eqb c "-" then match s with String ">" _ => None | _ => Some (TOp MINUS, s) end else if Ascii.eqb c "/" then Some (TOp FDIV, s)
  else if Ascii.eqb c "*" then two "*"%char (TOp POW) (Some (TOp TIMES)) else if Ascii.eqb c "%" then two "%"%char (TOp REM) (Some (TOp MOD))
  else if Ascii.eqb c "=" then two "="%char (TOp EQ) None else if Ascii.eqb c "!" then two "="%char (TOp NE) (Some TNot)
  else if Ascii.eqb c "<" then match s with String "<" _ => None | _ => two "="%char (TOp LE) (Some (TOp LT)) end else if Ascii.eqb c ">" then two "="%char (TOp GE) (Some (TOp GT))
  else if Ascii.eqb c "&" then two "&"%char (TOp AND) (Some (TOp BITAND)) else if Ascii.eqb c "|" then two "|"%char (TOp OR) (Some (TOp BITOR))
  else if Ascii.eqb c "^" then two "^"%char (TOp XOR) (Some (TOp BITXOR)) else None.
Inductive lexeme := Skip (rest : string) | Lexeme (t : token) (rest : string) | Bad.
(** the first function that matches *)
Definition lex1 (c : ascii) (s : string) : lexeme :=
  let here := String c s in
  if (blank c || newline c)%bool then Skip s                                                                                             (* 1438, 1440-1442 *)
  else if (Ascii.eqb c "/" && match s with String "/" _ => true | _ => false end)%bool then Skip (snd (span (fun x => negb (Nat.eqb (nat_of_ascii x) 10)) s))      (* 1246-1248 *)
  else if letter c then let (a, b) := dotname false here in match name_token a with Some t => Lexeme t b | None => Bad end               (* 1262-1269 *)
  else if digit c then let (a, b) := unsigned here in Lexeme (TNum a) b                                                                   (* 1271-1277 *)
  else if (Ascii.eqb c "-" && match s with String d _ => digit d | EmptyString => false end)%bool then let (a, b) := unsigned s in Lexeme (TNum (String c a)) b
  else if Ascii.eqb c (ascii_of_nat 39) then match span (fun x => negb (Ascii.eqb x (ascii_of_nat 39))) s with (a, String _ b) => Lexeme (TStr a) b | _ => Bad end    (* 1284-1287 *)
  else match operator c s with Some (t, b) => Lexeme t b | None => Bad end.
Fixpoint lex (fuel : nat) (s : string) : res (list token) :=
  match s, fuel with
  | EmptyString, _ => Ok []
  | _, O => Raise (PyErr "fuel")
  | String c s', S fuel' =>
      match lex1 c s' with
      | Skip r => lex fuel' r
      | Lexeme t r => ts <- lex fuel' r ;; Ok (t :: ts)
      | Bad => syntax_error
      end
  end.
(** ppfa, 2294-2311, of a text with one expression *)
Definition ppfa (s : string) : res tree := ts <- lex (String.length s) s ;; parse ts.
