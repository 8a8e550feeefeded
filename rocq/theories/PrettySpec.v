(** What operator expressions mean, stated by a grammar with levels: from the loosest to the tightest, as the documentation of PrettyPFA lists them. *)
From Verif Require Import Base PrettyModel.
Open Scope string_scope.
Open Scope list_scope.

(** how tightly operators bind, and which of them may be chained: all but comparisons, from the left *)
Definition binds (o : binop) : nat :=
  match o with
  | OR => 1 | XOR => 2 | AND => 3 | EQ | NE | LT | LE | GT | GE => 5 | BITOR => 6 | BITXOR => 7 | BITAND => 8 | PLUS | MINUS => 9 | TIMES | FDIV | IDIV | MOD | REM => 10 | POW => 12
  end.
Definition comparison (o : binop) : bool := match o with EQ | NE | LT | LE | GT | GE => true | _ => false end.
Definition sign_binds (u : unop) : nat := match u with NOT => 4 | UMINUS | BITNOT => 11 end.
(** the PFA functions of the operators *)
Definition function_of (o : binop) : string :=
  match o with
  | OR => "||" | XOR => "^^" | AND => "&&" | EQ => "==" | NE => "!=" | LT => "<" | LE => "<=" | GT => ">" | GE => ">=" | BITOR => "|" | BITXOR => "^" | BITAND => "&"
  | PLUS => "+" | MINUS => "-" | TIMES => "*" | FDIV => "/" | IDIV => "//" | MOD => "%" | REM => "%%" | POW => "**"
  end.
Definition sign_function (u : unop) : string := match u with UMINUS => "u-" | BITNOT => "~" | NOT => "!" end.
Definition sign_token (u : unop) : token := match u with UMINUS => TOp MINUS | BITNOT => TBitnot | NOT => TNot end.
(** the tightest level: no operator outside brackets *)
Definition tight : nat := 13.

Fixpoint commas (l : list (list token)) : list token := match l with [] => [] | [x] => x | x :: l' => x ++ TComma :: commas l' end.
(** [written first k t ts]: the tokens are a way to write the expression where operators of level [k] and tighter may stand; [first]: no operator stands before it.
    Parentheses may stand around everything. Extraction from an expression that is no name is written where no operator stands before. *)
Inductive written : bool -> nat -> tree -> list token -> Prop :=
| w_num f k s : written f k (Num s) [TNum s]
| w_str f k s : written f k (Str s) [TStr s]
| w_name f k s : written f k (Name s) [TName s]
| w_group f k t ts : written true 0 t ts -> written f k t (TL :: ts ++ [TR])
| w_bin f k o l r tl tr : (k <= binds o)%nat -> written f (if comparison o then S (binds o) else binds o) l tl -> written false (S (binds o)) r tr ->
    written f k (Call (function_of o) [l; r]) (tl ++ TOp o :: tr)
| w_un f k u t ts : (k <= sign_binds u)%nat -> written false (sign_binds u) t ts -> written f k (Call (sign_function u) [t]) (sign_token u :: ts)
| w_call f k s args tss : Forall2 (written true 0) args tss -> written f k (Call s args) (TName s :: TL :: commas tss ++ [TR])
| w_get f k s args tss : Forall2 (written true 0) args tss -> written f k (Get s args) (TName s :: TLb :: commas tss ++ [TRb])
| w_genget k t ts args tss : written true tight t ts -> (forall s, last ts TR <> TName s) -> Forall2 (written true 0) args tss ->
    written true k (GenGet t args) (ts ++ TLb :: commas tss ++ [TRb]).

(** the rules of the grammar without their levels: what any text that is accepted has to be *)
Inductive reads : tree -> list token -> Prop :=
| r_num s : reads (Num s) [TNum s]
| r_str s : reads (Str s) [TStr s]
| r_name s : reads (Name s) [TName s]
| r_group t ts : reads t ts -> reads t (TL :: ts ++ [TR])
| r_bin o l r tl tr : reads l tl -> reads r tr -> reads (Call (function_of o) [l; r]) (tl ++ TOp o :: tr)
| r_un u t ts : reads t ts -> reads (Call (sign_function u) [t]) (sign_token u :: ts)
| r_call s args ts : read_all args ts -> reads (Call s args) (TName s :: TL :: ts ++ [TR])
| r_get s args ts : read_all args ts -> reads (Get s args) (TName s :: TLb :: ts ++ [TRb])
| r_genget t ts args ts' : reads t ts -> read_all args ts' -> reads (GenGet t args) (ts ++ TLb :: ts' ++ [TRb])
with read_all : list tree -> list token -> Prop :=
| r_none : read_all [] []
| r_one t ts : reads t ts -> read_all [t] ts
| r_more args ts t ts' : read_all args ts -> reads t ts' -> read_all (args ++ [t]) (ts ++ TComma :: ts').

(** ** texts *)
Import Ascii.
Definition one_of (chars : string) (c : ascii) : Prop := In c (list_ascii_of_string chars).
Definition all_of (chars s : string) : Prop := Forall (one_of chars) (list_ascii_of_string s).
Definition letters : string := "ABCDEFGHIJKLMNOPQRSTUVWXYZabcdefghijklmnopqrstuvwxyz_".
Definition digits : string := "0123456789".
(** a name: words with dots between them, each a letter and then letters and digits *)
Definition word (s : string) : Prop := exists c w, s = String c w /\ one_of letters c /\ all_of (letters ++ digits) w.
Inductive dotted : string -> Prop :=
| d_word s : word s -> dotted s
| d_dot s n : word s -> dotted n -> dotted (s ++ "." ++ n).
Definition keywords : list string := ["idiv"; "fcn"; "if"; "else"; "while"; "do"; "until"; "for"; "foreach"; "cast"; "as"; "ifnotnull"; "unpack"; "try"; "var"; "to"; "init"].
Definition is_name (s : string) : Prop := dotted s /\ ~ In s keywords.
(** a number: digits, a fraction, an exponent; a sign *)
Definition is_unsigned (s : string) : Prop := exists w f e, s = (w ++ f ++ e)%string /\
  (w = "0" \/ exists c d, w = String c d /\ one_of "123456789" c /\ all_of digits d) /\
  (f = "" \/ exists d, f = ("." ++ d)%string /\ all_of digits d) /\
  (e = "" \/ exists l g c d, e = (String l g ++ String c d)%string /\ one_of "eE" l /\ (g = "" \/ g = "-" \/ g = "+") /\ one_of digits c /\ all_of digits d).
Definition is_number (s : string) : Prop := is_unsigned s \/ exists u, s = ("-" ++ u)%string /\ is_unsigned u.
Definition quote : string := String (ascii_of_nat 39) EmptyString.
(** the text of a token *)
Inductive says : token -> string -> Prop :=
| say_num s : is_number s -> says (TNum s) s
| say_str s : ~ one_of s (ascii_of_nat 39) -> says (TStr s) (quote ++ s ++ quote)
| say_name s : is_name s -> says (TName s) s
| say_idiv : says (TOp IDIV) "idiv"
| say_op o : o <> IDIV -> says (TOp o) (function_of o)
| say_bitnot : says TBitnot "~"
| say_not : says TNot "!"
| say_left : says TL "("
| say_right : says TR ")"
| say_open : says TLb "["
| say_close : says TRb "]"
| say_comma : says TComma ",".
(** blanks, tabs, ends of lines and comments *)
Definition line_end : string := String (ascii_of_nat 10) EmptyString.
Definition white : string := String (ascii_of_nat 32) (String (ascii_of_nat 9) (String (ascii_of_nat 10) (String (ascii_of_nat 13) EmptyString))).
Inductive filling : string -> Prop :=
| f_nil : filling ""
| f_white c f : one_of white c -> filling f -> filling (String c f)
| f_comment x f : ~ one_of x (ascii_of_nat 10) -> filling f -> filling ("//" ++ x ++ line_end ++ f).
(** a text of tokens: white space, and what else does not count, between them *)
Inductive spaced : list token -> string -> Prop :=
| sp_nil : spaced [] ""
| sp_last t x : says t x -> spaced [t] x
| sp_cons t x c f ts s : says t x -> one_of white c -> filling f -> spaced ts s -> spaced (t :: ts) (x ++ String c (f ++ s)).
(** expressions that can be said: names are names, numbers are numbers, calls are of names or of operators with their operands *)
Inductive sayable : tree -> Prop :=
| y_num s : is_number s -> sayable (Num s)
| y_str s : ~ one_of s (ascii_of_nat 39) -> sayable (Str s)
| y_name s : is_name s -> sayable (Name s)
| y_bin o l r : sayable l -> sayable r -> sayable (Call (function_of o) [l; r])
| y_un u t : sayable t -> sayable (Call (sign_function u) [t])
| y_call s args : is_name s -> Forall sayable args -> sayable (Call s args)
| y_get s args : is_name s -> Forall sayable args -> sayable (Get s args)
| y_genget t args : sayable t -> Forall sayable args -> sayable (GenGet t args).
