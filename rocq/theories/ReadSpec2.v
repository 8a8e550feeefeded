(** The trees and documents that the reader may give: a definition of its own, that says for every kind of node which
    names, lists and numbers it may have (C45, C46). *)
From Verif Require Import Base PyNum ScopeModel ReadModel ReadSpec.
From Coq Require Import Ascii.
Open Scope string_scope.
Open Scope list_scope.
Open Scope Z_scope.

(** ** Names *)
Definition between (lo hi : nat) (c : ascii) : Prop := (lo <= nat_of_ascii c <= hi)%nat.
Definition letter (c : ascii) : Prop := between 65 90 c \/ between 97 122 c.
Definition underscore (c : ascii) : Prop := nat_of_ascii c = 95%nat.
Definition digit (c : ascii) : Prop := between 48 57 c.
(** what follows the first letter of a symbol; a newline may end it *)
Inductive tail : string -> Prop :=
| tail_end : tail ""
| tail_newline c : nat_of_ascii c = 10%nat -> tail (String c "")
| tail_word c s : letter c \/ underscore c \/ digit c -> tail s -> tail (String c s).
Inductive symbol : string -> Prop :=
| symbol_of c s : letter c \/ underscore c -> tail s -> symbol (String c s).
(** the name of a function may have dots, each before a letter *)
Inductive dotted_tail : string -> Prop :=
| dt_end : dotted_tail ""
| dt_newline c : nat_of_ascii c = 10%nat -> dotted_tail (String c "")
| dt_word c s : letter c \/ underscore c \/ digit c -> dotted_tail s -> dotted_tail (String c s)
| dt_dot c d s : nat_of_ascii c = 46%nat -> letter d -> dotted_tail s -> dotted_tail (String c (String d s)).
Inductive function_name : string -> Prop :=
| function_of c s : letter c \/ underscore c -> dotted_tail s -> function_name (String c s).

(** ** Trees *)
(** JSON without marks of positions *)
Definition clean (v : val) : Prop := forall d k u, occurs (VDict d) v -> In (k, u) d -> k <> "@".
Definition no_mark {A} (l : list (string * A)) : Prop := forall k x, In (k, x) l -> k <> "@".
Definition exprs (l : list node) : Prop := forall a, In a l -> is_expr a = true.
Definition is_body (l : list node) : Prop := l <> [] /\ exprs l.
Definition expr_map (l : list (string * node)) : Prop := no_mark l /\ exprs (map snd l).
Definition int_in (lo hi : Z) (v : val) : Prop := exists z, v = VInt z /\ lo <= z <= hi.
Definition is_bool (v : val) : Prop := exists b, v = VBool b.
Definition long_or_bool (v : val) : Prop := is_bool v \/ int_in (-9223372036854775808) 9223372036854775807 v.
Definition int_or_bool (v : val) : Prop := is_bool v \/ int_in (-2147483648) 2147483647 v.
(** the fields of the special forms: none can be the name of a function that is called *)
Definition special : list string :=
  ["int"; "long"; "float"; "double"; "string"; "base64"; "type"; "value"; "let"; "set"; "for"; "step"; "ifnotnull";
   "do"; "then"; "else"; "log"; "path"; "args"; "try"; "attr"; "if"; "while"; "until"; "unpack"; "del"; "cond"; "cases";
   "foreach"; "forkey"; "forval"; "fcn"; "cell"; "pool"; "in"; "cast"; "upcast"; "init"; "call"; "seq"; "partial"; "doc";
   "error"; "code"; "namespace"; "new"; "params"; "ret"; "as"; "to"; "fill"; "filter"; "format"; "pack"].
Definition shape (a : node) : Prop :=
  match a with
  | ANull | ABool _ | AInt _ | AFloat _ | ADouble _ | AStr _ | ABase64 _ | ADoc _ | AError _ None => True
  | ALong v => long_or_bool v
  | ALit t v => clean t /\ clean v
  | ANewObj fs t => expr_map fs /\ clean t
  | ANewArr xs t => exprs xs /\ clean t
  | ADo l => is_body l
  | ALet fs | ASet fs | APack fs => fs <> [] /\ expr_map fs
  | ARef x => symbol x
  | AAttrGet e p => is_expr e = true /\ is_body p
  | AAttrTo e p to => is_expr e = true /\ is_body p
  | ACellGet _ p | ACellTo _ p _ => exprs p
  | APoolGet _ p => is_body p
  | APoolTo _ p to init => is_body p /\ is_expr init = true
  | APoolDel _ e => is_expr e = true
  | AIf p yes no => is_expr p = true /\ is_body yes /\ (forall l, no = Some l -> is_body l)
  | ACond ifs no => ifs <> [] /\ (forall a, In a ifs -> exists p yes, a = AIf p yes None) /\ (forall l, no = Some l -> is_body l)
  | AWhile p l | AUntil l p => is_expr p = true /\ exprs l
  | AFor i p s l => i <> [] /\ expr_map i /\ is_expr p = true /\ s <> [] /\ expr_map s /\ is_body l
  | AForeach x e l _ => symbol x /\ is_expr e = true /\ is_body l
  | AForkey k v e l => symbol k /\ symbol v /\ is_expr e = true /\ is_body l
  | ACast e cases _ => is_expr e = true /\ forall t x l, In (t, x, l) cases -> clean t /\ symbol x /\ is_body l
  | AUpcast e t => is_expr e = true /\ clean t
  | AIfNotNull fs yes no => fs <> [] /\ expr_map fs /\ is_body yes /\ (forall l, no = Some l -> is_body l)
  | AUnpack e fmt yes no => is_expr e = true /\ fmt <> [] /\ no_mark fmt /\ is_body yes /\ (forall l, no = Some l -> is_body l)
  | AError _ (Some c) => int_in (-2147483648) (-1) c
  | ATry xs filter => exprs xs /\ forall l, filter = Some l -> forall v, In v l -> (exists s, v = VStr s) \/ (exists z, v = VInt z) \/ is_bool v
  | ALog xs _ => exprs xs
  | AFcnDef params ret l => (forall x t, In (x, t) params -> symbol x /\ clean t) /\ clean ret /\ is_body l
  | AFcnRef f => function_name f
  | AFcnFill f fill => function_name f /\ fill <> [] /\ no_mark fill
  | ACallUser e args => is_expr e = true /\ exprs args
  | ACall f _ => ~ In f special /\ f <> "@"
  end.
Definition well_formed (a : node) : Prop := forall b, within b a -> shape b.

(** ** Documents *)
Definition cell_shape (x : cell) : Prop :=
  clean (ce_type x) /\ ~ (ce_shared x = true /\ ce_rollback x = true) /\
  match ce_init x with
  | Text v => clean v /\ ce_source x = "embedded"
  | Fetch _ => ce_source x = "json" \/ ce_source x = "avro"
  end.
Definition pool_shape (x : pool) : Prop :=
  clean (po_type x) /\ ~ (po_shared x = true /\ po_rollback x = true) /\ po_source x = "embedded" /\
  forall k v, In (k, v) (po_init x) -> k <> "@" /\ clean v.
Definition well_formed_doc (c : config) : Prop :=
  In (co_method c) ["map"; "emit"; "fold"] /\ clean (co_input c) /\ clean (co_output c) /\
  exprs (co_begin c) /\ is_body (co_action c) /\ exprs (co_end c) /\
  (forall a, In a (co_begin c ++ co_action c ++ co_end c ++ map snd (co_fcns c) ++ opt_list (co_merge c)) -> well_formed a) /\
  (forall k f, In (k, f) (co_fcns c) -> function_name k /\ exists p r b, f = AFcnDef p r b) /\
  (* a fold engine has a zero and a merge, and no other engine has either *)
  (co_method c = "fold" -> (exists z, co_zero c = Some z /\ clean z) /\ exists m, co_merge c = Some m /\ is_body m) /\
  (co_method c <> "fold" -> co_zero c = None /\ co_merge c = None) /\
  (forall k x, In (k, x) (co_cells c) -> symbol k /\ cell_shape x) /\
  (forall k x, In (k, x) (co_pools c) -> symbol k /\ pool_shape x) /\
  (forall v, co_seed c = Some v -> long_or_bool v) /\ (forall v, co_version c = Some v -> int_or_bool v) /\
  no_mark (co_metadata c) /\ (forall k v, In (k, v) (co_options c) -> k <> "@" /\ clean v).
