(** What the parts of a document are, and which names its text can call. *)
From Verif Require Import Base ScopeModel CoreModel EngineModel CallGraphSpec CoreInd.
Open Scope string_scope.
Open Scope list_scope.

(** [inside n m]: m is n or a part of a part ... of n *)
Inductive inside : node -> node -> Prop :=
| in_self n : inside n n
| in_part n p m : In p (parts n) -> inside p m -> inside n m.
(** the expressions of a document *)
Definition doc_top (fcns : list (string * (list string * list expr))) (D : doc) : list expr :=
  d_begin D ++ d_action D ++ d_end D ++ match d_merge D with Some es => es | None => [] end ++ concat (map (fun f => snd (snd f)) fcns).
Definition in_doc (fcns : list (string * (list string * list expr))) (D : doc) (m : node) : Prop :=
  exists e, In e (doc_top fcns D) /\ inside (NE e) m.
(** [AExpr e] is only a way to write the expression e among the arguments *)
Definition is_ast (m : node) : Prop := match m with NA (AExpr _) => False | _ => True end.

(** a property of a node and everything inside *)
Definition everywhere (P : node -> Prop) (n : node) : Prop := forall m, inside n m -> P m.

(** the functions that evaluating this very node calls, or passes to others to call *)
Definition own (n : node) : list string :=
  match n with
  | NE (ECall f _) => [f]
  | NE (ECallUser _ choices _) => map (fun x => ("u." ++ x)%string) choices
  | NE (ECellTo _ _ _) => ["cell-to"]
  | NE (EPoolTo _ _ _ _) => ["pool-to"]
  | NE (EPoolDel _ _) => ["pool-del"]
  | NA (ARef f) => [f]
  | NA (AFill f _) => [f]
  | _ => []
  end.
Definition mentions (n : node) (c : string) : Prop := exists m, inside n m /\ In c (own m).
(** the places whose calls the walk methods forget: the expression of attr and attr-to, the init of pool-to and the
    name given to call *)
Definition forgotten (n : node) : list node :=
  match n with
  | NE (EAttrGet e _) => [NE e]
  | NE (EAttrTo e _ _) => [NE e]
  | NE (EPoolTo _ _ _ init) => [NE init]
  | NE (ECallUser nm _ _) => [NE nm]
  | _ => []
  end.
Definition nothing_forgotten : node -> Prop := everywhere (fun m => forall p c, In p (forgotten m) -> ~ mentions p c).
(** [can_call fcns n c]: evaluating n can call c, directly or through the user functions it can call *)
Inductive can_call (fcns : list (string * (list string * list expr))) : node -> string -> Prop :=
| can_here n c : mentions n c -> can_call fcns n c
| can_through n f ps body e c : can_call fcns n f -> assoc f fcns = Some (ps, body) -> In e body -> mentions (NE e) c -> can_call fcns n c.

(** the section a call of the engine runs *)
Definition section_of (D : doc) (c : call) : list expr :=
  match c with
  | CBegin => d_begin D
  | CAction _ => d_action D
  | CEnd => d_end D
  | CMerge _ _ => match d_merge D with Some es => es | None => [] end
  end.
Definition key_of (c : call) : string :=
  match c with CBegin => "(begin)" | CAction _ => "(action)" | CEnd => "(end)" | CMerge _ _ => "(merge)" end.

(** ** Locks *)
(** all locks of shared cells and pools (pool items) are free *)
Definition free (s : st) : Prop :=
  (forall c x, In (c, x) (s_cells s) -> c_locked x = false) /\ (forall p x, In (p, x) (s_pools s) -> p_locklock x = false /\ p_locks x = []).
Definition is_update (c : string) : Prop := c = "cell-to" \/ c = "pool-to".
(** a function that never updates a cell or pool, whatever it calls *)
Definition quiet (fcns : list (string * (list string * list expr))) (n : node) : Prop := forall c, can_call fcns n c -> ~ is_update c.
