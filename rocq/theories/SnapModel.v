(** Loading an engine and taking a snapshot of it: titus/genpy.py:1436-1560 (fromAst), 1632-1658 (snapshot),
    titus/pfaast.py:1108-1204 (Cell), 1209-1308 (Pool) and titus/reader.py:868-995 (cells and pools of a document).
    json.dumps and json.loads are modelled on trees: the text of a tree without bytes reads back as the same tree
    (CPython writes floats, NaN and the infinities so that they read back unchanged), and bytes are a TypeError. The
    types of the cells are written and read as they are. What else a document has (name, action, functions ...) is
    copied by snapshot (1640-1656) and is one opaque component here. *)
From Verif Require Import Base PyNum ScopeModel TypeModel JsonModel.
Open Scope string_scope.
Open Scope list_scope.
Open Scope Z_scope.

Definition syntax_error {A} : res A := Raise (PyErr "PFASyntaxException").
(** json.dumps *)
Definition dumps (v : val) : res val := if has_bytes v then Raise (PyErr "TypeError") else Ok v.

(** The init of a cell: a JSON text, or a function that fetches one (reader.py:897-915). *)
Inductive init := Text (j : val) | Fetch (source url : string).
(** The syntax tree of a cell and of a pool, pfaast.py:1112-1146, 1212-1246. A pool cannot have a function as its init (1232). *)
Record cell_ast := CellAst { ca_type : ty; ca_init : init; ca_shared : bool; ca_rollback : bool; ca_source : string }.
Record pool_ast := PoolAst { pa_type : ty; pa_init : list (string * val); pa_shared : bool; pa_rollback : bool; pa_source : string }.
Definition make_cell (t : ty) (i : init) (shared rollback : bool) (source : string) : res cell_ast :=
  if (shared && rollback)%bool then syntax_error else Ok (CellAst t i shared rollback source).      (* 1145 *)
Definition make_pool (t : ty) (i : list (string * val)) (shared rollback : bool) (source : string) : res pool_ast :=
  if (shared && rollback)%bool then syntax_error else Ok (PoolAst t i shared rollback source).      (* 1245 *)

(** EngineConfig, pfaast.py:663: the record types, the output type and zero of a fold engine, and the rest. *)
Record config {R : Type} := Config {
  cf_defs : defs;
  cf_cells : list (string * cell_ast);
  cf_pools : list (string * pool_ast);
  cf_fold : option (ty * val);
  cf_rest : R }.
Arguments config : clear implicits.

(** genpy.py:515-563: a cell (of a value) or a pool (of a dict) at run time; the locks are in ConcModel. *)
Record item {V : Type} := Item { it_value : V; it_shared : bool; it_rollback : bool; it_source : string }.
Arguments item : clear implicits.
Record shared_state := Shared { sh_cells : list (string * item val); sh_pools : list (string * item (list (string * val))) }.
Record engine {R : Type} := Engine {
  en_cells : list (string * item val);
  en_pools : list (string * item (list (string * val)));
  en_tally : option val;
  en_config : config R }.
Arguments engine : clear implicits.

Section Load.
  Context {R : Type} (P : parsers) (fetch : string -> string -> res val) (n : nat).

  (** pfaast.py:1180-1184 *)
  Definition init_json (c : cell_ast) : res val := match ca_init c with Text j => Ok j | Fetch source url => fetch source url end.
  (** genpy.py:1511, 1526 *)
  Definition cell_value (D : defs) (c : cell_ast) : res (item val) :=
    j <- init_json c ;; v <- decode n P D (ca_type c) j ;; Ok (Item _ v (ca_shared c) (ca_rollback c) (ca_source c)).
  (** genpy.py:1516, 1531: decoded as a map of the type *)
  Definition pool_value (D : defs) (p : pool_ast) : res (item (list (string * val))) :=
    v <- decode (S n) P D (TMap (pa_type p)) (VDict (pa_init p)) ;;
    match v with
    | VDict d => Ok (Item _ d (pa_shared p) (pa_rollback p) (pa_source p))
    | _ => Raise (PyErr "AttributeError")
    end.
  (** the loops of 1509-1517 and 1524-1532: those asked for are made and put under their names *)
  Fixpoint put_all {A V} (wanted : string -> A -> list (string * V) -> bool) (make : A -> res V)
      (l : list (string * A)) (d : list (string * V)) : res (list (string * V)) :=
    match l with
    | [] => Ok d
    | (k, a) :: l' => if wanted k a d then v <- make a ;; put_all wanted make l' (dict_set k v d) else put_all wanted make l' d
    end.
  Definition missing {V} (k : string) (d : list (string * V)) : bool := match assoc k d with Some _ => false | None => true end.
  (** fromAst with multiplicity 1 (1506-1550): the shared state after it, and the engine *)
  Definition from_ast (s : shared_state) (c : config R) : res (shared_state * engine R) :=
    let D := cf_defs c in
    sc <- put_all (fun k a d => ca_shared a && missing k d)%bool (cell_value D) (cf_cells c) (sh_cells s) ;;
    sp <- put_all (fun k a d => pa_shared a && missing k d)%bool (pool_value D) (cf_pools c) (sh_pools s) ;;
    cells <- put_all (fun _ a _ => negb (ca_shared a)) (cell_value D) (cf_cells c) sc ;;
    pools <- put_all (fun _ a _ => negb (pa_shared a)) (pool_value D) (cf_pools c) sp ;;
    tally <- match cf_fold c with
             | Some (t, z) => v <- decode n P D t z ;; Ok (Some v)
             | None => Ok None
             end ;;
    Ok (Shared sc sp, Engine _ cells pools tally c).
End Load.

(** *** snapshot, genpy.py:1632-1658 *)
Section Snapshot.
  Context {R : Type}.
  Definition snapshot_cell (c : config R) (kv : string * item val) : res (string * cell_ast) :=
    let (k, v) := kv in
    match assoc k (cf_cells c) with
    | None => Raise (PyErr "KeyError")
    | Some a => j <- dumps (it_value v) ;;
                x <- make_cell (ca_type a) (Text j) (it_shared v) (it_rollback v) (it_source v) ;; Ok (k, x)
    end.
  Definition snapshot_pool (c : config R) (kv : string * item (list (string * val))) : res (string * pool_ast) :=
    let (k, v) := kv in
    match assoc k (cf_pools c) with
    | None => Raise (PyErr "KeyError")
    | Some a => j <- rmapM (fun p => w <- dumps (snd p) ;; Ok (fst p, w)) (it_value v) ;;
                x <- make_pool (pa_type a) j (it_shared v) (it_rollback v) (it_source v) ;; Ok (k, x)
    end.
  Definition snapshot (e : engine R) : res (config R) :=
    let c := en_config e in
    cells <- rmapM (snapshot_cell c) (en_cells e) ;;
    pools <- rmapM (snapshot_pool c) (en_pools e) ;;
    Ok (Config _ (cf_defs c) cells pools (cf_fold c) (cf_rest c)).
End Snapshot.

(** *** Writing and reading the document *)
(** reader.py _stripAtSigns: the locator marks of a document, and everything else that is called "@" *)
Fixpoint strip (v : val) : val :=
  match v with
  | VArr l => VArr (map strip l)
  | VDict d => VDict ((fix go (d : list (string * val)) : list (string * val) :=
                         match d with
                         | [] => []
                         | (k, x) :: d' => if String.eqb k "@" then go d' else (k, strip x) :: go d'
                         end) d)
  | _ => v
  end.
(** a cell or pool of a document: type, init, shared, rollback, and source where it is not "embedded" *)
Record item_json := ItemJson { ij_type : ty; ij_init : val; ij_shared : bool; ij_rollback : bool; ij_source : option string }.
Definition source_json (s : string) : option string := if String.eqb s "embedded" then None else Some s.
(** pfaast.py:1186-1202 and 1286-1303 *)
Definition write_cell (fetch : string -> string -> res val) (c : cell_ast) : res item_json :=
  j <- init_json fetch c ;; Ok (ItemJson (ca_type c) j (ca_shared c) (ca_rollback c) (source_json (ca_source c))).
Definition write_pool (p : pool_ast) : item_json :=
  ItemJson (pa_type p) (VDict (pa_init p)) (pa_shared p) (pa_rollback p) (source_json (pa_source p)).
(** reader.py:878-930. The key "init" of a cell holds the data, or the place to fetch them from. *)
Definition read_cell (x : item_json) : res cell_ast :=
  let j := strip (ij_init x) in
  let source := match ij_source x with Some s => s | None => "embedded" end in
  if (String.eqb source "avro" || String.eqb source "json")%bool then
    match j with
    | VStr url => make_cell (ij_type x) (Fetch source url) (ij_shared x) (ij_rollback x) source
    | _ => syntax_error
    end
  else if String.eqb source "embedded" then make_cell (ij_type x) (Text j) (ij_shared x) (ij_rollback x) source
  else syntax_error.
(** reader.py:942-995: json.loads of a dict is a TypeError (961, 970) *)
Definition read_pool (x : item_json) : res pool_ast :=
  match strip (ij_init x) with
  | VDict d =>
      let source := match ij_source x with Some s => s | None => "embedded" end in
      if (String.eqb source "avro" || String.eqb source "json")%bool then Raise (PyErr "TypeError")
      else if String.eqb source "embedded" then make_pool (ij_type x) d (ij_shared x) (ij_rollback x) source
      else syntax_error
  | _ => syntax_error
  end.
(** jsonToAst(config.toJson(...)): writing the document and reading it again *)
Definition reread {R : Type} (fetch : string -> string -> res val) (c : config R) : res (config R) :=
  cells <- rmapM (fun kv => x <- write_cell fetch (snd kv) ;; a <- read_cell x ;; Ok (fst kv, a)) (cf_cells c) ;;
  pools <- rmapM (fun kv => a <- read_pool (write_pool (snd kv)) ;; Ok (fst kv, a)) (cf_pools c) ;;
  Ok (Config _ (cf_defs c) cells pools (cf_fold c) (cf_rest c)).
