(** Resolving type declarations that may come in any order: ForwardDeclarationParser.parse, titus/datatype.py:696-749,
    and AvroTypeBuilder, 816-869. The constructor of schemas, avro.schema.SchemaFromJSONData, is not part of titus; it is
    modelled from the Avro library's documented behaviour: named types are registered when they are met, in textual order,
    and a record before its fields; an unknown name, a name in use and a repeated field are a SchemaParseException; a
    repeated or nested union member and a repeated enum symbol are an AvroException. Names are full names (a namespace
    attribute is resolved by the text alone). *)
From Verif Require Import Base PyNum ScopeModel TypeModel.
Open Scope string_scope.
Open Scope list_scope.

(** The JSON form of a type; a field has a name and perhaps a default. *)
Inductive desc :=
| DName (s : string)
| DArray (d : desc)
| DMap (d : desc)
| DUnion (ds : list desc)
| DRecord (n : string) (fs : list ((string * option val) * desc))
| DEnum (n : string) (symbols : list string)
| DFixed (n : string) (size : nat).

Definition prim_of (s : string) : option ty :=
  if String.eqb s "null" then Some TNull else if String.eqb s "boolean" then Some TBool else if String.eqb s "int" then Some TInt
  else if String.eqb s "long" then Some TLong else if String.eqb s "float" then Some TFloat else if String.eqb s "double" then Some TDouble
  else if String.eqb s "bytes" then Some TBytes else if String.eqb s "string" then Some TString else None.
Definition reserved (s : string) : bool :=
  (match prim_of s with Some _ => true | None => false end || mem s ["fixed"; "enum"; "record"; "error"; "array"; "map"; "union"; "error_union"])%bool.

(** avro.schema.Names: the types by name, and the fields of the finished records *)
Record names := Names { nm_types : list (string * ty); nm_defs : defs }.
Definition parse_exception : exn := PyErr "SchemaParseException".
Definition register (n : string) (t : ty) (N : names) : res names :=
  if (reserved n || match assoc n (nm_types N) with Some _ => true | None => false end)%bool then Raise parse_exception
  else Ok (Names (nm_types N ++ [(n, t)]) (nm_defs N)).
(** one after the other, threading the names *)
Section Seq.
  Context {A B S : Type} (f : A -> S -> res (B * S)).
  Fixpoint seq (l : list A) (s : S) : res (list B * S) :=
    match l with
    | [] => Ok ([], s)
    | a :: l' => x <- f a s ;; y <- seq l' (snd x) ;; Ok (fst x :: fst y, snd y)
    end.
End Seq.
Fixpoint distinct (l : list string) : bool := match l with [] => true | x :: l' => (negb (mem x l') && distinct l')%bool end.
(** the checks of a union: the named members by name, the others by type *)
Definition named_type (t : ty) : option string := match t with TRecord n | TEnum n _ | TFixed n _ => Some n | _ => None end.
Definition is_union (t : ty) : bool := match t with TUnion _ => true | _ => false end.
Fixpoint somes {A} (l : list (option A)) : list A := match l with [] => [] | Some a :: l' => a :: somes l' | None :: l' => somes l' end.
Definition union_ok (ts : list ty) : bool :=
  (distinct (somes (map named_type ts)) && negb (existsb is_union ts) &&
   distinct (map tyname (filter (fun t => match named_type t with None => true | Some _ => false end) ts)))%bool.
Fixpoint build (d : desc) (N : names) : res (ty * names) :=
  match d with
  | DName s =>
      match prim_of s with
      | Some t => Ok (t, N)
      | None => match assoc s (nm_types N) with Some t => Ok (t, N) | None => Raise parse_exception end
      end
  | DArray d' => x <- build d' N ;; Ok (TArray (fst x), snd x)
  | DMap d' => x <- build d' N ;; Ok (TMap (fst x), snd x)
  | DUnion ds => x <- seq build ds N ;; if union_ok (fst x) then Ok (TUnion (fst x), snd x) else Raise AvroErr
  | DRecord n fs =>
      N1 <- register n (TRecord n) N ;;
      x <- seq (fun p M => y <- build (snd p) M ;; Ok (Field (fst (fst p)) (fst y) (snd (fst p)) None, snd y)) fs N1 ;;
      if distinct (map f_name (fst x)) then Ok (TRecord n, Names (nm_types (snd x)) (nm_defs (snd x) ++ [(n, fst x)]))
      else Raise parse_exception
  | DEnum n symbols =>
      if distinct symbols then N1 <- register n (TEnum n symbols) N ;; Ok (TEnum n symbols, N1) else Raise AvroErr
  | DFixed n size => N1 <- register n (TFixed n size) N ;; Ok (TFixed n size, N1)
  end.

(** *** parse, 713-749 *)
Section Parse.
  (** json.loads of the texts *)
  Context (loads : string -> desc).
  Definition table := list (string * ty).
  (** 720-736: [found] is schemae; after a SchemaParseException the names are as before (733) *)
  Definition attempt (text : string) (s : table * names) : res (table * names) :=
    let (found, N) := s in
    match assoc text found with
    | Some _ => Ok s
    | None =>
        match match loads text with DName x => assoc x (nm_types N) | _ => None end with       (* 724 *)
        | Some t => Ok (found ++ [(text, t)], N)
        | None =>
            match build (loads text) N with
            | Ok (t, N') => Ok (found ++ [(text, t)], N')
            | Raise (PyErr "SchemaParseException") => Ok (found, N)
            | Raise e => Raise e
            end
        end
    end.
  Fixpoint round (texts : list string) (s : table * names) : res (table * names) :=
    match texts with
    | [] => Ok s
    | x :: r => s' <- attempt x s ;; round r s'
    end.
  Definition unresolved (texts : list string) (found : table) : nat :=
    length (filter (fun x => match assoc x found with Some _ => false | None => true end) texts).
  (** 719-745; None is running out of [fuel]; [last] is None before the first round (-1 in the code) *)
  Fixpoint resolve (fuel : nat) (texts : list string) (last : option nat) (s : table * names) : option (res (table * names)) :=
    match fuel with
    | O => None
    | S k =>
        match round texts s with
        | Raise e => Some (Raise e)
        | Ok s' =>
            let u := unresolved texts (fst s') in
            if match last with Some l => Nat.eqb u l | None => false end then Some (Raise parse_exception)
            else if Nat.eqb u 0 then Some (Ok s') else resolve k texts (Some u) s'
        end
    end.
  (** the types by text (747), and the names afterwards *)
  Definition parse (fuel : nat) (N : names) (texts : list string) : option (res (table * names)) := resolve fuel texts None ([], N).
End Parse.

(** *** AvroTypeBuilder.removeDuplicateNames, 835-856 *)
(** [same] is Python's == of the two JSON forms. The walk goes through the types only; titus also walks through the other
    parts of the JSON. *)
Section Dedupe.
  Context (same : desc -> desc -> bool).
  Definition memo := list (string * desc).
  Definition once (n : string) (d : desc) (m : memo) (k : memo -> res (desc * memo)) : res (desc * memo) :=
    match assoc n m with
    | Some d' => if same d' d then Ok (DName n, m) else Raise AvroErr        (* 841-844 *)
    | None => k (m ++ [(n, d)])                                              (* 846-847 *)
    end.
  Fixpoint dedupe (d : desc) (m : memo) : res (desc * memo) :=
    match d with
    | DName _ => Ok (d, m)
    | DArray x => y <- dedupe x m ;; Ok (DArray (fst y), snd y)
    | DMap x => y <- dedupe x m ;; Ok (DMap (fst y), snd y)
    | DUnion ds => y <- seq dedupe ds m ;; Ok (DUnion (fst y), snd y)
    | DRecord n fs =>
        once n d m (fun m1 => y <- seq (fun p m2 => z <- dedupe (snd p) m2 ;; Ok ((fst p, fst z), snd z)) fs m1 ;; Ok (DRecord n (fst y), snd y))
    | DEnum n _ | DFixed n _ => once n d m (fun m1 => Ok (d, m1))
    end.
  (** makePlaceholder with a memo (858-862), for the types of a document in order of appearance *)
  Definition dedupe_all (ds : list desc) (m : memo) : res (list desc * memo) := seq dedupe ds m.
End Dedupe.
