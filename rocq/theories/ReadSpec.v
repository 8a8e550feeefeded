(** What the reader and the writer of documents promise: independent of how ReadModel works. *)
From Verif Require Import Base PyNum ScopeModel ReadModel.
Open Scope string_scope.
Open Scope list_scope.
Open Scope Z_scope.

(** [u] occurs in the JSON tree [v]. *)
Inductive occurs (u : val) : val -> Prop :=
| occurs_here : occurs u u
| occurs_item l v : In v l -> occurs u v -> occurs u (VArr l)
| occurs_entry d k v : In (k, v) d -> occurs u v -> occurs u (VDict d).

(** The trees directly below a tree. *)
Definition opt_list {A} (o : option (list A)) : list A := match o with Some l => l | None => [] end.
Definition parts (a : node) : list node :=
  match a with
  | ANull | ABool _ | AInt _ | ALong _ | AFloat _ | ADouble _ | AStr _ | ABase64 _ | ALit _ _ | ARef _ | ADoc _
  | AError _ _ | AFcnRef _ => []
  | ANewObj fs _ | ALet fs | ASet fs | AFcnFill _ fs | APack fs => map snd fs
  | ANewArr xs _ | ADo xs | ATry xs _ | ALog xs _ | AFcnDef _ _ xs | ACall _ xs => xs
  | AAttrGet e p => e :: p
  | AAttrTo e p to => e :: to :: p
  | ACellGet _ p | APoolGet _ p => p
  | ACellTo _ p to => to :: p
  | APoolTo _ p to init => to :: init :: p
  | APoolDel _ e | AUpcast e _ => [e]
  | AIf p yes no => p :: yes ++ opt_list no
  | ACond ifs no => ifs ++ opt_list no
  | AWhile p body | AUntil body p => p :: body
  | AFor i p s body => p :: map snd i ++ map snd s ++ body
  | AForeach _ e body _ | AForkey _ _ e body => e :: body
  | ACast e cases _ => e :: concat (map snd cases)
  | AIfNotNull fs yes no => map snd fs ++ yes ++ opt_list no
  | AUnpack e _ yes no => e :: yes ++ opt_list no
  | ACallUser e args => e :: args
  end.
Inductive within (b : node) : node -> Prop :=
| within_here : within b b
| within_part a c : In c (parts a) -> within b c -> within b a.

(** The integer literals of a tree are integers of 32 bits: not booleans, and not out of range. *)
Definition int32 (v : val) : Prop := exists z, v = VInt z /\ -2147483648 <= z <= 2147483647.
Definition plain_ints (a : node) : Prop := forall v, within (AInt v) a -> int32 v.
Definition plain_doc (c : config) : Prop :=
  (forall a, In a (co_begin c ++ co_action c ++ co_end c ++ map snd (co_fcns c) ++ opt_list (co_merge c)) -> plain_ints a) /\
  (* every cell has its data in the document *)
  (forall k x, In (k, x) (co_cells c) -> ce_source x = "embedded").
(** Base 64 text reads back. *)
Definition base64_inverse (E : outside) : Prop := forall s, b64_dec E (b64_enc E s) = Ok s.

(** ** Documents that make the reader fail with something else than a PFASyntaxException *)
Definition value_at (d : list (string * val)) (k : string) (P : val -> Prop) : Prop := exists v, In (k, v) d /\ P v.
Definition is_dict (v : val) : Prop := exists d, v = VDict d.
Definition item_of (v : val) (P : val -> Prop) : Prop := exists l u, v = VArr l /\ In u l /\ P u.
Definition has (k : string) (v : val) : Prop := exists d u, v = VDict d /\ In (k, u) d.
(** the object [d] inside an expression is one of these *)
Definition culprit (E : outside) (d : list (string * val)) : Prop :=
  (* "del" alone *)
  (exists v, In ("del", v) d /\ forall k u, In (k, u) d -> k = "del" \/ k = "@") \/
  (* a cast case or a function parameter that is not an object *)
  value_at d "cases" (fun v => item_of v (fun u => ~ is_dict u)) \/
  value_at d "params" (fun v => item_of v (fun u => ~ is_dict u)) \/
  (* an invalid name *)
  (exists k, In k ["foreach"; "forkey"; "forval"] /\ value_at d k (fun v => exists s, v = VStr s /\ valid_symbol s = false)) \/
  value_at d "fcn" (fun v => exists s, v = VStr s /\ valid_function s = false) \/
  (* a member of "cond" that has no "else" at all *)
  value_at d "cond" (fun v => item_of v (fun u => ~ (has "if" u \/ has "cond" u \/ has "ifnotnull" u \/ has "unpack" u))) \/
  (* text that is not base 64 *)
  value_at d "base64" (fun v => exists s e, v = VStr s /\ b64_dec E s = Raise e) \/
  (* an integer beyond the range of floats *)
  (exists k, In k ["float"; "double"] /\ value_at d k (fun v => exists z e, v = VInt z /\ py_float z = Raise e)).
(** a document [v] is one of these *)
Definition bad_document (E : outside) (v : val) : Prop :=
  (* not an object *)
  ~ is_dict v \/
  exists d, v = VDict d /\
    ((* "fcns" or a function that is not an object, or has a parameter that is not one *)
     value_at d "fcns" (fun v => ~ is_dict v \/ exists k f u, v = VDict f /\ In (k, u) f /\
        (~ is_dict u \/ exists g, u = VDict g /\ value_at g "params" (fun v => item_of v (fun u => ~ is_dict u)))) \/
     (* "cells" that is not an object *)
     value_at d "cells" (fun v => ~ is_dict v) \/
     (* a pool that is not an object, or is fetched from a "source" *)
     value_at d "pools" (fun v => exists k f u, v = VDict f /\ In (k, u) f /\
        (~ is_dict u \/ exists g, u = VDict g /\ (In ("source", VStr "json") g \/ In ("source", VStr "avro") g)))).
