(** What tree scoring means: decision trees as an inductive type, paths, and what it is to answer along a path. *)
From Verif Require Import Base PyNum Effects ScopeModel TypeModel JsonModel.
Open Scope string_scope.
Open Scope list_scope.
Open Scope Z_scope.

Inductive side := Pass | Fail | Missing.
Definition side_name (s : side) : string := match s with Pass => "pass" | Fail => "fail" | Missing => "missing" end.

(** A decision tree: the value of a node is kept (the predicate sees it), a branch is a score or a tree. *)
Inductive dtree := Score (v : val) | Node (v : val) (pass fail missing : dtree).
Definition child (t : dtree) (s : side) : option dtree :=
  match t with
  | Score _ => None
  | Node _ p f m => Some (match s with Pass => p | Fail => f | Missing => m end)
  end.
(** the score at the end of a path, and the nodes along it *)
Fixpoint follow (t : dtree) (p : list side) : option val :=
  match t, p with
  | Score v, [] => Some v
  | Node _ _ _ _, s :: p' => match child t s with Some t' => follow t' p' | None => None end
  | _, _ => None
  end.
Fixpoint along (t : dtree) (p : list side) : list val :=
  match t, p with
  | Node v _ _ _, s :: p' => v :: match child t s with Some t' => along t' p' | None => [] end
  | _, _ => []
  end.
(** the node at the end of a path *)
Fixpoint node_at (t : dtree) (p : list side) : option val :=
  match t, p with
  | Node v _ _ _, [] => Some v
  | Node _ _ _ _, s :: p' => match child t s with Some t' => node_at t' p' | None => None end
  | Score _, _ => None
  end.

(** How a value of the union type of a branch shows a tree: the score null is None, any other score has the tag of
    its type, a subtree the tag T. [sides]: the branches the record type has. *)
Inductive shows (T : string) (sides : list side) : val -> dtree -> Prop :=
| shows_node d p f m :
    (In Pass sides -> exists u, assoc "pass" d = Some u /\ shows_branch T sides u p) ->
    (In Fail sides -> exists u, assoc "fail" d = Some u /\ shows_branch T sides u f) ->
    (In Missing sides -> exists u, assoc "missing" d = Some u /\ shows_branch T sides u m) ->
    shows T sides (VDict d) (Node (VDict d) p f m)
with shows_branch (T : string) (sides : list side) : val -> dtree -> Prop :=
| shows_null : shows_branch T sides VNull (Score VNull)
| shows_score tag v : tag <> T -> shows_branch T sides (VDict [(tag, v)]) (Score v)
| shows_sub v t : shows T sides v t -> shows_branch T sides (VDict [(T, v)]) t.

Section Answers.
  Context {S A : Type} (test : val -> M S A) (to_side : A -> side).
  (** The test, called on the given nodes one after the other and on nothing else, answers with the given sides. *)
  Inductive answers : list val -> list side -> S -> S -> Prop :=
  | answers_nil s : answers [] [] s s
  | answers_cons n a ns ds s s1 s2 :
      test n s = (Ok a, s1) -> answers ns ds s1 s2 -> answers (n :: ns) (to_side a :: ds) s s2.
End Answers.
Definition of_bool (b : bool) : side := if b then Pass else Fail.
Definition of_option (b : option bool) : side := match b with Some b => of_bool b | None => Missing end.

(** the depth of a Python value *)
Fixpoint vdepth (v : val) : nat :=
  match v with
  | VArr l => S (list_max (map vdepth l))
  | VDict d => S (list_max (map (fun kv => vdepth (snd kv)) d))
  | _ => O
  end.
(** the outcomes of a comparison *)
Definition ops_agree (lt eq gt : bool) (test : string -> option bool) : Prop :=
  test "<" = Some lt /\ test "==" = Some eq /\ test ">" = Some gt /\
  test "<=" = Some (lt || eq)%bool /\ test ">=" = Some (gt || eq)%bool /\ test "!=" = Some (negb eq).
