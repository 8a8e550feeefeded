(** What transformations mean, told without the functions of the producer. *)
From Verif Require Import Base PyNum ScopeModel TransModel.
Open Scope string_scope.
Open Scope list_scope.

(** the Numpy function that a function of PFA is written as: the operators, the functions of the mathematics library under their own names, and those that Numpy calls otherwise *)
Definition counterparts : list (string * string) :=
  map (fun on => (fst on, String.append "numpy." (snd on)))
    [("+", "add"); ("-", "subtract"); ("*", "multiply"); ("/", "true_divide"); ("**", "power"); ("u-", "negative"); ("%", "mod"); ("%%", "remainder");
     ("<", "less"); ("<=", "less_equal"); (">", "greater"); (">=", "greater_equal"); ("==", "equal"); ("!=", "not_equal");
     ("!", "logical_not"); ("&&", "logical_and"); ("||", "logical_or"); ("^^", "logical_xor")]%string ++
  map (fun n => (String.append "m." n, String.append "numpy." n))
    ["ceil"; "floor"; "round"; "rint"; "copysign"; "exp"; "expm1"; "hypot"; "log10"; "sqrt"; "sin"; "cos"; "tan"; "sinh"; "cosh"; "tanh"]%string ++
  map (fun on => (String.append "m." (fst on), String.append "numpy." (snd on)))
    [("abs", "absolute"); ("acos", "arccos"); ("asin", "arcsin"); ("atan", "arctan"); ("atan2", "arctan2"); ("ln", "log")]%string.
Definition counterpart_constants : list (string * string) := map (fun n => (String.append "m." n, String.append "math." n)) ["e"; "pi"]%string.

Section Trees.
  (** the nodes of a tree that this file speaks of *)
  Fixpoint plain (a : ast) : Prop :=
    match a with ACall _ args => (fix go (l : list ast) : Prop := match l with [] => True | x :: l' => plain x /\ go l' end) args | AOther _ => False | _ => True end.
  (** the variables and the text literals of a tree *)
  Fixpoint variables (a : ast) : list string :=
    match a with ARef n => [n] | ACall _ args => (fix go (l : list ast) := match l with [] => [] | x :: l' => variables x ++ go l' end) args | _ => [] end.
  Fixpoint texts (a : ast) : list string :=
    match a with AString s => [s] | ACall _ args => (fix go (l : list ast) := match l with [] => [] | x :: l' => texts x ++ go l' end) args | _ => [] end.
  (** trees with a Numpy expression: no null, and only functions of the tables *)
  Fixpoint supported (a : ast) : Prop :=
    match a with
    | ACall n args => (In n (map fst counterparts) \/ (In n ["m.pi"; "m.e"] /\ args = [])) /\ (fix go (l : list ast) : Prop := match l with [] => True | x :: l' => supported x /\ go l' end) args
    | AOther _ => False
    | ANull => False
    | _ => True
    end.
  (** trees that call nothing *)
  Definition calls (a : ast) : bool := match a with ACall _ _ => true | _ => false end.
End Trees.

Section Meaning.
  Variable V : Type.
  Variable lit : val -> V.                        (* the value of a literal in a document *)
  Variable fn : string -> list V -> V.            (* the functions of PFA *)
  Definition tag (k : string) : bool := existsb (String.eqb k) ["long"; "float"; "string"].
  (** what a PFA expression in a document is worth *)
  Fixpoint meaning (env : string -> option V) (j : val) : option V :=
    match j with
    | VStr s => env s
    | VDict [(k, VArr args)] =>
        match (fix go (l : list val) := match l with [] => Some [] | x :: l' => match meaning env x, go l' with Some v, Some vs => Some (v :: vs) | _, _ => None end end) args with
        | Some vs => Some (fn k vs) | None => None end
    | VDict [(k, v)] => if tag k then Some (lit j) else None
    | VNull | VBool _ | VInt _ | VFlt _ => Some (lit j)
    | _ => None
    end.
  (** the variables of a row of a table *)
  Definition row (names : list string) (table : list (list V)) (i : nat) (s : string) : option V :=
    match assoc s (combine names table) with Some l => nth_error l i | None => None end.
  (** Numpy functions that do on one row what the PFA functions do *)
  Definition agree (numpy : string -> list V -> V) : Prop :=
    (forall n f vs, In (n, f) counterparts -> numpy f vs = fn n vs) /\ (forall n f, In (n, f) counterpart_constants -> numpy f [] = fn n []).
End Meaning.

(** sorted without repetition *)
Inductive increasing : list string -> Prop :=
| inc_nil : increasing []
| inc_cons : forall x l, Forall (fun y => String.compare x y = Lt) l -> increasing l -> increasing (x :: l).
