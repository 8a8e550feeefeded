(** The checks a cast block passes before it runs, titus/pfaast.py:5155-5182. The type of the block (5184-5187) is
    C12's subject and left out; the block's run is in CoreModel (cast_cases). *)
From Verif Require Import Base ScopeModel TypeModel.
Open Scope list_scope.

(** 5178-5181: exprType.types of a union, [exprType] of any other type *)
Definition must_find (from : ty) : list ty := match from with TUnion ts => ts | _ => [from] end.
(** 5165-5168 and, unless the block is partial, 5177-5185 *)
Definition check_cast (D : defs) (partial : bool) (from : ty) (types : list ty) : bool :=
  (forallb (fun t => accepts D D from t) types &&
   (partial || forallb (fun m => existsb (fun t => accepts D D t m && accepts D D m t) types) (must_find from)))%bool.
