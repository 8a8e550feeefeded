(** Model of lib/impute.py:36-124. *)
From Verif Require Import Base PyNum ScopeModel TypeModel.
Open Scope list_scope.
Open Scope Z_scope.

(** list(x.values())[0] of a dict, otherwise x; [ret]: paramTypes[-1], the declared result (a list: a union), 44-51 and 61-68 *)
Definition untag (ret : ty) (x : val) : res val :=
  match ret with
  | TUnion _ => Ok x
  | _ => match x with
         | VDict [] => Raise (PyErr "IndexError")
         | VDict ((_, v) :: _) => Ok v
         | _ => Ok x
         end
  end.
(** ErrorOnNull.__call__, 40-51 *)
Definition errorOnNull (ret : ty) (x : val) : res val :=
  match x with VNull => Raise (PFAErr 21000) | _ => untag ret x end.
(** DefaultOnNull.__call__, 57-68 *)
Definition defaultOnNull (ret : ty) (x default : val) : res val :=
  match x with VNull => Ok default | _ => untag ret x end.

(** IsNan, IsInf, IsNum, 71-95 *)
Definition imp_isnan (x : pf) : bool := isnan x.
Definition imp_isinf (x : pf) : bool := isinf x.
Definition imp_isnum (x : pf) : bool := negb (isnan x) && negb (isinf x).
(** ErrorOnNonNum.__call__, 102-112 *)
Definition errorOnNonNum (x : pf) : res pf :=
  if isnan x then Raise (PFAErr 21050)
  else if isinf x then (if num_gt (NF x) (NF f0) then Raise (PFAErr 21051) else Raise (PFAErr 21052))
  else Ok x.
(** DefaultOnNonNum.__call__, 119-123 *)
Definition defaultOnNonNum (x default : pf) : pf := if isnan x || isinf x then default else x.
