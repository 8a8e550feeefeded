(** Specifications used by the arithmetic theorems; independent of the model's functions. *)
From Verif Require Import Base PyNum ArithModel.
Open Scope Z_scope.

(** z is representable in w-bit two's complement. *)
Definition fits (w z : Z) : Prop := - 2 ^ (w - 1) <= z < 2 ^ (w - 1).
Definition width (t : ntype) : Z := match t with TInt => 32 | _ => 64 end.
Definition integral (t : ntype) : Prop := t = TInt \/ t = TLong.

(** The result is the exact value when it fits, and the documented overflow error otherwise. *)
Definition exact_or_overflow (t : ntype) (exact cInt cLong : Z) (r : res num) : Prop :=
  (fits (width t) exact -> r = Ok (NI exact)) /\
  (~ fits (width t) exact -> r = Raise (PFAErr (match t with TInt => cInt | _ => cLong end))).

(** w-bit pattern (as an unsigned number) of a two's complement integer. *)
Definition pattern (w z : Z) : Z := z mod 2 ^ w.

(** Kleene's strong three-valued logic: [None] is "unknown". *)
Definition k_and (a b : option bool) : option bool :=
  match a, b with
  | Some false, _ | _, Some false => Some false
  | Some true, Some true => Some true
  | _, _ => None
  end.
Definition k_or (a b : option bool) : option bool :=
  match a, b with
  | Some true, _ | _, Some true => Some true
  | Some false, Some false => Some false
  | _, _ => None
  end.
Definition k_not (a : option bool) : option bool := option_map negb a.
(** Meaning of a run-time value of type union(boolean, null). *)
Definition k_val (v : kval) : option bool :=
  match v with KBare b | KTag b => Some b | KNull => None end.
(** An operand without side effects. *)
Definition pure {S A} (a : A) : comp S A := fun s => (Ok a, s).

(** Position [i] of the encoding is hot exactly when [i] is [h]; [None]: no hot position. *)
Definition one_hot {A} (one zero : A) (n : nat) (h : option nat) (l : list A) : Prop :=
  length l = n /\
  forall i, (i < n)%nat -> nth_error l i = Some (match h with
                                                 | Some j => if Nat.eqb i j then one else zero
                                                 | None => zero end).
