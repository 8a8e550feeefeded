(** Model of titus.util.DynamicScope (util.py:107-153). *)
From Verif Require Import Base PyNum.
From Coq Require Import Floats.SpecFloat.

(** Run-time values of the generated Python code. Maps, records and tagged unions ({tag: value})
    are all Python dicts, so they share one constructor. *)
Inductive val :=
| VNull
| VBool (b : bool)
| VInt (z : Z)
| VFlt (f : spec_float)
| VStr (s : string)
| VBytes (l : list Z)
| VArr (l : list val)
| VDict (d : list (string * val)).

(** self.symbols, util.py:115 *)
Definition frame := list (string * val).
(** A scope object together with its chain of parents, innermost first. Python objects share parents;
    a parent is only ever reached through the chain, so the chain is kept as a list. *)
Definition scopes := list frame.

(** util.py:117-130 *)
Fixpoint scope_get (x : string) (ss : scopes) : res val :=
  match ss with
  | [] => Raise (PyErr "RuntimeError")
  | f :: ss' => match assoc x f with Some v => Ok v | None => scope_get x ss' end
  end.
(** dict update, one item after the other *)
Fixpoint frame_let (bs : list (string * val)) (f : frame) : frame :=
  match bs with [] => f | (x, v) :: bs' => frame_let bs' (dict_set x v f) end.
(** util.py:132-139 (a scope always has at least one frame) *)
Definition scope_let (bs : list (string * val)) (ss : scopes) : scopes :=
  match ss with [] => [frame_let bs []] | f :: ss' => frame_let bs f :: ss' end.
(** util.py:141-153. When a symbol is not in this scope, the WHOLE dict is passed to the parent
    (line 151). [d] is the number of frames. *)
Fixpoint scope_set (d : nat) (bs : list (string * val)) (ss : scopes) : res unit * scopes :=
  match d with
  | O => (Raise (PyErr "RuntimeError"), ss)
  | S d' =>
      match ss with
      | [] => (Raise (PyErr "RuntimeError"), ss)
      | f :: rest =>
          (fix go (todo : list (string * val)) (f : frame) (rest : scopes) : res unit * scopes :=
             match todo with
             | [] => (Ok tt, f :: rest)
             | (x, v) :: todo' =>
                 if has_key x f then go todo' (dict_set x v f) rest
                 else match scope_set d' bs rest with
                      | (Ok _, rest') => go todo' f rest'
                      | (Raise e, rest') => (Raise e, f :: rest')
                      end
             end) bs f rest
      end
  end.
Definition set_vars (bs : list (string * val)) (ss : scopes) : res unit * scopes :=
  scope_set (length ss) bs ss.
