(** Model of the call-graph queries of PFAEngine (titus/genpy.py:1660-1743). *)
From Verif Require Import Base.

(** engine.callGraph: function name -> set of names called directly (genpy.py:1503-1507, a dict of sets;
    sets are lists here, only membership matters). *)
Definition call_graph := list (string * list string).

Fixpoint inb (x : string) (l : list string) : bool :=
  match l with [] => false | y :: l' => if String.eqb x y then true else inb x l' end.

(** genpy.py:1660-1683. [fuel] bounds the recursion depth; None = out of fuel
    (shown impossible for the fuel used by [called_by]). *)
Fixpoint calledBy (fuel : nat) (g : call_graph) (exclude : list string) (f : string) : option (list string) :=
  match fuel with
  | O => None
  | S fuel' =>
      if inb f exclude then Some []
      else match assoc f g with
           | None => Some []
           | Some cs =>
               match (fix go (l : list string) : option (list string) :=
                        match l with
                        | [] => Some []
                        | c :: l' => match calledBy fuel' g (f :: exclude) c, go l' with
                                     | Some r, Some r' => Some (r ++ r')
                                     | _, _ => None
                                     end
                        end) cs with
               | Some nextLevel => Some (cs ++ nextLevel)
               | None => None
               end
           end
  end.
Definition called_by (g : call_graph) (f : string) : option (list string) :=
  calledBy (S (length g)) g [] f.

(** Depths: a natural number or float("inf"). *)
Inductive depth := Fin (n : nat) | Inf.
(** Python's [fdepth > deepest] *)
Definition depth_gt (a b : depth) : bool :=
  match a, b with
  | Inf, Inf => false
  | Inf, Fin _ => true
  | Fin _, Inf => false
  | Fin a, Fin b => Nat.ltb b a
  end.
(** genpy.py:1685-1712 *)
Fixpoint callDepth (fuel : nat) (g : call_graph) (exclude : list string) (start : nat) (f : string) : option depth :=
  match fuel with
  | O => None
  | S fuel' =>
      if inb f exclude then Some Inf
      else match assoc f g with
           | None => Some (Fin start)
           | Some cs =>
               (fix go (deepest : depth) (l : list string) : option depth :=
                  match l with
                  | [] => Some deepest
                  | c :: l' => match callDepth fuel' g (f :: exclude) (S start) c with
                               | Some d => go (if depth_gt d deepest then d else deepest) l'
                               | None => None
                               end
                  end) (Fin start) cs
           end
  end.
Definition call_depth (g : call_graph) (f : string) : option depth := callDepth (S (length g)) g [] 0 f.
(** genpy.py:1714-1722 *)
Definition is_recursive (g : call_graph) (f : string) : option bool :=
  match called_by g f with Some l => Some (inb f l) | None => None end.
(** genpy.py:1724-1732 *)
Definition has_recursive (g : call_graph) (f : string) : option bool :=
  match call_depth g f with Some Inf => Some true | Some _ => Some false | None => None end.
(** genpy.py:1734-1743; CellTo.desc = "cell-to", PoolTo.desc = "pool-to", PoolDel.desc = "pool-del". *)
Definition has_side_effects (g : call_graph) (f : string) : option bool :=
  match called_by g f with
  | Some reach => Some (inb "cell-to" reach || inb "pool-to" reach || inb "pool-del" reach)%bool
  | None => None
  end.
