(** Reachability in a call graph, independently of the algorithms. *)
From Verif Require Import Base CallGraphModel.

(** f calls c directly *)
Definition calls_directly (g : call_graph) (f c : string) : Prop := exists cs, assoc f g = Some cs /\ In c cs.
(** [chain g f n c]: a chain of n calls leads from f to c *)
Inductive chain (g : call_graph) : string -> nat -> string -> Prop :=
| chain_refl f : chain g f 0 f
| chain_step f c n h : calls_directly g f c -> chain g c n h -> chain g f (S n) h.
Definition reaches (g : call_graph) (f c : string) : Prop := exists n, chain g f (S n) c.
