(** Computations of the generated Python code: they may raise, and may change a state
    (cells, pools, random generator ...), which keeps its changes when an exception is raised. *)
From Verif Require Import Base.

Section Eff.
  Context {S : Type}.
  Definition M (A : Type) := S -> res A * S.
  Definition ret {A} (a : A) : M A := fun s => (Ok a, s).
  Definition raise {A} (e : exn) : M A := fun s => (Raise e, s).
  Definition bind {A B} (m : M A) (f : A -> M B) : M B := fun s =>
    match m s with
    | (Ok a, s') => f a s'
    | (Raise e, s') => (Raise e, s')
    end.
  Definition lift {A} (r : res A) : M A := fun s => (r, s).
  (** [for x in l: acc = body(acc, x)] with early exit on an exception *)
  Fixpoint foldM {A B} (f : B -> A -> M B) (acc : B) (l : list A) : M B :=
    match l with
    | [] => ret acc
    | x :: l' => bind (f acc x) (fun acc' => foldM f acc' l')
    end.
  (** [[f(x) for x in l]] *)
  Fixpoint mapM {A B} (f : A -> M B) (l : list A) : M (list B) :=
    match l with
    | [] => ret []
    | x :: l' => bind (f x) (fun y => bind (mapM f l') (fun ys => ret (y :: ys)))
    end.
  (** The computation behaves as a pure function of its argument. *)
  Definition is_pure {A B} (f : A -> M B) (g : A -> B) := forall x s, f x s = (Ok (g x), s).
End Eff.
Arguments M S A : clear implicits.
Notation "x <~ m ;; k" := (bind m (fun x => k)) (at level 61, m at next level, right associativity).
