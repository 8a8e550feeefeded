(** Specification vocabulary for interpolation tables. *)
From Coq Require Import QArith Qabs.
From Verif Require Import Base.
Open Scope list_scope.
Open Scope Z_scope.

Section Tables.
  Context {Y : Type}.
  Implicit Types (table : list (Q * Y)) (e : Q * Y).
  (** [e] is the entry with the largest x not above [x] (the first one, if that x occurs repeatedly) *)
  Definition last_below table (x : Q) e : Prop :=
    exists p q, table = p ++ e :: q /\ (fst e <= x)%Q /\
      (forall e', In e' p -> (fst e' <= x)%Q -> (fst e' < fst e)%Q) /\
      (forall e', In e' q -> (fst e' <= x)%Q -> (fst e' <= fst e)%Q).
  (** [e] is the entry with the smallest x above [x] (the first one) *)
  Definition next_above table (x : Q) e : Prop :=
    exists p q, table = p ++ e :: q /\ (x < fst e)%Q /\
      (forall e', In e' p -> (x < fst e')%Q -> (fst e < fst e')%Q) /\
      (forall e', In e' q -> (x < fst e')%Q -> (fst e <= fst e')%Q).
  Definition inside table (x : Q) : Prop :=
    (exists e, In e table /\ (fst e <= x)%Q) /\ (exists e, In e table /\ (x < fst e)%Q).
  Definition two_distinct table : Prop := exists e e', In e table /\ In e' table /\ ~ (fst e == fst e')%Q.
  (** distance of the entry from x *)
  Definition apart (x : Q) e : Q := Qabs (x - fst e).
  (** the (first) nearest entry, and the (first) nearest one among those with another x *)
  Definition nearest_entry table (x : Q) e : Prop :=
    exists p q, table = p ++ e :: q /\
      (forall e', In e' p -> (apart x e < apart x e')%Q) /\
      (forall e', In e' q -> (apart x e <= apart x e')%Q).
  Definition second_entry table (x : Q) e e2 : Prop :=
    exists p q, table = p ++ e2 :: q /\ ~ (fst e2 == fst e)%Q /\
      (forall e', In e' p -> (fst e' == fst e)%Q \/ (apart x e2 < apart x e')%Q) /\
      (forall e', In e' q -> (fst e' == fst e)%Q \/ (apart x e2 <= apart x e')%Q).
End Tables.
(** (x, y) is on the straight line through (x0, y0) and (x1, y1) *)
Definition on_line (e0 e1 : Q * Q) (x y : Q) : Prop :=
  (~ fst e0 == fst e1 /\ (y - snd e0) * (fst e1 - fst e0) == (x - fst e0) * (snd e1 - snd e0))%Q.
