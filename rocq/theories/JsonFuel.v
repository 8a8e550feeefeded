(** The bound on the recursion does not matter once it is large enough. *)
From Verif Require Import Base PyNum ScopeModel TypeModel JsonModel.
Open Scope string_scope.
Open Scope list_scope.

Definition rle {A} (r r' : res A) : Prop := r = recursion \/ r = r'.
Lemma rle_refl {A} (r : res A) : rle r r.
Proof. now right. Qed.
Lemma rle_bind {A B} (m m' : res A) (k k' : A -> res B) : rle m m' -> (forall a, rle (k a) (k' a)) -> rle (rbind m k) (rbind m' k').
Proof. intros [->| ->] H; [now left|]. destruct m'; cbn; [apply H|now right]. Qed.
Lemma rle_rmapM {A B} (f f' : A -> res B) l : (forall a, rle (f a) (f' a)) -> rle (rmapM f l) (rmapM f' l).
Proof.
  intros H. induction l as [|a l IH]; cbn; [apply rle_refl|]. apply rle_bind; [apply H|]. intros b. apply rle_bind; [apply IH|].
  intros; apply rle_refl.
Qed.
Lemma rle_on_values f f' d : (forall a, rle (f a) (f' a)) -> rle (on_values f d) (on_values f' d).
Proof. intros H. apply rle_rmapM. intros [k x]. apply rle_bind; [apply H|]. intros; apply rle_refl. Qed.
Lemma rle_first_type {A} (f f' : ty -> res A) ts : (forall t, rle (f t) (f' t)) -> rle (first_type f ts) (first_type f' ts).
Proof.
  intros H. induction ts as [|t ts IH]; cbn; [apply rle_refl|]. destruct (H t) as [->| ->]; [now left|].
  destruct (f' t) as [|[]]; try apply rle_refl. exact IH.
Qed.
Lemma rle_last_type (f f' : ty -> res val) ts : (forall t, rle (f t) (f' t)) -> forall i o, rle (last_type f i ts o) (last_type f' i ts o).
Proof.
  intros H. induction ts as [|t ts IH]; intros i o; cbn; [apply rle_refl|]. destruct (H t) as [->| ->]; [now left|].
  destruct (f' t) as [|[]]; try apply rle_refl; apply IH.
Qed.
Lemma rle_first_checked (f f' : ty -> res val) ts : (forall t, rle (f t) (f' t)) -> rle (first_checked f ts) (first_checked f' ts).
Proof.
  intros H. induction ts as [|t ts IH]; cbn; [apply rle_refl|]. destruct (H t) as [->| ->]; [now left|].
  destruct (f' t) as [|[]]; try apply rle_refl. destruct (String.eqb kind "TypeError"); [exact IH|apply rle_refl].
Qed.
Lemma rle_zip (f f' : val -> val -> res Z) xs : (forall x y, rle (f x y) (f' x y)) -> forall ys k, rle (cmp_zip f xs ys k) (cmp_zip f' xs ys k).
Proof.
  intros H. induction xs as [|x xs IH]; intros ys k; cbn; [apply rle_refl|]. destruct ys as [|y ys]; [apply rle_refl|].
  apply rle_bind; [apply H|]. intros a. destruct (a =? 0)%Z; [apply IH|apply rle_refl].
Qed.
Lemma rle_fields (f f' : ty -> val -> val -> res Z) fs : (forall t x y, rle (f t x y) (f' t x y)) -> forall x y, rle (cmp_fields f fs x y) (cmp_fields f' fs x y).
Proof.
  intros H. induction fs as [|fd fs IH]; intros x y; cbn; [apply rle_refl|]. match goal with |- context [if ?c then _ else _] => destruct c end; [apply IH|].
  apply rle_bind; [apply rle_refl|]. intros a. apply rle_bind; [apply rle_refl|]. intros b. apply rle_bind; [apply H|]. intros c.
  destruct (c =? 0)%Z; [apply IH|apply rle_refl].
Qed.
Lemma rle_list_as_map f f' l : (forall a, rle (f a) (f' a)) -> rle (list_as_map f l) (list_as_map f' l).
Proof.
  intros H. destruct l as [|k l]; cbn; [apply rle_refl|]. destruct (as_index k); [|apply rle_refl]. destruct (nth_py _ _); [|apply rle_refl].
  apply rle_bind; [apply H|]. intros; apply rle_refl.
Qed.
Lemma decode_le P D n : forall t v, rle (decode n P D t v) (decode (S n) P D t v).
Proof.
  induction n as [|n IH]; intros t v; [now left|]. remember (S n) as m eqn:Em. rewrite Em at 1. cbn [decode].
  destruct t; try apply rle_refl; destruct v; try apply rle_refl.
  - apply rle_bind; [apply rle_rmapM, IH|]. intros; apply rle_refl.
  - apply rle_bind; [apply rle_on_values, IH|]. intros; apply rle_refl.
  - apply rle_bind; [|intros; apply rle_refl]. apply rle_rmapM. intros f. apply rle_bind; [|intros; apply rle_refl].
    destruct (assoc (f_name f) d); [apply IH|]. destruct (default_of f); [apply IH|apply rle_refl].
  - destruct d as [|[g x] [|]]; try apply rle_refl. destruct (named g (rev types)); [|apply rle_refl].
    apply rle_bind; [apply IH|intros; apply rle_refl].
Qed.
Lemma encode_le D tg n : forall t v, rle (encode n D tg t v) (encode (S n) D tg t v).
Proof.
  induction n as [|n IH]; intros t v; [now left|]. remember (S n) as m eqn:Em. rewrite Em at 1. cbn [encode].
  destruct t.
  14: { destruct (has_null types && _)%bool; [apply rle_refl|]. apply rle_bind.
        - destruct v as [| | | | | | |[|[g x] [|]]]; try apply rle_refl. apply rle_first_type. auto.
        - intros [p|]; [apply rle_refl|]. apply rle_bind; [apply rle_first_type; auto|]. intros; apply rle_refl. }
  all: destruct v; try apply rle_refl.
  - apply rle_bind; [apply rle_rmapM, IH|]. intros; apply rle_refl.
  - apply rle_bind; [apply rle_on_values, IH|]. intros; apply rle_refl.
  - apply rle_bind; [|intros; apply rle_refl]. apply rle_rmapM. intros f. destruct (assoc (f_name f) d); [|apply rle_refl].
    apply rle_bind; [apply IH|intros; apply rle_refl].
Qed.
Lemma compare_le D n : forall t x y, rle (compare n D t x y) (compare (S n) D t x y).
Proof.
  induction n as [|n IH]; intros t x y; [now left|]. remember (S n) as m eqn:Em. rewrite Em at 1. cbn [compare].
  destruct t.
  14: { assert (B : forall v : val, rle
            match v with
            | VDict [(tag, w)] => match position tag types with Some (i, t') => Ok (i, t', w) | None => Raise (PyErr "IndexError") end
            | _ => p <- last_type (fun t' => encode n D true t' v) 0 types None ;;
                   match p with Some (i, t') => Ok (i, t', v) | None => Raise AvroErr end
            end
            match v with
            | VDict [(tag, w)] => match position tag types with Some (i, t') => Ok (i, t', w) | None => Raise (PyErr "IndexError") end
            | _ => p <- last_type (fun t' => encode m D true t' v) 0 types None ;;
                   match p with Some (i, t') => Ok (i, t', v) | None => Raise AvroErr end
            end).
        { assert (B' : forall v, rle (p <- last_type (fun t' => encode n D true t' v) 0 types None ;;
                   match p with Some (i, t') => Ok (i, t', v) | None => Raise AvroErr end) (p <- last_type (fun t' => encode m D true t' v) 0 types None ;;
                   match p with Some (i, t') => Ok (i, t', v) | None => Raise AvroErr end)).
          { intros v. apply rle_bind; [|intros; apply rle_refl]. apply rle_last_type. subst m. intros; apply encode_le. }
          intros v. destruct v as [| | | | | | |[|[g w] [|]]]; try apply B'. apply rle_refl. }
        apply rle_bind; [apply B|]. intros [[i t'] a]. apply rle_bind; [apply B|]. intros [[j t''] b].
        destruct (i =? j)%Z; [apply IH|apply rle_refl]. }
  all: try apply rle_refl; destruct x; try apply rle_refl; destruct y; try apply rle_refl.
  - apply rle_zip, IH.
  - apply rle_fields, IH.
Qed.
Lemma check_le P D n : forall v t, rle (check n P D v t) (check (S n) P D v t).
Proof.
  induction n as [|n IH]; intros v t; [now left|]. remember (S n) as m eqn:Em. rewrite Em at 1. cbn [check].
  destruct t; try apply rle_refl.
  - match goal with |- context [match ?e with Some _ => _ | None => _ end] => destruct e end; [|apply rle_refl].
    apply rle_bind; [|intros; apply rle_refl]. apply rle_rmapM. auto.
  - destruct v; try apply rle_refl; try (apply rle_list_as_map; auto).
    apply rle_bind; [|intros; apply rle_refl]. apply rle_on_values. auto.
  - destruct v; try apply rle_refl. apply rle_bind; [|intros; apply rle_refl]. apply rle_rmapM. intros f.
    destruct (assoc (f_name f) d); [|apply rle_refl]. apply rle_bind; [auto|intros; apply rle_refl].
  - destruct v as [| | | | | | |[|[g w] [|]]]; try (apply rle_first_checked; auto). destruct (named g types); [|apply rle_refl].
    apply rle_bind; [auto|intros; apply rle_refl].
Qed.
Lemma mono_ge {A} (f : nat -> res A) n a : (forall k, rle (f k) (f (S k))) -> f n = Ok a -> forall m, (n <= m)%nat -> f m = Ok a.
Proof.
  intros H E m Hm. induction Hm as [|m Hm IH]; [exact E|]. destruct (H m) as [K|K]; rewrite IH in K; [discriminate|auto].
Qed.
Lemma decode_ge P D n t v w : decode n P D t v = Ok w -> forall m, (n <= m)%nat -> decode m P D t v = Ok w.
Proof. apply (mono_ge (fun n => decode n P D t v)). intros; apply decode_le. Qed.
Lemma encode_ge D tg n t v w : encode n D tg t v = Ok w -> forall m, (n <= m)%nat -> encode m D tg t v = Ok w.
Proof. apply (mono_ge (fun n => encode n D tg t v)). intros; apply encode_le. Qed.
Lemma compare_ge D n t x y c : compare n D t x y = Ok c -> forall m, (n <= m)%nat -> compare m D t x y = Ok c.
Proof. apply (mono_ge (fun n => compare n D t x y)). intros; apply compare_le. Qed.
Lemma check_ge P D n v t w : check n P D v t = Ok w -> forall m, (n <= m)%nat -> check m P D v t = Ok w.
Proof. apply (mono_ge (fun n => check n P D v t)). intros; apply check_le. Qed.
