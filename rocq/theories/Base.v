(** Common vocabulary of the model: Python exceptions as values. *)
From Coq Require Export String List ZArith Lia Bool.
Export ListNotations.

(** Exceptions that can leave a Python function of titus.
    - [PFAErr code]: titus/errors.py:72-83 (class PFARuntimeException, its [code] attribute);
      the message is determined by the code and is dropped except where a theorem needs it.
    - [UserErr msg code]: titus/errors.py:84-96 (class PFAUserException).
    - [TimeoutErr]: titus/errors.py:97-103 (class PFATimeoutException).
    - [AvroErr]: titus/errors.py:20 (class AvroException).
    - [PyErr kind]: any other Python exception escaping ("TypeError", "KeyError", "IndexError",
      "AttributeError", "OverflowError", "RuntimeError", ...). *)
Inductive exn : Type :=
| PFAErr (code : Z)
| UserErr (msg : string) (code : option Z)
| TimeoutErr
| AvroErr
| PyErr (kind : string).

(** Outcome of a Python call: a return value or a raised exception. *)
Inductive res (A : Type) : Type :=
| Ok (a : A)
| Raise (e : exn).
Arguments Ok {A} a.
Arguments Raise {A} e.

Definition rbind {A B} (m : res A) (f : A -> res B) : res B :=
  match m with Ok a => f a | Raise e => Raise e end.
Notation "x <- m ;; k" := (rbind m (fun x => k))
  (at level 61, m at next level, right associativity).

Definition rmap {A B} (f : A -> B) (m : res A) : res B :=
  match m with Ok a => Ok (f a) | Raise e => Raise e end.

(** Left-to-right evaluation of a list comprehension whose element expression may raise. *)
Fixpoint rmapM {A B} (f : A -> res B) (l : list A) : res (list B) :=
  match l with
  | [] => Ok []
  | a :: l' => b <- f a ;; bs <- rmapM f l' ;; Ok (b :: bs)
  end.

Lemma rmapM_ok_length {A B} (f : A -> res B) l bs :
  rmapM f l = Ok bs -> length bs = length l.
Proof.
  revert bs; induction l as [|a l IH]; simpl; intros bs H.
  - now inversion H.
  - destruct (f a) as [b|]; simpl in H; [|discriminate].
    destruct (rmapM f l) as [bs'|]; simpl in H; [|discriminate].
    inversion H; subst; simpl; f_equal; now apply IH.
Qed.

Lemma rmapM_ok_Forall2 {A B} (f : A -> res B) l bs :
  rmapM f l = Ok bs <-> Forall2 (fun a b => f a = Ok b) l bs.
Proof.
  revert bs; induction l as [|a l IH]; simpl; intros bs; split; intros H.
  - inversion H; constructor.
  - now inversion H.
  - destruct (f a) as [b|] eqn:Ha; simpl in H; [|discriminate].
    destruct (rmapM f l) as [bs'|] eqn:Hl; simpl in H; [|discriminate].
    inversion H; subst. constructor; [assumption|]. now apply IH.
  - inversion H as [|? b ? bs' Ha Hl]; subst. rewrite Ha; simpl.
    apply IH in Hl. now rewrite Hl.
Qed.

Lemma rmapM_pure {A B} (g : A -> B) l : rmapM (fun a => Ok (g a)) l = Ok (map g l).
Proof. induction l as [|a l IH]; simpl; [reflexivity|]. now rewrite IH. Qed.

(** Association lists model Python dicts (insertion order, unique keys). *)
Section Assoc.
  Context {V : Type}.
  Fixpoint assoc (k : string) (d : list (string * V)) : option V :=
    match d with
    | [] => None
    | (k', v) :: d' => if String.eqb k k' then Some v else assoc k d'
    end.
  (** dict item assignment d[k] = v: replaces in place or appends (CPython order). *)
  Fixpoint dict_set (k : string) (v : V) (d : list (string * V)) : list (string * V) :=
    match d with
    | [] => [(k, v)]
    | (k', v') :: d' => if String.eqb k k' then (k', v) :: d' else (k', v') :: dict_set k v d'
    end.
  (** del d[k] (no effect when absent; callers handle KeyError). *)
  Fixpoint dict_del (k : string) (d : list (string * V)) : list (string * V) :=
    match d with
    | [] => []
    | (k', v') :: d' => if String.eqb k k' then d' else (k', v') :: dict_del k d'
    end.
  Definition has_key (k : string) (d : list (string * V)) : bool :=
    match assoc k d with Some _ => true | None => false end.
  Definition keys (d : list (string * V)) : list string := map fst d.

  Lemma assoc_set_eq k v d : assoc k (dict_set k v d) = Some v.
  Proof.
    induction d as [|[k' v'] d IH]; simpl.
    - now rewrite String.eqb_refl.
    - destruct (String.eqb k k') eqn:E; simpl; rewrite E; auto.
  Qed.
  Lemma assoc_set_neq k k2 v d : k2 <> k -> assoc k2 (dict_set k v d) = assoc k2 d.
  Proof.
    intros Hn; induction d as [|[k' v'] d IH]; simpl.
    - apply String.eqb_neq in Hn. now rewrite Hn.
    - destruct (String.eqb k k') eqn:E; simpl.
      + apply String.eqb_eq in E; subst. apply String.eqb_neq in Hn. now rewrite Hn.
      + now rewrite IH.
  Qed.
  Lemma assoc_In k v d : assoc k d = Some v -> In (k, v) d.
  Proof.
    induction d as [|[k' v'] d IH]; simpl; [discriminate|].
    destruct (String.eqb k k') eqn:E.
    - apply String.eqb_eq in E; subst. intros H; inversion H; auto.
    - auto.
  Qed.
  Lemma assoc_None k d : assoc k d = None <-> ~ In k (keys d).
  Proof.
    induction d as [|[k' v'] d IH]; simpl; [split; auto|].
    destruct (String.eqb k k') eqn:E.
    - apply String.eqb_eq in E; subst. split; [discriminate|]. intros H; exfalso; auto.
    - apply String.eqb_neq in E. rewrite IH. split; intros H; [intros [H'|H']; [congruence|auto]|auto].
  Qed.
  Lemma assoc_In_NoDup k v d : NoDup (keys d) -> In (k, v) d -> assoc k d = Some v.
  Proof.
    induction d as [|[k' v'] d IH]; simpl; [intros _ []|].
    intros Hnd [H|H].
    - inversion H; subst. now rewrite String.eqb_refl.
    - inversion Hnd as [|? ? Hni Hnd']; subst.
      destruct (String.eqb k k') eqn:E.
      + apply String.eqb_eq in E; subst. exfalso; apply Hni.
        apply in_map_iff. exists (k', v); auto.
      + auto.
  Qed.
  Lemma keys_set_in k v d k2 : In k2 (keys (dict_set k v d)) <-> k2 = k \/ In k2 (keys d).
  Proof.
    induction d as [|[k' v'] d IH]; simpl.
    - intuition congruence.
    - destruct (String.eqb k k') eqn:E; simpl.
      + apply String.eqb_eq in E; subst. intuition.
      + rewrite IH. intuition.
  Qed.
  Lemma keys_set_NoDup k v d : NoDup (keys d) -> NoDup (keys (dict_set k v d)).
  Proof.
    induction d as [|[k' v'] d IH]; simpl; intros H.
    - constructor; [intros []|constructor].
    - inversion H as [|? ? Hni Hnd]; subst.
      destruct (String.eqb k k') eqn:E; simpl.
      + constructor; auto.
      + constructor; auto. intros Hin. apply keys_set_in in Hin.
        destruct Hin as [->|Hin]; [rewrite String.eqb_refl in E; discriminate|contradiction].
  Qed.
  Lemma keys_set_present k v d : In k (keys d) -> keys (dict_set k v d) = keys d.
  Proof.
    induction d as [|[k' v'] d IH]; simpl; [intros []|].
    destruct (String.eqb k k') eqn:E; simpl; [reflexivity|].
    intros [H|H]; [subst; rewrite String.eqb_refl in E; discriminate|now rewrite IH].
  Qed.
  Lemma assoc_del_eq k d : NoDup (keys d) -> assoc k (dict_del k d) = None.
  Proof.
    induction d as [|[k' v'] d IH]; simpl; intros H; [reflexivity|].
    inversion H as [|? ? Hni Hnd]; subst.
    destruct (String.eqb k k') eqn:E.
    - apply String.eqb_eq in E; subst. now apply assoc_None.
    - simpl. rewrite E. auto.
  Qed.
  Lemma assoc_del_neq k k2 d : k2 <> k -> assoc k2 (dict_del k d) = assoc k2 d.
  Proof.
    intros Hn; induction d as [|[k' v'] d IH]; simpl; [reflexivity|].
    destruct (String.eqb k k') eqn:E.
    - apply String.eqb_eq in E; subst. apply String.eqb_neq in Hn. now rewrite Hn.
    - simpl. now rewrite IH.
  Qed.
  Lemma keys_del_in k d k2 : In k2 (keys (dict_del k d)) -> In k2 (keys d).
  Proof.
    induction d as [|[k' v'] d IH]; simpl; [auto|].
    destruct (String.eqb k k'); simpl; intuition.
  Qed.
  Lemma keys_del_NoDup k d : NoDup (keys d) -> NoDup (keys (dict_del k d)).
  Proof.
    induction d as [|[k' v'] d IH]; simpl; intros H; [constructor|].
    inversion H as [|? ? Hni Hnd]; subst.
    destruct (String.eqb k k'); [assumption|]. simpl. constructor; auto.
    intros Hin. apply Hni. eapply keys_del_in; eauto.
  Qed.
End Assoc.
