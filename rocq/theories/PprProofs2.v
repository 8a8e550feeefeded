From Verif Require Import Base PprModel PprSpec PprProofs.
Open Scope string_scope.

(** Induction over programs. *)
Section Ind.
Variable P : mini -> Prop.
Hypothesis HName : forall n, P (MName n).
Hypothesis HNum : forall z, P (MNum z).
Hypothesis HStr : forall s, P (MStr s).
Hypothesis HCall : forall f args, Forall (fun a => P (snd a)) args -> P (MCall f args).
Hypothesis HDo : forall l, Forall P l -> P (MDo l).
Hypothesis HGenGet : forall e p, P e -> Forall P p -> P (MGenGet e p).
Hypothesis HGet : forall n p, Forall P p -> P (MGet n p).
Hypothesis HTo : forall n p d t i, Forall P p -> P t -> match i with None => True | Some i => P i end -> P (MTo n p d t i).
Hypothesis HIf : forall ps e, Forall (fun q => P (fst q) /\ P (snd q)) ps -> match e with None => True | Some e => P e end -> P (MIf ps e).
Hypothesis HWhile : forall p b pre, P p -> P b -> P (MWhile p b pre).
Hypothesis HGenAssign : forall e p t, P e -> Forall P p -> P t -> P (MGenAssign e p t).
Hypothesis HAssign : forall v ps, Forall (fun q => P (snd q)) ps -> P (MAssign v ps).
Fixpoint mini_all (m : mini) : P m :=
  let list l := (fix go l : Forall P l := match l with [] => Forall_nil P | a :: l' => Forall_cons a (mini_all a) (go l') end) l in
  match m with
  | MName n => HName n | MNum z => HNum z | MStr s => HStr s
  | MCall f args => HCall f args ((fix go l : Forall (fun a => P (snd a)) l := match l with [] => Forall_nil _ | a :: l' => Forall_cons a (mini_all (snd a)) (go l') end) args)
  | MDo l => HDo l (list l)
  | MGenGet e p => HGenGet e p (mini_all e) (list p)
  | MGet n p => HGet n p (list p)
  | MTo n p d t i => HTo n p d t i (list p) (mini_all t) (match i with None => I | Some i => mini_all i end)
  | MIf ps e => HIf ps e ((fix go l : Forall (fun q => P (fst q) /\ P (snd q)) l :=
                             match l with [] => Forall_nil _ | a :: l' => Forall_cons a (conj (mini_all (fst a)) (mini_all (snd a))) (go l') end) ps)
                         (match e with None => I | Some e => mini_all e end)
  | MWhile p b pre => HWhile p b pre (mini_all p) (mini_all b)
  | MGenAssign e p t => HGenAssign e p t (mini_all e) (list p) (mini_all t)
  | MAssign v ps => HAssign v ps ((fix go l : Forall (fun q => P (snd q)) l := match l with [] => Forall_nil _ | a :: l' => Forall_cons a (mini_all (snd a)) (go l') end) ps)
  end.
End Ind.

Definition documented {A} (r : res A) : Prop := forall e, r = Raise e -> exists text, e = PyErr ("PrettyPfaException: " ++ text).
Lemma doc_ok : forall A (a : A), documented (Ok a).
Proof. intros A a e E. discriminate. Qed.
Lemma doc_pretty : forall A s, @documented A (pretty s).
Proof. intros A s e E. injection E as <-. exists s. reflexivity. Qed.
Lemma doc_bind : forall A B (r : res A) (k : A -> res B), documented r -> (forall a, documented (k a)) -> documented (rbind r k).
Proof. intros A B [a|x] k H K e E; cbn in E; [apply (K a e E)|]. injection E as <-. apply H. reflexivity. Qed.
Lemma doc_each : forall A B (f : A -> res B) l, Forall (fun a => documented (f a)) l -> documented (each f l).
Proof.
  intros A B f l H. induction H as [|a l Ha H IH]; cbn; [apply doc_ok|]. apply doc_bind; [exact Ha|]. intros b. apply doc_bind; [exact IH|]. intros bs. apply doc_ok.
Qed.
Lemma doc_if : forall A (c : bool) (x y : res A), documented x -> documented y -> documented (if c then x else y).
Proof. intros A [] x y; auto. Qed.

Section Errors.
Variable st : names.
Lemma errors : forall m, documented (asExpr st m) /\ documented (body_expr st m).
Proof.
  apply (mini_all (fun m => documented (asExpr st m) /\ documented (body_expr st m))).
  - intros n. split; [apply doc_ok|]. cbn. apply doc_ok.
  - intros z. split; apply doc_ok.
  - intros s. split; apply doc_ok.
  - intros f args H. assert (D : documented (asExpr st (MCall f args))).
    { cbn [asExpr]. apply doc_if; (apply doc_bind; [apply doc_each|intros; apply doc_ok]).
      - apply (Forall_impl _ (P := fun a => documented (asExpr st (snd a)) /\ documented (body_expr st (snd a)))); [|exact H].
        intros [[k|] e] [H0 _]; [apply doc_bind; [exact H0 | intros; apply doc_ok] | apply doc_ok].
      - apply (Forall_impl _ (P := fun a => documented (asExpr st (snd a)) /\ documented (body_expr st (snd a)))); [|exact H]. intros [k e] [H0 _]. exact H0. }
    split; [exact D|]. cbn [body_expr]. apply doc_bind; [exact D | intros; apply doc_ok].
  - intros l H. assert (D : documented (each (asExpr st) l)) by (apply doc_each; apply (Forall_impl _ (fun a (Ha : _ /\ _) => proj1 Ha) H)).
    split; [cbn [asExpr]; apply doc_bind; [exact D | intros; apply doc_ok] | exact D].
  - intros e p [He _] H. assert (D : documented (asExpr st (MGenGet e p))).
    { cbn [asExpr]. apply doc_bind; [exact He|]. intros a. apply doc_bind; [apply doc_each; apply (Forall_impl _ (fun a (Ha : _ /\ _) => proj1 Ha) H) | intros; apply doc_ok]. }
    split; [exact D|]. cbn [body_expr]. apply doc_bind; [exact D | intros; apply doc_ok].
  - intros [x r] p H. assert (D : documented (asExpr st (MGet (x, r) p))).
    { cbn [asExpr]. apply doc_bind; [apply doc_each; apply (Forall_impl _ (fun a (Ha : _ /\ _) => proj1 Ha) H) | intros; apply doc_ok]. }
    split; [exact D|]. cbn [body_expr]. apply doc_bind; [exact D | intros; apply doc_ok].
  - intros [x r] p d t i H [Ht _] Hi. assert (D : documented (asExpr st (MTo (x, r) p d t i))).
    { cbn [asExpr]. apply doc_bind; [apply doc_each; apply (Forall_impl _ (fun a (Ha : _ /\ _) => proj1 Ha) H)|]. intros p'. apply doc_bind; [exact Ht|]. intros t'.
      apply doc_bind; [destruct i as [i|]; [apply doc_bind; [apply Hi | intros; apply doc_ok] | apply doc_ok]|]. intros i'. unfold to_expr. repeat apply doc_if; try apply doc_pretty. apply doc_ok. }
    split; [exact D|]. cbn [body_expr]. apply doc_bind; [exact D | intros; apply doc_ok].
  - intros ps e H He. assert (D : documented (asExpr st (MIf ps e))).
    { cbn [asExpr]. apply doc_bind.
      - apply doc_each. apply (Forall_impl _ (P := fun q => (documented (asExpr st (fst q)) /\ documented (body_expr st (fst q))) /\ documented (asExpr st (snd q)) /\ documented (body_expr st (snd q)))); [|exact H].
        intros [p t] [[Hp _] [_ Ht]]. apply doc_bind; [exact Ht|]. intros. apply doc_bind; [exact Hp | intros; apply doc_ok].
      - intros qs. apply doc_bind; [|intros; apply doc_ok]. destruct e as [e|]; [|apply doc_ok]. apply doc_bind; [apply He | intros; apply doc_ok]. }
    split; [exact D|]. cbn [body_expr]. apply doc_bind; [exact D | intros; apply doc_ok].
  - intros p b pre [Hp _] [_ Hb]. assert (D : documented (asExpr st (MWhile p b pre))).
    { cbn [asExpr]. apply doc_bind; [exact Hb|]. intros. apply doc_bind; [exact Hp | intros; apply doc_ok]. }
    split; [exact D|]. cbn [body_expr]. apply doc_bind; [exact D | intros; apply doc_ok].
  - intros e p t [He _] H [Ht _]. assert (D : documented (asExpr st (MGenAssign e p t))).
    { cbn [asExpr]. apply doc_bind; [exact He|]. intros a. apply doc_bind; [apply doc_each; apply (Forall_impl _ (fun a (Ha : _ /\ _) => proj1 Ha) H)|]. intros. apply doc_bind; [exact Ht | intros; apply doc_ok]. }
    split; [exact D|]. cbn [body_expr]. apply doc_bind; [exact D | intros; apply doc_ok].
  - intros v ps H. assert (D : documented (asExpr st (MAssign v ps))).
    { cbn [asExpr]. apply doc_bind.
      - apply doc_each. apply (Forall_impl _ (P := fun q => documented (asExpr st (snd q)) /\ documented (body_expr st (snd q)))); [|exact H].
        intros [d e] [Hd _]. apply doc_bind; [exact Hd | intros; apply doc_ok].
      - intros l. destruct v; [apply doc_if; [apply doc_pretty | apply doc_ok]|].
        destruct l as [|[d a] [|q l]]; try (apply doc_if; [apply doc_pretty | apply doc_ok]). unfold assign_expr. apply doc_if; [apply doc_pretty|]. destruct d as [x [|y r]]; apply doc_ok. }
    split; [exact D|]. cbn [body_expr]. apply doc_bind; [exact D | intros; apply doc_ok].
Qed.
(** Arguments without a name beside named ones are passed over. *)
Lemma plain_dropped : forall f args, existsb is_named args = true -> asExpr st (MCall f args) = asExpr st (MCall f (filter is_named args)).
Proof.
  intros f args H. cbn [asExpr]. rewrite H.
  assert (H2 : existsb is_named (filter is_named args) = true).
  { apply existsb_exists in H. destruct H as (a & I & N). apply existsb_exists. exists a. split; [apply filter_In; split; assumption | exact N]. }
  rewrite H2. clear H H2.
  assert (E : forall g : option string * mini -> res (list (string * ast)), (forall e, g (None, e) = Ok []) ->
    (l <- each g args ;; Ok (concat l)) = (l <- each g (filter is_named args) ;; Ok (concat l))).
  { intros g Hg. induction args as [|[[k|] e] args IH]; [reflexivity| |]; cbn [filter is_named fst each].
    - destruct (g (Some k, e)) as [a|]; cbn [rbind]; [|reflexivity]. destruct (each g args) as [l|], (each g (filter is_named args)) as [l'|]; cbn in *; try discriminate; [injection IH as ->; reflexivity | congruence].
    - rewrite Hg. cbn [rbind]. destruct (each g args) as [l|], (each g (filter is_named args)) as [l'|]; cbn in *; try discriminate; [injection IH as ->; reflexivity | congruence]. }
  specialize (E (fun a => match a with (Some k, e) => v <- asExpr st e ;; Ok [(k, v)] | (None, _) => Ok [] end) (fun e => eq_refl)).
  destruct (each _ args) as [l|], (each _ (filter is_named args)) as [l'|]; cbn in *; try discriminate; [injection E as ->; reflexivity | congruence].
Qed.
End Errors.
