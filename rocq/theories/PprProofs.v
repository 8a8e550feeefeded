From Coq Require Import Lia.
From Verif Require Import Base PprModel PprSpec.
Open Scope string_scope.

Section Ppr.
Variables V W : Type.
Variable M : machine V W.
Variable st : names.
Hypothesis G : good st.
Notation state := (state V W).
Notation run := (run V W M st).
Notation eval := (eval V W M).

Definition out {A} (r : res A) : Prop := r = Raise (PyErr "fuel").
(** the second agrees with the first, but for the one of the two that [b] names running out of fuel *)
Definition rel {A} (b : bool) (r1 r2 : res A) : Prop := r1 = r2 \/ (b = true /\ out r1) \/ (b = false /\ out r2).
Definition sim {A} (b : bool) (P : A -> Prop) (r1 r2 : res A) : Prop := rel b r1 r2 /\ forall a, r1 = Ok a -> P a.
Definition cl {A} (x : A * state) : Prop := clean_env st (fst (snd x)).

Lemma sim_bind : forall A B b (P : A -> Prop) (Q : B -> Prop) r1 r2 k1 k2,
  sim b P r1 r2 -> (forall a, P a -> sim b Q (k1 a) (k2 a)) -> sim b Q (rbind r1 k1) (rbind r2 k2).
Proof.
  intros A B b P Q r1 r2 k1 k2 [R C] K. split.
  - destruct R as [-> | [[-> E] | [-> E]]].
    + destruct r2 as [a|e]; cbn; [apply K; apply C; reflexivity | left; reflexivity].
    + right; left. split; [reflexivity|]. rewrite E. reflexivity.
    + right; right. split; [reflexivity|]. rewrite E. reflexivity.
  - intros a E. destruct r1 as [x|e]; cbn in E; [|discriminate]. apply (K x (C x eq_refl)). exact E.
Qed.
Lemma sim_same : forall A b (P : A -> Prop) r, (forall a, r = Ok a -> P a) -> sim b P r r.
Proof. intros A b P r H. split; [left; reflexivity | exact H]. Qed.
Lemma sim_ok : forall A b (P : A -> Prop) a, P a -> sim b P (Ok a) (Ok a).
Proof. intros A b P a H. apply sim_same. intros x E. injection E as <-. exact H. Qed.
Lemma sim_raise : forall A b (P : A -> Prop) e, sim b P (Raise e) (Raise e).
Proof. intros. apply sim_same. discriminate. Qed.
Lemma sim_weak : forall A b (P Q : A -> Prop) r1 r2, sim b P r1 r2 -> (forall a, P a -> Q a) -> sim b Q r1 r2.
Proof. intros A b P Q r1 r2 [R C] H. split; [exact R | intros a E; apply H, C, E]. Qed.

Lemma sim_seq : forall A B b (f : state -> A -> res (V * state)) (g : state -> B -> res (V * state)) l l',
  Forall2 (fun x y => forall s, clean_env st (fst s) -> sim b cl (f s x) (g s y)) l l' ->
  forall s, clean_env st (fst s) -> sim b cl (seq V W A f s l) (seq V W B g s l').
Proof.
  intros A B b f g l l' H. induction H as [|x y l l' E F IH]; intros s C; cbn.
  - apply sim_ok. exact C.
  - apply (sim_bind _ _ _ cl); [apply E; exact C|]. intros r Cr. apply (sim_bind _ _ _ cl); [apply IH; exact Cr|]. intros r' Cr'. apply sim_ok. exact Cr'.
Qed.
Lemma clean_tl : forall (e : env V), clean_env st e -> clean_env st (tl e).
Proof. intros [|s e] C; [exact C|]. intros x I. apply C. unfold names_of in *. cbn in *. apply in_or_app. right. exact I. Qed.
Lemma sim_block : forall A B b (f : state -> A -> res (V * state)) (g : state -> B -> res (V * state)) l l',
  Forall2 (fun x y => forall s, clean_env st (fst s) -> sim b cl (f s x) (g s y)) l l' ->
  forall s, clean_env st (fst s) -> sim b cl (block V W M A f s l) (block V W M B g s l').
Proof.
  intros A B b f g l l' H s C. unfold block. apply (sim_bind _ _ _ cl); [apply sim_seq; [exact H | exact C]|]. intros r Cr. apply sim_ok. unfold cl. cbn. apply clean_tl. exact Cr.
Qed.
Lemma sim_world : forall A b e (r : res (A * W)), clean_env st e -> sim b cl (in_world V W e r) (in_world V W e r).
Proof. intros A b e r C. apply sim_same. intros a E. unfold in_world in E. destruct r as [x|x]; cbn in E; [injection E as <-; exact C | discriminate]. Qed.

(** Environments. *)
Lemma look_in : forall (e : env V) x v, look e x = Some v -> In x (names_of e).
Proof.
  induction e as [|s e IH]; intros x v E; [discriminate|]. cbn in E. unfold names_of. cbn. apply in_or_app.
  destruct (assoc x s) as [u|] eqn:A.
  - left. clear -A. induction s as [|[k w] s IH]; [discriminate|]. cbn in A. destruct (String.eqb_spec x k) as [->|]; [left; reflexivity | right; apply IH; exact A].
  - right. apply (IH x v E).
Qed.
Lemma clean_declare : forall (e : env V) x v, clean_env st e -> free st x -> clean_env st (declare e x v).
Proof.
  intros [|s e] x v C F y I; unfold names_of in I; cbn in I.
  - destruct I as [<-|[]]. exact F.
  - destruct I as [<-|I]; [exact F | apply C; exact I].
Qed.
Lemma clean_declare_all : forall xs vs (e : env V), clean_env st e -> Forall (free st) xs -> clean_env st (declare_all V e xs vs).
Proof.
  intros xs vs e C F. unfold declare_all. revert vs e C. induction F as [|x xs Fx F IH]; intros vs e C; [exact C|].
  destruct vs as [|v vs]; [exact C|]. cbn. apply IH. apply clean_declare; assumption.
Qed.
Lemma dict_set_names : forall (s : list (string * V)) x v u, assoc x s = Some u -> map fst (dict_set x v s) = map fst s.
Proof.
  induction s as [|[k w] s IH]; intros x v u E; [discriminate|]. cbn in *. destruct (String.eqb x k); [reflexivity|]. cbn. f_equal. apply (IH x v u E).
Qed.
Lemma assign_names : forall (e : env V) x v e', assign e x v = Ok e' -> names_of e' = names_of e.
Proof.
  induction e as [|s e IH]; intros x v e' E; [discriminate|]. cbn in E. destruct (assoc x s) as [u|] eqn:A.
  - injection E as <-. unfold names_of. cbn. rewrite (dict_set_names s x v u A). reflexivity.
  - destruct (assign e x v) as [e''|] eqn:B; cbn in E; [|discriminate]. injection E as <-. unfold names_of. cbn. f_equal. apply (IH x v e'' B).
Qed.
Lemma clean_assign : forall (e : env V) x v e', clean_env st e -> assign e x v = Ok e' -> clean_env st e'.
Proof. intros e x v e' C E y I. apply C. rewrite <- (assign_names e x v e' E). exact I. Qed.
Lemma assign_none : forall (e : env V) x v, look e x = None -> assign e x v = Raise (PyErr "unknown symbol").
Proof.
  induction e as [|s e IH]; intros x v E; [reflexivity|]. cbn in *. destruct (assoc x s) as [u|]; [discriminate|]. rewrite (IH x v E). reflexivity.
Qed.
Lemma look_shared : forall (e : env V) b, clean_env st e -> mem b (cells st) = true \/ mem b (pools st) = true -> look e b = None.
Proof.
  intros e b C H. destruct (look e b) as [v|] eqn:E; [|reflexivity]. destruct (C b (look_in e b v E)) as (A & B & _). destruct H; congruence.
Qed.
Lemma same_pieces_eq : forall a b, same_pieces a b = true -> a = b.
Proof.
  induction a as [|x a IH]; intros [|y b] E; try discriminate; [reflexivity|]. cbn in E. apply andb_prop in E. destruct E as [E F].
  apply String.eqb_eq in E. rewrite E, (IH b F). reflexivity.
Qed.
Lemma function_first : forall n, is_function st n = true -> exists f, In f (functions st) /\ fst f = fst n.
Proof.
  intros n E. unfold is_function in E. apply existsb_exists in E. destruct E as (f & I & S1). exists f. split; [exact I|].
  unfold same_dotted in S1. apply andb_prop in S1. symmetry. apply String.eqb_eq. apply S1.
Qed.

(** Translating lists. *)
Lemma each_all : forall A B (f : A -> res B) l l', each f l = Ok l' -> Forall2 (fun x y => f x = Ok y) l l'.
Proof.
  intros A B f. induction l as [|a l IH]; intros l' E; cbn in E; [injection E as <-; constructor|].
  destruct (f a) as [b|] eqn:F; cbn in E; [|discriminate]. destruct (each f l) as [bs|] eqn:R; cbn in E; [|discriminate]. injection E as <-.
  constructor; [exact F | apply IH; reflexivity].
Qed.
Lemma allP_Forall : forall A (P : A -> Prop) l, allP P l -> Forall P l.
Proof. intros A P. induction l as [|a l IH]; intros H; [constructor|]. destruct H. constructor; [assumption | apply IH; assumption]. Qed.
Lemma forall2_and : forall A B (P : A -> Prop) (R : A -> B -> Prop) (Q : A -> B -> Prop) l l',
  Forall P l -> Forall2 R l l' -> (forall x y, P x -> R x y -> Q x y) -> Forall2 Q l l'.
Proof. intros A B P R Q l l' F H K. induction H; [constructor|]. inversion F; subst. constructor; [apply K; assumption | apply IHForall2; assumption]. Qed.

Definition body_expr (m : mini) : res (list ast) := match m with MDo l => each (asExpr st) l | _ => a <- asExpr st m ;; Ok [a] end.
Lemma body_each : forall m, body_expr m = each (asExpr st) (body m).
Proof. intros m. destruct m; cbn [body_expr body each]; try reflexivity; destruct (asExpr st _); reflexivity. Qed.
Lemma clean_body : forall m, clean st m -> allP (clean st) (body m).
Proof. intros m H. destruct m; cbn [body allP]; try (split; [exact H | exact I]). exact H. Qed.

(** [n] is the fuel of the program, [k] that of its translation. *)
Definition pair_ok (b : bool) (n k : nat) : Prop := if b then k = S n else n = k.

Lemma leaf : forall b n k s a v, pair_ok b n k -> (forall j, eval (S j) s a = Ok (v, s)) -> clean_env st (fst s) -> sim b (fun r : V * state => r = (v, s)) (Ok (v, s)) (eval k s a).
Proof.
  intros b n k s a v P E C. destruct k as [|j].
  - destruct b; [discriminate P|]. split; [right; right; split; reflexivity|]. intros r R. injection R as <-. reflexivity.
  - rewrite E. apply sim_ok. reflexivity.
Qed.
(** the pieces of a dotted name in front of a path *)
Lemma sim_pieces : forall A b n k (f : state -> A -> res (V * state)) r l l' s, pair_ok b n k -> clean_env st (fst s) ->
  (forall s, clean_env st (fst s) -> sim b cl (seq V W A f s l) (seq V W ast (eval k) s l')) ->
  sim b cl (q <- seq V W A f s l ;; Ok (values V W M r ++ fst q, snd q))%list (seq V W ast (eval k) s (map AStr r ++ l')).
Proof.
  intros A b n k f r l l' s P C H. induction r as [|x r IH]; cbn [map app].
  - destruct (H s C) as [R K]. split.
    + destruct R as [-> | [[-> E] | [-> E]]].
      * destruct (seq V W ast (eval k) s l') as [[q1 q2]|e]; left; reflexivity.
      * right; left. rewrite E. split; reflexivity.
      * right; right. split; [reflexivity | exact E].
    + intros a E. destruct (seq V W A f s l) as [q|] eqn:F; cbn in E; [|discriminate]. injection E as <-. unfold cl. cbn. apply (K q eq_refl).
  - cbn [seq]. assert (Q : sim b (fun r0 : V * state => r0 = (v_str V W M x, s)) (Ok (v_str V W M x, s)) (eval k s (AStr x))) by (apply (leaf b n); [exact P | reflexivity | exact C]).
    assert (E : (q <- seq V W A f s l ;; Ok (values V W M (x :: r) ++ fst q, snd q))%list =
                (r0 <- Ok (v_str V W M x, s) ;; r' <- (q <- seq V W A f (snd r0) l ;; Ok (values V W M r ++ fst q, snd q)) ;; Ok (fst r0 :: fst r', snd r'))%list).
    { cbn. unfold values. destruct (seq V W A f s l) as [q|]; reflexivity. }
    rewrite E. apply (sim_bind _ _ _ _ _ _ _ _ _ Q). intros a ->. cbn [snd fst].
    apply (sim_bind _ _ _ cl); [exact IH|]. intros r' Cr. apply sim_ok. exact Cr.
Qed.

Lemma quiet_pieces : forall k r s, (exists j, k = S j) -> seq V W ast (eval k) s (map AStr r) = Ok (values V W M r, s).
Proof. intros k r s [j ->]. induction r as [|x r IH]; [reflexivity|]. cbn [map seq]. cbn [eval]. cbn. cbn in IH. rewrite IH. reflexivity. Qed.
Lemma sim_pieces0 : forall b n k r s, pair_ok b n k -> clean_env st (fst s) ->
  sim b (fun q : list V * state => snd q = s /\ fst q = values V W M r) (Ok (values V W M r, s)) (seq V W ast (eval k) s (map AStr r)).
Proof.
  intros b n k r s P C. destruct k as [|j]; [destruct b; [discriminate P|]|].
  - destruct r as [|x r]; [apply sim_ok; split; reflexivity|]. split; [right; right; split; reflexivity|]. intros a E. injection E as <-. split; reflexivity.
  - rewrite quiet_pieces by (exists j; reflexivity). apply sim_ok. split; reflexivity.
Qed.

Lemma name_sim : forall b n k s d, pair_ok b n k -> clean_env st (fst s) ->
  sim b (fun r : V * state => snd r = s) (v <- name_value V W M st s d ;; Ok (v, s)) (eval (S k) s (name_expr st d)).
Proof.
  intros b n k s d P C. unfold name_value, word, name_expr.
  destruct (same_dotted d ("null", [])); [apply sim_ok; reflexivity|].
  destruct (same_dotted d ("true", [])); [apply sim_ok; reflexivity|].
  destruct (same_dotted d ("false", [])); [apply sim_ok; reflexivity|].
  destruct (is_function st d) eqn:F.
  - destruct (function_first d F) as (f & I & E). destruct (proj1 G f I) as [A B]. rewrite E in A, B. rewrite A, B.
    destruct (look (fst s) (fst d)) as [v|] eqn:L.
    + destruct (C _ (look_in _ _ _ L)) as (_ & _ & N). destruct (N f I E).
    + cbn. apply sim_ok. reflexivity.
  - rewrite !andb_false_r. destruct d as [x r]. cbn [fst snd].
    destruct (mem x (cells st)) eqn:A.
    + rewrite (look_shared (fst s) x C (or_introl A)). unfold read. rewrite A.
      destruct r as [|y r].
      * cbn. destruct (cell_get V W M x [] (snd s)); [apply sim_ok; reflexivity | apply sim_raise].
      * unfold get. rewrite A. cbn [eval].
        change (sim b (fun r0 : V * state => snd r0 = s) (q <- Ok (values V W M (y :: r), s) ;; v <- cell_get V W M x (fst q) (snd (snd q)) ;; Ok (v, snd q))
                  (q <- seq V W ast (eval k) s (map AStr (y :: r)) ;; v <- cell_get V W M x (fst q) (snd (snd q)) ;; Ok (v, snd q))).
        apply (sim_bind _ _ _ _ _ _ _ _ _ (sim_pieces0 b n k (y :: r) s P C)). intros [a1 a2] [E1 E2]. cbn [fst snd] in E1, E2. subst a1 a2. cbn [fst snd].
        destruct (cell_get V W M x _ (snd s)); [apply sim_ok; reflexivity | apply sim_raise].
    + destruct (mem x (pools st)) eqn:B.
      * rewrite (look_shared (fst s) x C (or_intror B)). unfold read. rewrite A, B.
        destruct r as [|y r].
        -- cbn. destruct (pool_get V W M x [] (snd s)); [apply sim_ok; reflexivity | apply sim_raise].
        -- unfold get. rewrite A, B. cbn [eval].
           change (sim b (fun r0 : V * state => snd r0 = s) (q <- Ok (values V W M (y :: r), s) ;; v <- pool_get V W M x (fst q) (snd (snd q)) ;; Ok (v, snd q))
                  (q <- seq V W ast (eval k) s (map AStr (y :: r)) ;; v <- pool_get V W M x (fst q) (snd (snd q)) ;; Ok (v, snd q))).
           apply (sim_bind _ _ _ _ _ _ _ _ _ (sim_pieces0 b n k (y :: r) s P C)). intros [a1 a2] [E1 E2]. cbn [fst snd] in E1, E2. subst a1 a2. cbn [fst snd].
           destruct (pool_get V W M x _ (snd s)); [apply sim_ok; reflexivity | apply sim_raise].
      * unfold read. rewrite A, B. destruct r as [|y r].
        -- cbn. destruct (look (fst s) x); [apply sim_ok; reflexivity | apply sim_raise].
        -- unfold get. rewrite A, B. cbn [eval]. destruct (look (fst s) x) as [v|] eqn:L.
           ++ change (sim b (fun r0 : V * state => snd r0 = s) (r0 <- Ok (v, s) ;; q <- Ok (values V W M (y :: r), snd r0) ;; w <- attr_get V W M (fst r0) (fst q) ;; Ok (w, s))
                  (r0 <- eval k s (ARef x) ;; q <- seq V W ast (eval k) (snd r0) (map AStr (y :: r)) ;; w <- attr_get V W M (fst r0) (fst q) ;; Ok (w, snd q))).
              apply (sim_bind _ _ _ _ _ _ _ _ _ (leaf b n k s (ARef x) v P (fun j => ltac:(cbn; rewrite L; reflexivity)) C)). intros a ->. cbn [fst snd].
              apply (sim_bind _ _ _ _ _ _ _ _ _ (sim_pieces0 b n k (y :: r) s P C)). intros [a1 a2] [E1 E2]. cbn [fst snd] in E1, E2. subst a1 a2. cbn [fst snd].
              destruct (attr_get V W M v _); [apply sim_ok; reflexivity | apply sim_raise].
           ++ destruct k as [|j]; [destruct b; [discriminate P|]|].
              ** split; [right; right; split; reflexivity|]. discriminate.
              ** cbn [eval]. rewrite L. apply sim_raise.
Qed.

(** Names, numbers and texts change nothing. *)
Lemma strs_quiet : forall k r s q, seq V W ast (eval k) s (map AStr r) = Ok q -> snd q = s.
Proof.
  intros [|j] r s q E.
  - destruct r as [|x r]; [injection E as <-; reflexivity | discriminate].
  - rewrite quiet_pieces in E by (exists j; reflexivity). injection E as <-. reflexivity.
Qed.
Lemma quiet_eval : forall t a k s u, quiet t -> asExpr st t = Ok a -> eval k s a = Ok u -> snd u = s.
Proof.
  intros t a k s u Q E R. destruct t; try destruct Q; cbn in E; injection E as <-; destruct k as [|k]; try discriminate; cbn [eval] in R; try (injection R as <-; reflexivity).
  unfold name_expr in R.
  repeat match type of R with context [same_dotted ?a ?b] => destruct (same_dotted a b); [cbn in R; injection R as <-; reflexivity|] end.
  destruct (is_function st n); [cbn in R; injection R as <-; reflexivity|]. destruct n as [x r].
  unfold get in R.
  assert (C : forall c, (q <- seq V W ast (eval k) s (map AStr r) ;; v <- cell_get V W M c (fst q) (snd (snd q)) ;; Ok (v, snd q)) = Ok u -> snd u = s).
  { intros c H. destruct (seq V W ast (eval k) s (map AStr r)) as [q|] eqn:F; cbn in H; [|discriminate]. destruct (cell_get V W M c _ _); cbn in H; [|discriminate]. injection H as <-. apply (strs_quiet k r s q F). }
  assert (D : forall c, (q <- seq V W ast (eval k) s (map AStr r) ;; v <- pool_get V W M c (fst q) (snd (snd q)) ;; Ok (v, snd q)) = Ok u -> snd u = s).
  { intros c H. destruct (seq V W ast (eval k) s (map AStr r)) as [q|] eqn:F; cbn in H; [|discriminate]. destruct (pool_get V W M c _ _); cbn in H; [|discriminate]. injection H as <-. apply (strs_quiet k r s q F). }
  destruct r as [|y r].
  - destruct (mem x (cells st)); [apply (C x); exact R|]. destruct (mem x (pools st)); [apply (D x); exact R|]. cbn in R. destruct (look (fst s) x); [injection R as <-; reflexivity | discriminate].
  - destruct (mem x (cells st)); [apply (C x); exact R|]. destruct (mem x (pools st)); [apply (D x); exact R|]. cbn [PprModel.eval] in R.
    destruct (eval k s (ARef x)) as [r0|] eqn:F; cbn [rbind] in R; [|discriminate].
    assert (S0 : snd r0 = s) by (destruct k; [discriminate|]; cbn in F; destruct (look (fst s) x); [injection F as <-; reflexivity | discriminate]).
    rewrite S0 in R. destruct (seq V W ast (eval k) s (map AStr (y :: r))) as [q|] eqn:H; cbn [rbind] in R; [|discriminate].
    destruct (attr_get V W M _ _); cbn in R; [|discriminate]. injection R as <-. apply (strs_quiet k (y :: r) s q H).
Qed.
Lemma sim_twice : forall B b n k s t a (Q : B -> Prop) K1 K2, quiet t -> asExpr st t = Ok a -> sim b cl (run n s t) (eval k s a) ->
  (forall u, cl u -> sim b Q (K1 u) (K2 u u)) -> sim b Q (rbind (run n s t) K1) (u <- eval k s a ;; w <- eval k (snd u) a ;; K2 u w).
Proof.
  intros B b n k s t a Q K1 K2 QT E [R C] H. assert (T : (u <- eval k s a ;; w <- eval k (snd u) a ;; K2 u w) = (u <- eval k s a ;; K2 u u)).
  { destruct (eval k s a) as [u|] eqn:F; cbn; [|reflexivity]. rewrite (quiet_eval t a k s u QT E F), F. reflexivity. }
  rewrite T. apply (sim_bind _ _ _ cl); [split; assumption | exact H].
Qed.
Lemma sim_path : forall B b n k l l' r s (Q : B -> Prop) K1 K2, pair_ok b n k -> clean_env st (fst s) ->
  (forall s, clean_env st (fst s) -> sim b cl (seq V W mini (run n) s l) (seq V W ast (eval k) s l')) ->
  (forall q q', fst q' = (values V W M r ++ fst q)%list -> snd q' = snd q -> cl q -> sim b Q (K1 q) (K2 q')) ->
  sim b Q (rbind (seq V W mini (run n) s l) K1) (rbind (seq V W ast (eval k) s (map AStr r ++ l')) K2).
Proof.
  intros B b n k l l' r s Q K1 K2 P C H K. destruct (sim_pieces mini b n k (run n) r l l' s P C H) as [R D].
  destruct (seq V W mini (run n) s l) as [q|e] eqn:E; cbn [rbind] in *.
  - assert (Cq : cl q) by apply (D _ eq_refl). specialize (D _ eq_refl).
    destruct R as [R | [[_ R] | [-> R]]]; [|discriminate R|].
    + rewrite <- R. cbn [rbind]. apply K; [reflexivity | reflexivity | exact Cq].
    + rewrite R. cbn. split; [right; right; split; reflexivity|]. intros x Ex. apply (K q ((values V W M r ++ fst q)%list, snd q) eq_refl eq_refl Cq). exact Ex.
  - split; [|discriminate]. destruct R as [R | [[-> R] | [-> R]]].
    + rewrite <- R. left. reflexivity.
    + right; left. split; [reflexivity|]. injection R as ->. reflexivity.
    + right; right. split; [reflexivity|]. rewrite R. reflexivity.
Qed.
Lemma sim_ref : forall B b n k s x v (Q : B -> Prop) (K1 : res B) K2, pair_ok b n k -> clean_env st (fst s) -> look (fst s) x = Some v ->
  sim b Q K1 (K2 (v, s)) -> sim b Q K1 (rbind (eval k s (ARef x)) K2).
Proof.
  intros B b n k s x v Q K1 K2 P C L [R D]. destruct k as [|j].
  - destruct b; [discriminate P|]. split; [right; right; split; reflexivity | exact D].
  - cbn [eval]. rewrite L. split; assumption.
Qed.
Lemma sim_noref : forall B b n k s x (Q : B -> Prop) K2, pair_ok b n k -> look (fst s) x = None ->
  sim b Q (Raise (PyErr "unknown symbol")) (rbind (eval k s (ARef x)) K2).
Proof.
  intros B b n k s x Q K2 P L. destruct k as [|j].
  - destruct b; [discriminate P|]. split; [right; right; split; reflexivity | discriminate].
  - cbn [eval]. rewrite L. apply sim_raise.
Qed.
Lemma is_fcn_name : forall n, is_fcn (name_expr st n) = true -> is_fcnref (name_expr st n) = true.
Proof.
  intros [x r] H. unfold name_expr, get in *.
  repeat match type of H with context [if ?c then _ else _] => destruct c; try reflexivity; try discriminate H | context [match ?c with [] => _ | _ :: _ => _ end] => destruct c; try discriminate H end.
Qed.
Lemma fcn_of : forall t a, asExpr st t = Ok a -> partial t = false -> is_fcnref a = false -> is_fcn a = false.
Proof.
  intros t a E P F. destruct (is_fcn a) eqn:H; [|reflexivity]. exfalso. destruct a; try discriminate. clear F H.
  destruct t as [n| | |f0 args|l|e p|n p|n p d t i|ps e|p bd pre|e p t|v ps]; cbn [asExpr] in E.
  - injection E as E. pose proof (is_fcn_name n) as Q. rewrite E in Q. discriminate (Q eq_refl).
  - discriminate.
  - discriminate.
  - cbn in P. rewrite P in E. destruct (each _ args); cbn in E; discriminate.
  - destruct (each _ l); discriminate.
  - destruct (asExpr st e); cbn in E; [|discriminate]. destruct (each _ p); discriminate.
  - destruct n as [x r]. destruct (each _ p); cbn in E; [|discriminate]. unfold get in E. destruct (mem x (cells st)); [discriminate|]. destruct (mem x (pools st)); discriminate.
  - destruct n as [x r]. destruct (each _ p); cbn in E; [|discriminate]. destruct (asExpr st t); cbn in E; [|discriminate].
    destruct i as [i|]; [destruct (asExpr st i); cbn in E; [|discriminate]|]; cbn in E; unfold to_expr in E;
    repeat match type of E with context [if ?c then _ else _] => destruct c; try discriminate E end.
  - destruct (each _ ps) as [q|]; cbn [rbind] in E; [|discriminate]. destruct (match e with Some _ => _ | None => _ end); cbn [rbind] in E; [|discriminate].
    destruct q as [|[? ?] [|? ?]]; discriminate.
  - destruct (match bd with MDo _ => _ | _ => _ end); cbn [rbind] in E; [|discriminate]. destruct (asExpr st p); cbn in E; [|discriminate]. destruct pre; discriminate.
  - destruct (asExpr st e); cbn in E; [|discriminate]. destruct (each _ p); cbn in E; [|discriminate]. destruct (asExpr st t); discriminate.
  - destruct (each _ ps) as [q|]; cbn [rbind] in E; [|discriminate]. unfold assign_expr in E.
    destruct v; [|destruct q as [|[[x [|y r]] a] [|? ?]]]; repeat match type of E with context [if ?c then _ else _] => destruct c; try discriminate E end.
Qed.

Lemma fcnref_of : forall t f, asExpr st t = Ok (AFcn f) -> exists d, t = MName d /\ is_function st d = true.
Proof.
  intros t f E. destruct t as [n| | |f0 args|l|e p|n p|n p d t i|ps e|p bd pre|e p t|v ps]; cbn [asExpr] in E.
  - exists n. split; [reflexivity|]. injection E as E. unfold name_expr in E.
    repeat match type of E with context [same_dotted ?u ?v] => destruct (same_dotted u v); [discriminate|] end. destruct (is_function st n); [reflexivity|].
    destruct n as [x0 [|y0 r0]]; unfold get in E; destruct (mem x0 (cells st)); try discriminate; destruct (mem x0 (pools st)); discriminate.
  - discriminate.
  - discriminate.
  - destruct (existsb is_named args); destruct (each _ args); cbn in E; discriminate.
  - destruct (each _ l); discriminate.
  - destruct (asExpr st e); cbn in E; [|discriminate]. destruct (each _ p); discriminate.
  - destruct n as [x r]. destruct (each _ p); cbn in E; [|discriminate]. unfold get in E. destruct (mem x (cells st)); [discriminate|]. destruct (mem x (pools st)); discriminate.
  - destruct n as [x r]. destruct (each _ p); cbn in E; [|discriminate]. destruct (asExpr st t); cbn in E; [|discriminate].
    destruct i as [i|]; [destruct (asExpr st i); cbn in E; [|discriminate]|]; cbn in E; unfold to_expr in E;
    repeat match type of E with context [if ?c then _ else _] => destruct c; try discriminate E end.
  - destruct (each _ ps) as [q|]; cbn [rbind] in E; [|discriminate]. destruct (match e with Some _ => _ | None => _ end); cbn [rbind] in E; [|discriminate].
    destruct q as [|[? ?] [|? ?]]; discriminate.
  - destruct (match bd with MDo _ => _ | _ => _ end); cbn [rbind] in E; [|discriminate]. destruct (asExpr st p); cbn in E; [|discriminate]. destruct pre; discriminate.
  - destruct (asExpr st e); cbn in E; [|discriminate]. destruct (each _ p); cbn in E; [|discriminate]. destruct (asExpr st t); discriminate.
  - destruct (each _ ps) as [q|]; cbn [rbind] in E; [|discriminate]. unfold assign_expr in E.
    destruct v; [|destruct q as [|[[x [|y r]] a] [|? ?]]]; repeat match type of E with context [if ?c then _ else _] => destruct c; try discriminate E end.
Qed.
Lemma fill_shape : forall (R : mini -> ast -> Prop) args L,
  (forall e a, In e (map snd args) -> asExpr st e = Ok a -> R e a) ->
  forallb is_named args = true -> each (fun a : option string * mini => match a with (Some k, e) => v <- asExpr st e ;; Ok [(k, v)] | (None, _) => Ok [] end) args = Ok L ->
  Forall2 R (map snd args) (map snd (concat L)) /\ flat_map (fun a : option string * mini => match fst a with Some k => [k] | None => [] end) args = map fst (concat L).
Proof.
  intros R. induction args as [|[[k|] e] args IH]; intros L H N E; cbn in N; try discriminate.
  - injection E as <-. split; [constructor | reflexivity].
  - cbn [each] in E. destruct (asExpr st e) as [a|] eqn:A; cbn [rbind] in E; [|discriminate]. destruct (each _ args) as [L'|] eqn:F; cbn [rbind] in E; [|discriminate]. injection E as <-.
    destruct (IH L' (fun e' a' I => H e' a' (or_intror I)) N eq_refl) as [F2 K]. cbn. split; [constructor; [apply H; [left; reflexivity | exact A] | exact F2] | f_equal; exact K].
Qed.

Section Step.
Variables (b : bool) (n k : nat).
Hypothesis P : pair_ok b n k.
Hypothesis IH : forall m a s, asExpr st m = Ok a -> clean st m -> clean_env st (fst s) -> sim b cl (run n s m) (eval k s a).

Lemma ih_list : forall l l', each (asExpr st) l = Ok l' -> allP (clean st) l ->
  Forall2 (fun x y => forall s, clean_env st (fst s) -> sim b cl (run n s x) (eval k s y)) l l'.
Proof.
  intros l l' E C. apply (forall2_and _ _ (clean st) (fun x y => asExpr st x = Ok y)); [apply allP_Forall; exact C | apply each_all; exact E|].
  intros x y Cx E1 s Cs. apply IH; assumption.
Qed.
Lemma ih_seq : forall l l', each (asExpr st) l = Ok l' -> allP (clean st) l -> forall s, clean_env st (fst s) -> sim b cl (seq V W mini (run n) s l) (seq V W ast (eval k) s l').
Proof. intros l l' E C. apply sim_seq. apply ih_list; assumption. Qed.
Lemma ih_block : forall l l', each (asExpr st) l = Ok l' -> allP (clean st) l -> forall s, clean_env st (fst s) -> sim b cl (block V W M mini (run n) s l) (block V W M ast (eval k) s l').
Proof. intros l l' E C. apply sim_block. apply ih_list; assumption. Qed.
Lemma ih_body : forall m l', body_expr m = Ok l' -> clean st m -> forall s, clean_env st (fst s) ->
  sim b cl (block V W M mini (run n) s (body m)) (block V W M ast (eval k) s l').
Proof. intros m l' E C. rewrite body_each in E. apply ih_block; [exact E | apply clean_body; exact C]. Qed.

Definition pair_expr (q : mini * mini) : res (ast * list ast) := match q with (p, t) => t <- body_expr t ;; p <- asExpr st p ;; Ok (p, t) end.
Lemma ih_conds : forall ps qs els e', each pair_expr ps = Ok qs -> allP (fun q => match q with (p, t) => clean st p /\ clean st t end) ps ->
  match els with None => Ok None | Some e => e <- body_expr e ;; Ok (Some e) end = Ok e' -> match els with None => True | Some e => clean st e end ->
  forall s, clean_env st (fst s) ->
  sim b cl (conds V W M mini mini (run n) (fun s m => block V W M mini (run n) s (body m)) s ps els) (conds V W M ast (list ast) (eval k) (block V W M ast (eval k)) s qs e').
Proof.
  induction ps as [|[p t] ps IHp]; intros qs els e' E C F D s Cs; cbn [each] in E.
  - injection E as <-. cbn. destruct els as [e|].
    + destruct (body_expr e) as [l|] eqn:B; cbn in F; [|discriminate]. injection F as <-. apply ih_body; assumption.
    + injection F as <-. apply sim_ok. exact Cs.
  - unfold pair_expr at 1 in E. destruct (body_expr t) as [lt|] eqn:B; cbn [rbind] in E; [|discriminate]. destruct (asExpr st p) as [ap|] eqn:A; cbn [rbind] in E; [|discriminate].
    destruct (each pair_expr ps) as [qs'|] eqn:R; cbn [rbind] in E; [|discriminate]. injection E as <-. destruct C as [[Cp Ct] C]. cbn [conds].
    apply (sim_bind _ _ _ cl); [apply IH; assumption|]. intros r Cr. destruct (truth V W M (fst r)); [apply ih_body; assumption | apply (IHp qs' els e' eq_refl C F D); exact Cr].
Qed.

Lemma step_get : forall x r p p' s, each (asExpr st) p = Ok p' -> allP (clean st) p -> clean_env st (fst s) ->
  sim b cl (run (S n) s (MGet (x, r) p)) (eval (S k) s (get st x (map AStr r ++ p'))).
Proof.
  intros x r p p' s E C Cs. cbn [PprSpec.run]. unfold get, shared, read.
  destruct (mem x (cells st)) eqn:A; [|destruct (mem x (pools st)) eqn:B].
  - rewrite (look_shared (fst s) x Cs (or_introl A)). cbn [orb PprModel.eval]. apply (sim_path _ b n k p p' r s); [exact P | exact Cs | apply ih_seq; assumption|].
    intros q q' E1 E2 Cq. rewrite E1, E2. destruct (cell_get V W M x _ _); [apply sim_ok; exact Cq | apply sim_raise].
  - rewrite (look_shared (fst s) x Cs (or_intror B)). cbn [orb PprModel.eval]. apply (sim_path _ b n k p p' r s); [exact P | exact Cs | apply ih_seq; assumption|].
    intros q q' E1 E2 Cq. rewrite E1, E2. destruct (pool_get V W M x _ _); [apply sim_ok; exact Cq | apply sim_raise].
  - cbn [orb PprModel.eval]. destruct (look (fst s) x) as [v|] eqn:L; [|apply (sim_noref _ b n k s x); assumption].
    apply (sim_ref _ b n k s x v); try assumption. cbn [fst snd]. apply (sim_path _ b n k p p' r s); [exact P | exact Cs | apply ih_seq; assumption|].
    intros q q' E1 E2 Cq. rewrite E1, E2. destruct (attr_get V W M v _); [apply sim_ok; exact Cq | apply sim_raise].
Qed.

Lemma step_to : forall x r p d t i p' t' i' a s, each (asExpr st) p = Ok p' -> asExpr st t = Ok t' ->
  match i with None => Ok None | Some i => i <- asExpr st i ;; Ok (Some i) end = Ok i' ->
  to_expr st x (map AStr r ++ p') d t' i' = Ok a ->
  clean st (MTo (x, r) p d t i) -> clean_env st (fst s) -> sim b cl (run (S n) s (MTo (x, r) p d t i)) (eval (S k) s a).
Proof.
  intros x r p d t i p' t' i' a s E1 E2 E3 E4 (C1 & C2 & C3) Cs. unfold to_expr in E4.
  destruct (d && is_fcn t')%bool eqn:D1; [discriminate|]. destruct (negb d && negb (is_fcn t'))%bool eqn:D2; [discriminate|].
  assert (F : change_of V (is_fcn t') = fun v => if d then Direct v else Through v) by (destruct d, (is_fcn t'); try discriminate; reflexivity).
  destruct (negb d && mem x (pools st) && _)%bool eqn:D3; [discriminate|]. destruct (negb (mem x (pools st)) && _)%bool eqn:D4; [discriminate|]. injection E4 as <-.
  cbn [PprSpec.run]. unfold shared, write.
  destruct (mem x (cells st)) eqn:A; [|destruct (mem x (pools st)) eqn:B].
  - rewrite (look_shared (fst s) x Cs (or_introl A)). cbn [orb PprModel.eval]. rewrite F. apply (sim_path _ b n k p p' r s); [exact P | exact Cs | apply ih_seq; assumption|].
    intros q q' Q1 Q2 Cq. rewrite Q1, Q2. apply (sim_bind _ _ _ cl); [apply IH; assumption|]. intros u Cu.
    destruct i as [i|].
    + destruct (asExpr st i) as [i1|] eqn:Ei; cbn in E3; [|discriminate]. injection E3 as <-. rewrite (proj2 G x A) in D4. discriminate D4.
    + cbn [rbind]. apply sim_world. exact Cu.
  - rewrite (look_shared (fst s) x Cs (or_intror B)). cbn [orb PprModel.eval]. rewrite F. apply (sim_path _ b n k p p' r s); [exact P | exact Cs | apply ih_seq; assumption|].
    intros q q' Q1 Q2 Cq. rewrite Q1, Q2. destruct i as [i|].
    + destruct (asExpr st i) as [i1|] eqn:Ei; cbn in E3; [|discriminate]. injection E3 as <-.
      apply (sim_bind _ _ _ cl); [apply IH; assumption|]. intros u Cu. apply (sim_bind _ _ _ cl); [apply IH; assumption|]. intros w Cw. apply sim_world. exact Cw.
    + injection E3 as <-. apply (sim_twice _ b n k (snd q) t t'); [apply C3; split; assumption | exact E2 | apply IH; assumption|]. intros u Cu. cbn [rbind]. apply sim_world. exact Cu.
  - cbn [orb PprModel.eval]. rewrite F. destruct (look (fst s) x) as [v|] eqn:L; [|apply (sim_noref _ b n k s x); assumption].
    apply (sim_ref _ b n k s x v); try assumption. cbn [fst snd]. apply (sim_path _ b n k p p' r s); [exact P | exact Cs | apply ih_seq; assumption|].
    intros q q' Q1 Q2 Cq. rewrite Q1, Q2. apply (sim_bind _ _ _ cl); [apply IH; assumption|]. intros u Cu. apply sim_world. exact Cu.
Qed.

Lemma sim_strs : forall B r s (Q : B -> Prop) K1 K2, pair_ok b n k -> clean_env st (fst s) -> sim b Q K1 (K2 (values V W M r, s)) ->
  sim b Q K1 (rbind (seq V W ast (eval k) s (map AStr r)) K2).
Proof.
  intros B r s Q K1 K2 Pk Cs H. change K1 with (rbind (Ok (values V W M r, s)) (fun _ => K1)).
  apply (sim_bind _ _ _ _ _ _ _ _ _ (sim_pieces0 b n k r s Pk Cs)). intros [q1 q2] [E1 E2]. cbn in E1, E2. subst. exact H.
Qed.
Lemma step_assign : forall x r t t' a s, asExpr st t = Ok t' -> assign_expr st (x, r) t' = Ok a ->
  clean st t -> partial t = false -> (pool_only st x -> quiet t) -> clean_env st (fst s) ->
  sim b cl (run (S n) s (MAssign false [((x, r), t)])) (eval (S k) s a).
Proof.
  intros x r t t' a s E1 E2 C1 C2 C3 Cs. unfold assign_expr in E2. destruct (is_fcnref t') eqn:F; [discriminate|].
  pose proof (fcn_of t t' E1 C2 F) as N. cbn [PprSpec.run]. destruct r as [|y r].
  - injection E2 as <-. unfold store, write.
    destruct (mem x (cells st)) eqn:A; [|destruct (mem x (pools st)) eqn:B].
    + cbn [PprModel.eval seq rbind fst snd]. rewrite N. apply (sim_bind _ _ _ cl); [apply IH; assumption|]. intros u Cu.
      rewrite (look_shared _ x Cu (or_introl A)). apply sim_world. exact Cu.
    + cbn [PprModel.eval seq rbind fst snd]. rewrite N. apply (sim_twice _ b n k s t t'); [apply C3; split; assumption | exact E1 | apply IH; assumption|]. intros u Cu.
      rewrite (look_shared _ x Cu (or_intror B)). apply sim_world. exact Cu.
    + cbn [PprModel.eval map seq fst snd].
      assert (T : forall u : V * state, cl u -> sim b cl (match look (fst (snd u)) x with
          | Some _ => e <- assign (fst (snd u)) x (fst u) ;; Ok (v_null V W M, (e, snd (snd u))) | None => unknown end)
          (e <- assign_all V (fst (snd u)) [x] [fst u] ;; Ok (v_null V W M, (e, snd (snd u))))).
      { intros u Cu. cbn [assign_all]. destruct (look (fst (snd u)) x) as [v|] eqn:L.
        - destruct (assign (fst (snd u)) x (fst u)) as [e|] eqn:Ea; cbn [rbind]; [|apply sim_raise]. apply sim_ok. unfold cl. cbn. apply (clean_assign _ _ _ _ Cu Ea).
        - rewrite (assign_none _ _ _ L). cbn. apply sim_raise. }
      assert (Z : (r <- (r <- eval k s t' ;; r' <- Ok ([], snd r) ;; Ok (fst r :: fst r', snd r')) ;; e <- assign_all V (fst (snd r)) [x] (fst r) ;; Ok (v_null V W M, (e, snd (snd r)))) =
                  (u <- eval k s t' ;; e <- assign_all V (fst (snd u)) [x] [fst u] ;; Ok (v_null V W M, (e, snd (snd u))))) by (destruct (eval k s t'); reflexivity).
      rewrite Z. apply (sim_bind _ _ _ cl); [apply IH; assumption | exact T].
  - unfold shared, write. remember (y :: r) as z eqn:Ez.
    assert (E3 : Ok (if mem x (cells st) then ACellTo x (map AStr z) t' else if mem x (pools st) then APoolTo x (map AStr z) t' t' else AAttrTo (ARef x) (map AStr z) t') = Ok a) by (rewrite Ez in *; exact E2).
    injection E3 as <-.
    assert (E4 : forall X Y : res (V * state), match z with [] => X | _ :: _ => Y end = Y) by (rewrite Ez; reflexivity). rewrite ?E4. clear E2 E4.
    destruct (mem x (cells st)) eqn:A; [|destruct (mem x (pools st)) eqn:B].
    + rewrite (look_shared (fst s) x Cs (or_introl A)). cbn [orb PprModel.eval]. rewrite N. apply sim_strs; [exact P | exact Cs|]. cbn [fst snd].
      apply (sim_bind _ _ _ cl); [apply IH; assumption|]. intros u Cu. apply sim_world. exact Cu.
    + rewrite (look_shared (fst s) x Cs (or_intror B)). cbn [orb PprModel.eval]. rewrite N. apply sim_strs; [exact P | exact Cs|]. cbn [fst snd].
      apply (sim_twice _ b n k s t t'); [apply C3; split; assumption | exact E1 | apply IH; assumption|]. intros u Cu. apply sim_world. exact Cu.
    + cbn [orb PprModel.eval]. rewrite N. destruct (look (fst s) x) as [v|] eqn:L; [|apply (sim_noref _ b n k s x); assumption].
      apply (sim_ref _ b n k s x v); try assumption. cbn [fst snd]. apply sim_strs; [exact P | exact Cs|]. cbn [fst snd].
      apply (sim_bind _ _ _ cl); [apply IH; assumption|]. intros u Cu. apply sim_world. exact Cu.
Qed.

Lemma store_vars : forall xs vs s, Forall (fun x => mem x (cells st) = false /\ mem x (pools st) = false) xs -> clean_env st (fst s) ->
  sim b cl (store_all V W M st s xs vs) (e <- assign_all V (fst s) xs vs ;; Ok (v_null V W M, (e, snd s))).
Proof.
  intros xs vs s F. revert vs s. induction F as [|x xs [A B] F IHx]; intros vs [e0 w0] C; [apply sim_ok; exact C|].
  destruct vs as [|v vs]; [apply sim_ok; exact C|]. cbn [store_all assign_all]. unfold store, write. rewrite A, B.
  cbn [fst snd] in *. destruct (look e0 x) as [u|] eqn:L.
  - destruct (assign e0 x v) as [e|] eqn:Ea; cbn [rbind]; [|apply sim_raise]. apply (IHx vs (e, w0)). apply (clean_assign _ _ _ _ C Ea).
  - rewrite (assign_none _ _ _ L). cbn. apply sim_raise.
Qed.

Definition q_expr (q : dotted * mini) : res (dotted * ast) := match q with (d, e) => a <- asExpr st e ;; Ok (d, a) end.
Lemma q_shape : forall ps l, each q_expr ps = Ok l -> each (asExpr st) (map snd ps) = Ok (map snd l) /\ map fst l = map fst ps.
Proof.
  induction ps as [|[d e] ps IHp]; intros l E; cbn [each] in E; [injection E as <-; split; reflexivity|].
  unfold q_expr at 1 in E. destruct (asExpr st e) as [a|] eqn:A; cbn [rbind] in E; [|discriminate]. destruct (each q_expr ps) as [l'|] eqn:R; cbn [rbind] in E; [|discriminate]. injection E as <-.
  destruct (IHp l' eq_refl) as [H1 H2]. cbn [map snd fst each]. rewrite A. cbn [rbind]. rewrite H1, H2. split; reflexivity.
Qed.

Lemma step : forall m a s, asExpr st m = Ok a -> clean st m -> clean_env st (fst s) ->
  (forall a' s', asExpr st m = Ok a' -> clean_env st (fst s') -> sim b cl (run n s' m) (eval k s' a')) ->
  sim b cl (run (S n) s m) (eval (S k) s a).
Proof.
  intros m a s E C Cs Again. destruct m as [d|z|x|f args|l|e p|[x r] p|[x r] p d t i|ps els|p bd pre|e p t|v ps].
  - cbn in E. injection E as <-. cbn [PprSpec.run]. apply (sim_weak _ _ (fun r : V * state => snd r = s)); [apply (name_sim b n k s d P Cs)|]. intros r Er. unfold cl. rewrite Er. exact Cs.
  - cbn in E. injection E as <-. apply sim_ok. exact Cs.
  - cbn in E. injection E as <-. apply sim_ok. exact Cs.
  - cbn [asExpr] in E. destruct C as [C1 C2].
    assert (C3 : forall e, In e (map snd args) -> clean st e).
    { clear -C1. induction args as [|[o e] args IHa]; intros e0 I; [destruct I|]. destruct C1 as [C0 C1]. destruct I as [<-|I]; [exact C0 | apply (IHa C1 e0 I)]. }
    cbn [PprSpec.run]. destruct (existsb is_named args) eqn:N.
    + destruct C2 as [C2|]; [|discriminate]. destruct (each _ args) as [L|] eqn:F; cbn [rbind] in E; [|discriminate]. injection E as <-.
      destruct (fill_shape (fun x y => forall s, clean_env st (fst s) -> sim b cl (run n s x) (eval k s y)) args L (fun e a I E1 s0 C0 => IH e a s0 E1 (C3 e I) C0) C2 F) as [F2 K].
      destruct args as [|[[key|] e] args]; [discriminate| |discriminate C2]. rewrite K. cbn [PprModel.eval].
      apply (sim_bind _ _ _ cl); [apply sim_seq; [exact F2 | exact Cs]|]. intros q Cq. apply sim_ok. exact Cq.
    + destruct (each _ args) as [L|] eqn:F; cbn [rbind] in E; [|discriminate]. injection E as <-. cbn [PprModel.eval].
      assert (F2 : each (asExpr st) (map snd args) = Ok L).
      { clear -F. revert L F. induction args as [|[o e] args IHa]; intros L F; cbn in *; [exact F|]. destruct (asExpr st e); cbn in *; [|discriminate].
        destruct (each _ args) as [L'|]; cbn in F; [|discriminate]. rewrite (IHa L' eq_refl). exact F. }
      assert (C4 : allP (clean st) (map snd args)).
      { clear -C1. induction args as [|[o e] args IHa]; [exact I|]. destruct C1. split; [assumption | apply IHa; assumption]. }
      apply (sim_bind _ _ _ cl); [apply ih_seq; assumption|]. intros q Cq.
      destruct args as [|[[key|] e] args]; [|discriminate N|]; apply sim_world; exact Cq.
  - cbn [asExpr] in E. destruct (each (asExpr st) l) as [l'|] eqn:F; cbn [rbind] in E; [|discriminate]. injection E as <-. apply ih_block; assumption.
  - cbn [asExpr] in E. destruct (asExpr st e) as [e'|] eqn:F; cbn [rbind] in E; [|discriminate]. destruct (each (asExpr st) p) as [p'|] eqn:H; cbn [rbind] in E; [|discriminate]. injection E as <-.
    destruct C as [C1 C2]. cbn [PprSpec.run PprModel.eval]. apply (sim_bind _ _ _ cl); [apply IH; assumption|]. intros q Cq. apply (sim_bind _ _ _ cl); [apply ih_seq; assumption|]. intros q' Cq'.
    destruct (attr_get V W M _ _); [apply sim_ok; exact Cq' | apply sim_raise].
  - cbn [asExpr] in E. destruct (each (asExpr st) p) as [p'|] eqn:H; cbn [rbind] in E; [|discriminate]. injection E as <-. apply step_get; assumption.
  - cbn [asExpr] in E. destruct (each (asExpr st) p) as [p'|] eqn:H; cbn [rbind] in E; [|discriminate]. destruct (asExpr st t) as [t'|] eqn:Et; cbn [rbind] in E; [|discriminate].
    destruct (match i with None => Ok None | Some i => i <- asExpr st i ;; Ok (Some i) end) as [i'|] eqn:Ei; cbn [rbind] in E; [|discriminate].
    apply (step_to x r p d t i p' t' i'); assumption.
  - cbn [asExpr] in E. change (each _ ps) with (each pair_expr ps) in E. destruct (each pair_expr ps) as [qs|] eqn:H; cbn [rbind] in E; [|discriminate].
    destruct (match els with None => Ok None | Some e => _ end) as [e'|] eqn:Ee; cbn [rbind] in E; [|discriminate]. injection E as <-. destruct C as [C1 C2].
    assert (Q : sim b cl (run (S n) s (MIf ps els)) (conds V W M ast (list ast) (eval k) (block V W M ast (eval k)) s qs e')).
    { cbn [PprSpec.run]. apply ih_conds; try assumption. }
    destruct qs as [|[p1 t1] [|q2 qs]]; exact Q.
  - cbn [asExpr] in E. change (match bd with MDo l => each (asExpr st) l | _ => a <- asExpr st bd ;; Ok [a] end) with (body_expr bd) in E.
    destruct (body_expr bd) as [bd'|] eqn:H; cbn [rbind] in E; [|discriminate]. destruct (asExpr st p) as [p'|] eqn:Ep; cbn [rbind] in E; [|discriminate]. injection E as <-. destruct C as [C1 C2].
    assert (T : asExpr st (MWhile p bd pre) = Ok (if pre then AWhile p' bd' else AUntil bd' p')).
    { cbn [asExpr]. change (match bd with MDo l => each (asExpr st) l | _ => a <- asExpr st bd ;; Ok [a] end) with (body_expr bd). rewrite H. cbn [rbind]. rewrite Ep. reflexivity. }
    destruct pre; cbn [PprSpec.run PprModel.eval].
    + apply (sim_bind _ _ _ cl); [apply IH; assumption|]. intros q Cq. destruct (truth V W M (fst q)); [|apply sim_ok; exact Cq].
      apply (sim_bind _ _ _ cl); [apply ih_body; assumption|]. intros q' Cq'. apply Again; assumption.
    + apply (sim_bind _ _ _ cl); [apply ih_body; assumption|]. intros q Cq. apply (sim_bind _ _ _ cl); [apply IH; assumption|]. intros q' Cq'.
      destruct (truth V W M (fst q')); [apply sim_ok; exact Cq' | apply Again; assumption].
  - cbn [asExpr] in E. destruct (asExpr st e) as [e'|] eqn:F; cbn [rbind] in E; [|discriminate]. destruct (each (asExpr st) p) as [p'|] eqn:H; cbn [rbind] in E; [|discriminate].
    destruct (asExpr st t) as [t'|] eqn:Et; cbn [rbind] in E; [|discriminate]. injection E as <-. destruct C as (C1 & C2 & C3 & C4).
    assert (N : is_fcn t' = false).
    { assert (R1 : partial t = false) by (destruct t; try reflexivity; exact C4). apply (fcn_of t t' Et R1). destruct t'; try reflexivity.
      destruct (fcnref_of t f Et) as (d0 & -> & Fd). cbn in C4. congruence. }
    cbn [PprSpec.run PprModel.eval]. rewrite N. apply (sim_bind _ _ _ cl); [apply IH; assumption|]. intros q Cq. apply (sim_bind _ _ _ cl); [apply ih_seq; assumption|]. intros q' Cq'.
    apply (sim_bind _ _ _ cl); [apply IH; assumption|]. intros u Cu. apply sim_world. exact Cu.
  - cbn [asExpr] in E. change (each _ ps) with (each q_expr ps) in E. destruct (each q_expr ps) as [l|] eqn:H; cbn [rbind] in E; [|discriminate].
    destruct (q_shape ps l H) as [H1 H2].
    assert (M1 : map (fun q : dotted * mini => fst (fst q)) ps = map fst (map (fun q : dotted * ast => (fst (fst q), snd q)) l)).
    { transitivity (map fst (map fst ps)); [rewrite map_map; reflexivity|]. rewrite <- H2, !map_map. reflexivity. }
    assert (M2 : map snd (map (fun q : dotted * ast => (fst (fst q), snd q)) l) = map snd l) by (rewrite map_map; reflexivity).
    unfold dotted in *. destruct v.
    + match type of E with context [existsb ?f l] => destruct (existsb f l) end; [discriminate|]. injection E as <-. cbn [PprSpec.run PprModel.eval]. rewrite M1, M2. cbn [clean] in C.
      apply (sim_bind _ _ _ cl).
      * apply ih_seq; [exact H1| |exact Cs]. clear -C. induction ps as [|[[y r] t] ps IHp]; [exact I|]. destruct C as [[_ C0] C]. split; [exact C0 | apply IHp; exact C].
      * intros q Cq. apply sim_ok. unfold cl. cbn. apply clean_declare_all; [exact Cq|]. rewrite <- M1. clear -C. induction ps as [|[[y r] t] ps IHp]; [constructor|].
        destruct C as [[C0 _] C]. constructor; [exact C0 | apply IHp; exact C].
    + destruct ps as [|[[x r] t] [|q2 ps]].
      * cbn in H. injection H as <-. cbn in E. injection E as <-. destruct s as [e0 w0]. cbn. apply sim_ok. exact Cs.
      * cbn [each] in H. unfold q_expr in H. destruct (asExpr st t) as [t'|] eqn:Et; cbn in H; [|discriminate]. injection H as <-. destruct C as (C1 & C2 & C3). apply (step_assign x r t t'); assumption.
      * destruct l as [|l1 [|l2 l]]; [discriminate H2|discriminate H2|]. match type of E with context [existsb ?f (l1 :: l2 :: l)] => destruct (existsb f (l1 :: l2 :: l)) end; [destruct l1; discriminate|].
        assert (E5 : ASet (map (fun q : dotted * ast => (fst (fst q), snd q)) (l1 :: l2 :: l)) = a) by (destruct l1; injection E as <-; reflexivity). rewrite <- E5. clear E E5. unfold dotted in *.
        assert (C5 : allP (fun q : dotted * mini => match q with ((b0, _), t0) => mem b0 (cells st) = false /\ mem b0 (pools st) = false /\ clean st t0 end) ((x, r, t) :: q2 :: ps)) by exact C.
        assert (R : run (S n) s (MAssign false ((x, r, t) :: q2 :: ps)) = (q <- seq V W mini (run n) s (map snd ((x, r, t) :: q2 :: ps)) ;; store_all V W M st (snd q) (map (fun q => fst (fst q)) ((x, r, t) :: q2 :: ps)) (fst q))) by (destruct r; reflexivity).
        unfold dotted in *. rewrite R. cbn [PprModel.eval]. rewrite M1, M2. apply (sim_bind _ _ _ cl).
        -- apply ih_seq; [exact H1| |exact Cs]. clear -C5. generalize dependent ((x, r, t) :: q2 :: ps). intros l0 C. induction l0 as [|[[y r0] t0] l0 IHp]; [exact I|]. destruct C as [(_ & _ & C0) C]. split; [exact C0 | apply IHp; exact C].
        -- intros q Cq. apply store_vars; [|exact Cq]. rewrite <- M1. clear -C5. generalize dependent ((x, r, t) :: q2 :: ps). intros l0 C. induction l0 as [|[[y r0] t0] l0 IHp]; [constructor|].
           destruct C as [(A1 & A2 & _) C]. constructor; [split; assumption | apply IHp; exact C].
Qed.
End Step.

Theorem translation : forall b n k, pair_ok b n k -> forall m a s, asExpr st m = Ok a -> clean st m -> clean_env st (fst s) -> sim b cl (run n s m) (eval k s a).
Proof.
  intros b. induction n as [|n IHn]; intros k P m a s E C Cs.
  - destruct b; cbn in P; subst k; (split; [|discriminate]); right; [left | right]; split; reflexivity.
  - destruct k as [|k]; [destruct b; discriminate|]. assert (P' : pair_ok b n k) by (destruct b; cbn in *; lia).
    apply step; try assumption; [apply (IHn k P')|]. intros a' s' E' Cs'. apply (IHn k P'); assumption.
Qed.
End Ppr.
