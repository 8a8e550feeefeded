(** C96: transformations of titus.producer.transformation do to Numpy columns what their PFA expressions do to every row. *)
From Verif Require Import Base PyNum ScopeModel ArithModel TransModel TransSpec TransProofs TransProofs2 TransProofs3.
Open Scope string_scope.
Open Scope list_scope.

(** ** what a transformation is made of *)
Lemma index_names_nodup m : (m <= 100)%nat -> NoDup (map index_name (seq 0 m)).
Proof.
  intros H. assert (N : NoDup (map index_name (seq 0 100))).
  { assert (E : nodup string_dec (map index_name (seq 0 100)) = map index_name (seq 0 100)) by (vm_compute; reflexivity). rewrite <- E. apply NoDup_nodup. }
  replace 100%nat with (m + (100 - m))%nat in N by lia. rewrite seq_app, map_app in N. revert N. generalize (map index_name (seq (0 + m) (100 - m))). clear.
  induction (map index_name (seq 0 m)) as [|x l IH]; intros r N; [constructor|]. inversion N; subst. constructor; eauto. intros Hx. apply H1. apply in_or_app. now left.
Qed.
Lemma combine_fst {A B} (l : list A) (r : list B) : length l = length r -> map fst (combine l r) = l.
Proof. revert r. induction l as [|x l IH]; intros [|y r] H; cbn in *; try discriminate; f_equal; auto. Qed.
Lemma assoc_combine_nth {B} (l : list string) (r : list B) i k v : NoDup l -> nth_error l i = Some k -> nth_error r i = Some v -> assoc k (combine l r) = Some v.
Proof.
  revert l r. induction i as [|i IH]; intros [|x l] [|y r] N H1 H2; cbn in *; try discriminate.
  - injection H1 as ->. injection H2 as ->. now rewrite String.eqb_refl.
  - inversion N; subst. destruct (String.eqb_spec k x) as [->|_]; [|eauto]. apply nth_error_In in H1. easy.
Qed.

Lemma nth_error_ext_lt {B} (l r : list B) n : length l = n -> length r = n -> (forall i, (i < n)%nat -> nth_error l i = nth_error r i) -> l = r.
Proof.
  revert l r. induction n as [|n IH]; intros [|x l] [|y r] L R H; cbn in L, R; try discriminate; [reflexivity|]. f_equal.
  - specialize (H 0%nat ltac:(lia)). cbn in H. congruence.
  - apply IH; try lia. intros i Hi. apply (H (S i)). lia.
Qed.

(** positional expressions come first, in their order and under the names "_0", "_1", ...; the named ones follow, sorted *)
Theorem C96_order : forall indexed named t, new_transformation indexed named = Ok t -> (length indexed <= 100)%nat ->
  (exists rest, t_order t = map index_name (seq 0 (length indexed)) ++ rest /\ increasing rest /\ forall k, In k rest <-> In k (map fst named)) /\
  (forall i a, nth_error indexed i = Some a -> assoc (index_name i) (t_exprs t) = Some a) /\
  (forall k, ~ In k (map index_name (seq 0 (length indexed))) -> assoc k (t_exprs t) = assoc k named).
Proof.
  intros indexed named t H L. destruct (new_spec _ _ _ H) as (E & O & _).
  assert (CF : map fst (combine (map index_name (seq 0 (length indexed))) indexed) = map index_name (seq 0 (length indexed))) by (apply combine_fst; now rewrite map_length, seq_length).
  rewrite CF in O. assert (N : NoDup (map fst (combine (map index_name (seq 0 (length indexed))) indexed))) by (rewrite CF; now apply index_names_nodup).
  split; [|split].
  - exists (sort_set (map fst named)). split; [exact O|]. split; [apply sort_set_increasing|]. intros k. apply sort_set_in.
  - intros i a Hi. rewrite E. unfold given. rewrite fold_set_assoc by auto.
    assert (Li : (i < length indexed)%nat) by (apply nth_error_Some; congruence).
    rewrite (assoc_combine_nth _ indexed i (index_name i) a); auto; [rewrite <- CF; exact N|]. rewrite nth_error_map, (nth_error_nth' _ 0%nat) by (now rewrite seq_length). cbn. now rewrite seq_nth.
  - intros k Hk. rewrite E. unfold given. rewrite fold_set_assoc by auto. destruct (assoc k _) eqn:Ea; [|reflexivity]. exfalso. apply Hk. rewrite <- CF. apply assoc_In in Ea. apply in_map_iff. now exists (k, a).
Qed.
(** a transformation can be made when every expression has Numpy functions only and the names in it are names of Python *)
Theorem C96_accepted : forall indexed named, (exists t, new_transformation indexed named = Ok t) <->
  forall k a, In (k, a) (given indexed named) -> supported a /\ forall f, In f (variables a) \/ In f (texts a) -> python_name f = true.
Proof.
  intros indexed named. split.
  - intros [t H] k a Hin. pose proof (exprs_supported _ _ _ H) as S. pose proof (fields_used _ _ _ H) as F. destruct (new_spec _ _ _ H) as (E & _ & _ & _ & P). rewrite <- E in Hin.
    split; [eauto|]. intros f Hf. assert (Ne : t_exprs t <> []) by (intros X; rewrite X in Hin; destruct Hin). specialize (P Ne). rewrite forallb_forall in P. apply P. apply F. eauto.
  - intros H. unfold new_transformation. fold (given indexed named). set (fl := sort_set _).
    assert (P : forallb python_name fl = true).
    { apply forallb_forall. intros f Hf. unfold fl in Hf. apply sort_set_in, in_flat_map in Hf as ([k a] & Hin & Hf). destruct (H k a Hin) as [S P]. apply P. apply fields_of; auto. now apply supported_plain. }
    rewrite P. destruct (rmapM_all (fun kv : string * ast => n <- to_numpy (snd kv) ;; Ok (fst kv, n)) (given indexed named)) as [ls Els].
    { apply Forall_forall. intros [k a] Hin. destruct (H k a Hin) as [S _]. apply to_numpy_ok in S as [e Ee]. cbn [snd fst]. rewrite Ee. eexists. reflexivity. }
    rewrite Els. eexists. reflexivity.
Qed.
(** the fields of a transformation: its variables, sorted, and its text literals *)
Theorem C96_fields : forall indexed named t, new_transformation indexed named = Ok t ->
  increasing (t_fields t) /\ forall f, In f (t_fields t) <-> exists k a, In (k, a) (t_exprs t) /\ (In f (variables a) \/ In f (texts a)).
Proof. intros indexed named t H. split; [|exact (fields_used _ _ _ H)]. destruct (new_spec _ _ _ H) as (_ & _ & F & _). rewrite F. apply sort_set_increasing. Qed.

Section Values.
  Variable V : Type.
  Variable lit : val -> V.
  Variable fn : string -> list V -> V.
  Variable numpy : string -> list V -> V.
  Notation lita := (fun a => lit (to_json a)).
  Notation meaning := (meaning V lit fn).

  (** ** substitution *)
  (** replacing names by expressions gives the document that is worth what the first is worth when the names stand for the values of the expressions;
      all names are replaced at once, and no text literal may be one of them *)
  Theorem C96_replace : forall subs env a, plain a -> (forall s, In s (texts a) -> assoc s subs = None) ->
    meaning env (replace subs (to_json a)) = meaning (fun s => match assoc s subs with Some j => meaning env j | None => env s end) (to_json a).
  Proof. intros subs env a. apply replace_meaning. Qed.
  Theorem C96_unchanged : forall subs a, plain a -> (forall s, In s (variables a) \/ In s (texts a) -> assoc s subs = None) -> replace subs (to_json a) = to_json a.
  Proof. exact replace_id. Qed.

  (** ** transform *)
  Hypothesis A : agree V fn numpy.
  Lemma lengths n names table : Forall (fun l : list V => length l = n) table -> forall f l, assoc f (combine names table) = Some l -> length l = n.
  Proof. intros F f l E. apply assoc_In, in_combine_r in E. rewrite Forall_forall in F. auto. Qed.
  Lemma supplied names table : length names = length table -> forall f, In f names -> has_key f (combine names table : list (string * list V)) = true.
  Proof. intros L f Hf. unfold has_key. destruct (assoc_some_in f (combine names table)) as [v ->]; [now rewrite combine_fst|reflexivity]. Qed.

  (** every column of the result holds, row by row, what the expression is worth on the fields of the row; the columns come in the order of the expressions,
      wherever the fields stand in the table *)
  Theorem C96_table : forall indexed named t n names table, new_transformation indexed named = Ok t ->
    length names = length table -> Forall (fun l => length l = n) table -> incl (t_fields t) names ->
    ~ In "numpy" (t_fields t) -> ~ In "math" (t_fields t) -> (forall k a, In (k, a) (t_exprs t) -> variables a <> []) ->
    exists cols, transform_table V lita numpy t n table (Some names) = Ok cols /\
      Forall2 (fun k col => exists a, assoc k (t_exprs t) = Some a /\ length col = n /\ forall i, (i < n)%nat -> nth_error col i = meaning (row V names table i) (to_json a)) (t_order t) cols.
  Proof.
    intros indexed named t n names table H L F Hf Hn Hm Hv.
    destruct (in_order_spec V lit fn numpy A indexed named t n (combine names table) names H) as (cs & cols & E1 & E2 & F2); auto.
    { now apply lengths. } { intros f Hi. split; [auto|]. apply supplied; auto. }
    unfold transform_table. rewrite L, Nat.eqb_refl. cbn [negb]. rewrite E1. cbn [rbind]. rewrite E2. cbn [rbind].
    destruct (vstack_columns V n cols) as (l & El & Fl).
    { intros c Hc. clear - F2 Hc Hv. induction F2 as [|k c' ks cs' (a & Ea & _ & S & _) _ IH]; [destruct Hc|]. destruct Hc as [->|Hc]; [|auto]. rewrite S. apply assoc_In in Ea. specialize (Hv _ _ Ea). now destruct (variables a). }
    exists l. split; [exact El|]. clear - F2 Fl. revert l Fl. induction F2 as [|k c ks cs' (a & Ea & Fu & _ & R) _ IH]; intros l Fl; inversion Fl; subst; constructor; auto.
    exists a. split; [exact Ea|]. split; [exact Fu|exact R].
  Qed.
  (** the order and the other columns of the table do not matter *)
  Theorem C96_permuted : forall indexed named t n names table names' table', new_transformation indexed named = Ok t ->
    length names = length table -> Forall (fun l => length l = n) table -> incl (t_fields t) names ->
    length names' = length table' -> Forall (fun l => length l = n) table' -> incl (t_fields t) names' ->
    ~ In "numpy" (t_fields t) -> ~ In "math" (t_fields t) -> (forall k a, In (k, a) (t_exprs t) -> variables a <> []) ->
    (forall f i, In f (t_fields t) -> row V names table i f = row V names' table' i f) ->
    transform_table V lita numpy t n table (Some names) = transform_table V lita numpy t n table' (Some names').
  Proof.
    intros indexed named t n names table names' table' H L F Hf L' F' Hf' Hn Hm Hv R.
    destruct (C96_table indexed named t n names table) as (c1 & -> & G1); auto. destruct (C96_table indexed named t n names' table') as (c2 & -> & G2); auto. f_equal.
    pose proof (exprs_supported _ _ _ H) as SU. pose proof (fields_used _ _ _ H) as FU.
    clear H Hf Hf' Hn Hm Hv. revert c2 G2. induction G1 as [|k col ks c1 (a & Ea & La & Ra) _ IH]; intros c2 G2; inversion G2 as [|? col' ? c2' (b & Eb & Lb & Rb) G2' ]; subst; [reflexivity|]. f_equal; [|now apply IH].
    assert (Hab : a = b) by congruence. subst b. eapply nth_error_ext_lt; [reflexivity|congruence|]. intros i Hi. rewrite Ra, Rb by auto.
    apply assoc_In in Ea. apply meaning_ext; [apply supported_plain; eauto|]. intros s Hs. apply R. apply FU. eauto 6.
  Qed.
  (** a dict of columns gives the columns by the names of the expressions *)
  Theorem C96_dict : forall indexed named t n dataset, new_transformation indexed named = Ok t -> Forall (fun fl => length (snd fl) = n) dataset -> incl (t_fields t) (map fst dataset) ->
    ~ In "numpy" (t_fields t) -> ~ In "math" (t_fields t) ->
    exists computed, transform_dict V lita numpy t n dataset None = Ok computed /\ map fst computed = map fst (t_exprs t) /\
      forall k a, assoc k (t_exprs t) = Some a -> exists c, assoc k computed = Some c /\
        match c with
        | Column l => length l = n /\ forall i, (i < n)%nat -> nth_error l i = meaning (row V (map fst dataset) (map snd dataset) i) (to_json a)
        | Scalar v => variables a = [] /\ forall i, (i < n)%nat -> Some v = meaning (row V (map fst dataset) (map snd dataset) i) (to_json a)
        end.
  Proof.
    intros indexed named t n dataset H F Hf Hn Hm. unfold transform_dict.
    destruct (compute_spec V lit fn numpy A indexed named t n dataset (map fst dataset) H) as (cs & E & F2); auto.
    { intros f l Ea. apply assoc_In in Ea. rewrite Forall_forall in F. now apply (F (f, l)). }
    { intros f Hi. split; [auto|]. unfold has_key. destruct (assoc_some_in f dataset (Hf f Hi)) as [v ->]. reflexivity. }
    exists cs. split; [exact E|]. split.
    - clear - F2. induction F2 as [|? ? ? ? (K & _) _ IH]; cbn; [reflexivity|]. now rewrite K, IH.
    - intros k a Ea. destruct (assoc_f2 (fun a c => full V n c /\ is_scalar V c = (match variables a with [] => true | _ => false end) /\
        forall i, (i < n)%nat -> at_row V i c = meaning (env_row V dataset i) (to_json a)) _ _ k a F2 Ea) as (c & Ec & Fu & S & R). exists c. split; [exact Ec|].
      assert (RR : forall i, row V (map fst dataset) (map snd dataset) i = env_row V dataset i).
      { intros i. unfold row, env_row. replace (combine (map fst dataset) (map snd dataset)) with dataset; [reflexivity|]. clear. induction dataset as [|[x y] l IH]; cbn; [reflexivity|]. now rewrite <- IH. }
      destruct c as [v|l]; cbn in Fu, S, R.
      + split; [now destruct (variables a)|]. intros i Hi. rewrite RR. now apply R.
      + split; [exact Fu|]. intros i Hi. rewrite RR. now apply R.
  Qed.
  (** an expression without variables beside one with variables cannot be put into a table of other than one row *)
  Theorem C96_constants : forall indexed named t n names table k a k' a', new_transformation indexed named = Ok t ->
    length names = length table -> Forall (fun l => length l = n) table -> incl (t_fields t) names ->
    ~ In "numpy" (t_fields t) -> ~ In "math" (t_fields t) -> n <> 1%nat ->
    assoc k (t_exprs t) = Some a -> variables a = [] -> assoc k' (t_exprs t) = Some a' -> variables a' <> [] ->
    transform_table V lita numpy t n table (Some names) = Raise (PyErr "ValueError").
  Proof.
    intros indexed named t n names table k a k' a' H L F Hf Hn Hm N1 Ea Va Ea' Va'.
    destruct (in_order_spec V lit fn numpy A indexed named t n (combine names table) names H) as (cs & cols & E1 & E2 & F2); auto.
    { now apply lengths. } { intros f Hi. split; [auto|]. apply supplied; auto. }
    unfold transform_table. rewrite L, Nat.eqb_refl. cbn [negb]. rewrite E1. cbn [rbind]. rewrite E2. cbn [rbind].
    assert (O : forall k a, assoc k (t_exprs t) = Some a -> exists c, In c cols /\ is_scalar V c = (match variables a with [] => true | _ => false end)).
    { intros k0 a0 E0. assert (Hk : In k0 (t_order t)) by (apply (order_given _ _ _ H); apply assoc_In in E0; apply in_map_iff; now exists (k0, a0)).
      clear - F2 Hk E0. induction F2 as [|k1 c1 ks cs' (b & Eb & _ & S & _) _ IH]; [destruct Hk|]. destruct Hk as [->|Hk].
      - exists c1. split; [now left|]. assert (a0 = b) by congruence. now subst.
      - destruct (IH Hk) as (c & Hc & Sc). exists c. split; [now right|exact Sc]. }
    apply vstack_mixed; auto.
    - destruct (O _ _ Ea') as (c & Hc & S). destruct (forallb (is_scalar V) cols) eqn:Ef; [|reflexivity]. rewrite forallb_forall in Ef. rewrite (Ef c Hc) in S. now destruct (variables a').
    - destruct (O _ _ Ea) as (c & Hc & S). exists c. split; [exact Hc|]. now rewrite Va in S.
  Qed.

  (** ** what goes into documents *)
  (** the array that new makes is worth the row that transform makes, wherever the document finds the fields of the row *)
  Theorem C96_scores : forall indexed named t n names table subs subs2 type cols i env, new_transformation indexed named = Ok t ->
    length names = length table -> Forall (fun l => length l = n) table -> incl (t_fields t) names ->
    ~ In "numpy" (t_fields t) -> ~ In "math" (t_fields t) -> (forall k a, In (k, a) (t_exprs t) -> variables a <> [] /\ texts a = []) ->
    NoDup (map fst subs) -> (i < n)%nat ->
    (forall f, In f (t_fields t) -> exists b, (assoc f subs = Some b \/ (assoc f subs = None /\ assoc f subs2 = Some b)) /\ meaning env (to_json b) = row V names table i f) ->
    transform_table V lita numpy t n table (Some names) = Ok cols ->
    exists js, new_array t type subs subs2 = Ok (VDict [("type", type); ("new", VArr js)]) /\ map (meaning env) js = map (fun col => nth_error col i) cols.
  Proof.
    intros indexed named t n names table subs subs2 type cols i env H L F Hf Hn Hm Hv ND Hi HS HT.
    destruct (C96_table indexed named t n names table) as (c1 & E1 & G1); auto. { intros k a Hin. now apply (Hv k a). }
    rewrite HT in E1. injection E1 as <-. unfold new_array.
    pose proof (exprs_supported _ _ _ H) as SU. pose proof (fields_used _ _ _ H) as FU.
    assert (D : exists js, rmapM (replaced t subs subs2) (t_order t) = Ok js /\ map (meaning env) js = map (fun col => nth_error col i) cols).
    { clear HT. induction G1 as [|k col ks cols (a & Ea & La & Ra) _ IH]; [now exists []|]. destruct IH as (js & Ej & Mj).
      exists (replace (substitutions subs subs2) (to_json a) :: js). cbn [rmapM]. unfold replaced at 1. rewrite Ea. cbn [rbind]. rewrite Ej. split; [reflexivity|]. cbn [map]. f_equal; [|exact Mj].
      apply assoc_In in Ea. destruct (Hv _ _ Ea) as [_ Ht]. pose proof (supported_plain _ (SU _ _ Ea)) as Pa.
      rewrite replace_meaning by (auto; rewrite Ht; intros s []). rewrite (Ra i Hi). apply meaning_ext; [exact Pa|]. intros s Hs. unfold updated.
      destruct (HS s) as (b & Hb & Mb); [apply FU; eauto 6|]. unfold substitutions.
      assert (AM : forall l : list (string * ast), assoc s (map (fun ka => (fst ka, to_json (snd ka))) l) = option_map to_json (assoc s l)).
      { clear. induction l as [|[x y] l IH]; cbn; [reflexivity|]. now destruct (String.eqb s x). }
      rewrite AM, fold_set_assoc by auto. destruct Hb as [Hb|[Hb1 Hb2]]; [rewrite Hb|rewrite Hb1, Hb2]; exact Mb. }
    destruct D as (js & -> & M). exists js. split; [reflexivity|exact M].
  Qed.
  (** records, maps, let and expr have the same expressions under their names *)
  Theorem C96_named : forall t type subs subs2, exists d,
    new_record t type subs subs2 = VDict [("type", type); ("new", VDict d)] /\ let_expr t subs subs2 = VDict [("let", VDict d)] /\ map fst d = map fst (t_exprs t) /\
    (forall k, expr_of t k subs subs2 = match assoc k d with Some j => Ok j | None => Raise (PyErr "KeyError") end) /\
    forall k js, new_array t type subs subs2 = Ok (VDict [("type", type); ("new", VArr js)]) -> nth_error (t_order t) k = None \/ exists x, nth_error (t_order t) k = Some x /\ nth_error js k = assoc x d.
  Proof.
    clear A. intros t type subs subs2. exists (all_replaced t subs subs2).
    assert (AM : forall x, assoc x (all_replaced t subs subs2) = option_map (fun a => replace (substitutions subs subs2) (to_json a)) (assoc x (t_exprs t))).
    { intros x. unfold all_replaced. induction (t_exprs t) as [|[y b] l IH]; cbn; [reflexivity|]. now destruct (String.eqb x y). }
    repeat split.
    - unfold all_replaced. rewrite map_map. apply map_ext. reflexivity.
    - intros k. rewrite AM. unfold expr_of, replaced. now destruct (assoc k (t_exprs t)).
    - intros k js. unfold new_array. destruct (rmapM (replaced t subs subs2) (t_order t)) as [l|] eqn:E; [|discriminate]. cbn [rbind]. intros H. injection H as <-.
      destruct (nth_error (t_order t) k) as [x|] eqn:Ek; [right|now left]. exists x. split; [reflexivity|]. apply rmapM_ok_Forall2 in E. revert k Ek. induction E as [|y j ys js' Ey _ IH]; intros [|k] Ek; cbn in Ek |- *; try discriminate.
      + injection Ek as ->. rewrite AM. unfold replaced in Ey. destruct (assoc x (t_exprs t)); [|discriminate]. injection Ey as <-. reflexivity.
      + now apply IH.
  Qed.
End Values.

(** ** where the promise fails *)
(** text literals are taken for fields: the table has to have a column of that name, and a text that is no name of Python is an error *)
Theorem C96_texts_refuted :
  (exists t, new_transformation [ACall "==" [ARef "x"; AString "yes"]] [] = Ok t /\ t_fields t = ["x"; "yes"] /\
     forall V lit numpy n col, transform_dict V lit numpy t n [("x", col)] None = Raise (PyErr "TypeError")) /\
  new_transformation [ACall "==" [ARef "x"; AString "not known"]] [] = Raise (PyErr "SyntaxError").
Proof. split; [|vm_compute; reflexivity]. eexists. split; [vm_compute; reflexivity|]. split; [reflexivity|]. intros V lit numpy n col. vm_compute. reflexivity. Qed.
(** and they are replaced as fields are *)
Theorem C96_replaced_refuted : exists a subs, plain a /\ ~ In "x" (variables a) /\ map fst subs = ["x"] /\ replace subs (to_json a) <> to_json a.
Proof.
  exists (ACall "==" [ARef "y"; AString "x"]), [("x", VInt 5)]. repeat split; [cbn; intuition discriminate|]. vm_compute. discriminate.
Qed.
(** a null in an expression is an error of the constructor *)
Theorem C96_null_refuted : forall x, new_transformation [ACall "==" [ARef x; ANull]] [] = Raise (PyErr "TypeError").
Proof. reflexivity. Qed.
(** fields called as the modules the lambdas need hide them *)
Theorem C96_hidden_refuted : exists t, new_transformation [ACall "+" [ARef "numpy"; AInt 1]] [] = Ok t /\ t_fields t = ["numpy"] /\
  forall V lit numpy n col, transform_table V lit numpy t n [col] None = Raise (PyErr "AttributeError").
Proof. eexists. split; [vm_compute; reflexivity|]. split; [reflexivity|]. intros V lit numpy n col. vm_compute. reflexivity. Qed.
(** only constants: the table shrinks to one row *)
Theorem C96_one_row_refuted : exists t, new_transformation [AInt 1; AInt 2] [("u", AInt 3)] = Ok t /\
  forall V lit numpy n, transform_table V lit numpy t n [] (Some []) = Ok [[lit (AInt 1)]; [lit (AInt 2)]; [lit (AInt 3)]].
Proof. eexists. split; [vm_compute; reflexivity|]. intros V lit numpy n. vm_compute. reflexivity. Qed.
(** numpy.remainder is Python's remainder, with the sign of the divisor; the "%%" of PFA has the sign of the dividend *)
Definition two (f : num -> num -> res num) (l : list (res num)) : res num := match l with [x; y] => a <- x ;; b <- y ;; f a b | _ => Raise (PyErr "TypeError") end.
Theorem C96_remainder_refuted : forall fn numpy, (forall l, fn "%%" l = two (lib_remainder TLong) l) -> (forall l, numpy "numpy.remainder" l = two py_mod l) ->
  ~ agree (res num) fn numpy /\
  exists t, new_transformation [ACall "%%" [ARef "x"; AInt 3]] [] = Ok t /\
    transform_table (res num) (fun a => match a with AInt z => Ok (NI z) | _ => Ok (NI 0) end) numpy t 1 [[Ok (NI (-7))]] None = Ok [[Ok (NI 2)]] /\
    meaning (res num) (fun j => match j with VInt z => Ok (NI z) | _ => Ok (NI 0) end) fn (fun _ => Some (Ok (NI (-7)))) (to_json (ACall "%%" [ARef "x"; AInt 3])) = Some (Ok (NI (-1))).
Proof.
  intros fn numpy Hf Hn. split.
  - intros [A _]. specialize (A "%%" "numpy.remainder" [Ok (NI (-7)); Ok (NI 3)]). rewrite Hf, Hn in A. assert (I : In ("%%", "numpy.remainder") counterparts) by (cbn; tauto). specialize (A I). vm_compute in A. discriminate A.
  - eexists. split; [vm_compute; reflexivity|]. split.
    + cbv -[py_mod two]. rewrite Hn. vm_compute. reflexivity.
    + cbn [to_json map meaning]. rewrite Hf. vm_compute. reflexivity.
Qed.

(** ** examples *)
Definition zfn (f : string) (l : list Z) : Z := if String.eqb f "+" then fold_right Z.add 0%Z l else if String.eqb f "*" then fold_right Z.mul 1%Z l else 0%Z.
Definition znumpy (f : string) (l : list Z) : Z := if String.eqb f "numpy.add" then fold_right Z.add 0%Z l else if String.eqb f "numpy.multiply" then fold_right Z.mul 1%Z l else 0%Z.
Definition zlit (j : val) : Z := match j with VInt z => z | _ => 0%Z end.
Example C96_agree_example : agree Z zfn znumpy.
Proof.
  split; [intros n f vs H|intros n f H]; cbn in H; repeat (destruct H as [H|H]; [injection H as <- <-; reflexivity|]); destruct H.
Qed.
Definition double_x := ACall "*" [ARef "x"; AInt 2].
Definition x_plus_y := ACall "+" [ARef "x"; ARef "y"].
Example C96_table_example : exists t, new_transformation [x_plus_y] [("b", ARef "y"); ("a", double_x)] = Ok t /\ t_order t = ["_0"; "a"; "b"] /\ t_fields t = ["x"; "y"] /\
  transform_table Z (fun a => zlit (to_json a)) znumpy t 3 [[10; 20; 30]; [0; 0; 0]; [1; 2; 3]]%Z (Some ["y"; "z"; "x"]) = Ok [[11; 22; 33]; [2; 4; 6]; [10; 20; 30]]%Z /\
  new_array t (VStr "t") [("x", AOther (VDict [("attr", VStr "input")]))] [("y", AInt 7)] =
    Ok (VDict [("type", VStr "t"); ("new", VArr [VDict [("+", VArr [VDict [("attr", VStr "input")]; VInt 7])]; VDict [("*", VArr [VDict [("attr", VStr "input")]; VInt 2])]; VInt 7])]).
Proof. eexists. split; [vm_compute; reflexivity|]. repeat split; vm_compute; reflexivity. Qed.
Example C96_replace_example : meaning Z zlit zfn (fun s => if String.eqb s "x" then Some 5%Z else Some 100%Z) (replace [("x", to_json x_plus_y); ("y", VInt 1)] (to_json (ACall "*" [ARef "x"; ARef "y"]))) = Some 105%Z.
Proof. vm_compute. reflexivity. Qed.
Example C96_scores_example : exists t, new_transformation [x_plus_y] [] = Ok t /\ exists js, new_array t (VStr "t") [("x", AInt 10); ("y", AInt 1)] [("x", AInt 99)] = Ok (VDict [("type", VStr "t"); ("new", VArr js)]) /\
  map (meaning Z zlit zfn (fun _ => None)) js = [Some 11%Z].
Proof. eexists. split; [vm_compute; reflexivity|]. eexists. split; vm_compute; reflexivity. Qed.
Example C96_constants_example : exists t, new_transformation [ARef "x"; AInt 1] [] = Ok t /\
  transform_table Z (fun a => zlit (to_json a)) znumpy t 2 [[1; 2]]%Z None = Raise (PyErr "ValueError") /\ transform_dict Z (fun a => zlit (to_json a)) znumpy t 2 [("x", [1; 2]%Z)] None = Ok [("_0", Column [1; 2]%Z); ("_1", Scalar 1%Z)].
Proof. eexists. split; [vm_compute; reflexivity|]. split; vm_compute; reflexivity. Qed.

Print Assumptions C96_order. Print Assumptions C96_accepted. Print Assumptions C96_fields. Print Assumptions C96_replace. Print Assumptions C96_unchanged. Print Assumptions C96_table.
Print Assumptions C96_permuted. Print Assumptions C96_dict. Print Assumptions C96_constants. Print Assumptions C96_scores. Print Assumptions C96_named. Print Assumptions C96_texts_refuted.
Print Assumptions C96_replaced_refuted. Print Assumptions C96_null_refuted. Print Assumptions C96_hidden_refuted. Print Assumptions C96_one_row_refuted. Print Assumptions C96_remainder_refuted.
