(** Every well-formed tree reads back from what the writer makes of it (C45). *)
From Verif Require Import Base PyNum ScopeModel ReadModel ReadSpec ReadSpec2 ReadProofs ReadProofs2.
From Coq Require Import Ascii.
Open Scope string_scope.
Open Scope list_scope.
Open Scope Z_scope.

(** ** Names *)
Lemma alpha_iff c : alpha c = true <-> letter c.
Proof.
  unfold alpha, letter, between. cbv zeta. rewrite orb_true_iff, !andb_true_iff, !Nat.leb_le. tauto.
Qed.
Lemma word_iff c : word c = true <-> letter c \/ underscore c \/ digit c.
Proof.
  unfold word, underscore, digit, between. cbv zeta. rewrite !orb_true_iff, !andb_true_iff, !Nat.leb_le, Nat.eqb_eq, alpha_iff. tauto.
Qed.
Lemma first_iff c : first_char c = true <-> letter c \/ underscore c.
Proof. unfold first_char, underscore. rewrite orb_true_iff, Nat.eqb_eq, alpha_iff. tauto. Qed.
Lemma newline_iff c : newline c = true <-> nat_of_ascii c = 10%nat.
Proof. unfold newline. apply Nat.eqb_eq. Qed.
Lemma word_newline c : nat_of_ascii c = 10%nat -> word c = false.
Proof. intros H. unfold word, alpha. cbv zeta. rewrite H. reflexivity. Qed.
Lemma words_iff s : words s = true <-> tail s.
Proof.
  induction s as [|c s IH]; cbn [words]; [split; [constructor|reflexivity]|]. destruct (word c) eqn:W.
  - rewrite IH. split; intros H; [constructor; auto; now apply word_iff|]. inversion H; subst; [constructor|auto].
  - rewrite andb_true_iff, newline_iff. split.
    + intros [N S]. destruct s; [now constructor|discriminate].
    + intros H. inversion H; subst; auto. exfalso. match goal with X : _ \/ _ |- _ => apply word_iff in X end. congruence.
Qed.
Lemma symbol_iff s : valid_symbol s = true <-> symbol s.
Proof.
  unfold valid_symbol. destruct s as [|c s]; [split; [discriminate|inversion 1]|]. rewrite andb_true_iff, first_iff, words_iff.
  split; [intros []; now constructor|inversion 1; auto].
Qed.
Lemma dot_iff c : Ascii.eqb c "." = true <-> nat_of_ascii c = 46%nat.
Proof.
  rewrite Ascii.eqb_eq. split; [intros ->; reflexivity|]. intros H. rewrite <- (ascii_nat_embedding c), H. reflexivity.
Qed.
Lemma word_dot c : nat_of_ascii c = 46%nat -> word c = false.
Proof. intros H. unfold word, alpha. cbv zeta. rewrite H. reflexivity. Qed.
Lemma dotted_iff : forall n s, (String.length s <= n)%nat -> dotted s = true <-> dotted_tail s.
Proof.
  induction n as [|n IH]; intros s L; [destruct s; [split; [constructor|reflexivity]|cbn in L; lia]|].
  destruct s as [|c s]; [split; [constructor|reflexivity]|]. cbn [String.length] in L. cbn [dotted]. destruct (word c) eqn:W.
  - rewrite IH by lia. split; intros H; [constructor; auto; now apply word_iff|].
    inversion H; subst; [constructor|auto|]. rewrite word_dot in W by auto. discriminate.
  - destruct (Ascii.eqb c ".") eqn:D.
    + apply dot_iff in D. destruct s as [|d s].
      { split; [discriminate|]. inversion 1; subst; [congruence|]. exfalso. match goal with X : _ \/ _ |- _ => apply word_iff in X end. congruence. }
      cbn [String.length] in L. rewrite andb_true_iff, alpha_iff, IH by lia. split; [intros []; now constructor|].
      inversion 1; subst; auto. exfalso. match goal with X : _ \/ _ |- _ => apply word_iff in X end. congruence.
    + rewrite andb_true_iff, newline_iff. split.
      * intros [N S]. destruct s; [now constructor|discriminate].
      * intros H. inversion H; subst; auto; exfalso; [match goal with X : _ \/ _ |- _ => apply word_iff in X end; congruence|]. match goal with X : _ = 46%nat |- _ => apply dot_iff in X end. congruence.
Qed.
Lemma function_iff s : valid_function s = true <-> function_name s.
Proof.
  unfold valid_function. destruct s as [|c s]; [split; [discriminate|inversion 1]|].
  rewrite andb_true_iff, first_iff, (dotted_iff _ s (le_n _)). split; [intros []; now constructor|inversion 1; auto].
Qed.
Lemma first_mark c : first_char c = true -> c <> "@"%char.
Proof. intros H ->. discriminate. Qed.
Lemma symbol_mark s : symbol s -> s <> "@".
Proof. intros H ->. apply symbol_iff in H. discriminate. Qed.
Lemma function_mark s : function_name s -> s <> "@".
Proof. intros H ->. apply function_iff in H. discriminate. Qed.
Lemma words_split s : words s = true -> split_dots s = (s, []).
Proof.
  induction s as [|c s IH]; [reflexivity|]. cbn [words split_dots]. destruct (word c) eqn:W.
  - intros H. rewrite IH by auto. destruct (Ascii.eqb c ".") eqn:D; [|reflexivity]. apply dot_iff in D. rewrite word_dot in W by auto. discriminate.
  - intros H. apply andb_true_iff in H as [N S]. destruct s; [|discriminate]. cbn [split_dots].
    destruct (Ascii.eqb c ".") eqn:D; [|reflexivity]. apply dot_iff in D. apply newline_iff in N. congruence.
Qed.
Lemma symbol_split s : valid_symbol s = true -> split_dots s = (s, []).
Proof.
  destruct s as [|c s]; [discriminate|]. cbn [valid_symbol split_dots]. intros H. apply andb_true_iff in H as [F W].
  rewrite words_split by auto. destruct (Ascii.eqb c ".") eqn:D; [|reflexivity]. apply Ascii.eqb_eq in D as ->. discriminate.
Qed.

(** ** JSON without marks *)
Lemma clean_strip v : clean v -> strip v = v.
Proof.
  induction v as [| | | | | |l IH|d IH] using val_ind2; intros C; try reflexivity.
  - rewrite strip_arr. f_equal. rewrite <- (map_id l) at 2. apply map_ext_in. intros a I. apply IH; auto.
    intros d k u O J. eapply C; eauto. eapply occurs_item; eauto.
  - rewrite strip_dict. f_equal. rewrite unmarked_id.
    + rewrite <- (map_id d) at 2. apply map_ext_in. intros [k u] I. cbn [fst snd]. f_equal. eapply IH; eauto.
      intros d' k' u' O J. eapply C; eauto. eapply occurs_entry; eauto.
    + intros k u I. eapply C; eauto. constructor.
Qed.
Lemma strip_clean v : clean (strip v).
Proof.
  induction v as [| | | | | |l IH|d IH] using val_ind2; intros d0 k u O J; try (inversion O; fail).
  - rewrite strip_arr in O. inversion O; subst. match goal with X : In _ (map _ _) |- _ => apply in_map_iff in X as (a & <- & I) end. eapply IH; eauto.
  - rewrite strip_dict in O. inversion O; subst.
    + apply in_map_iff in J as ((k' & u') & Eq & I). injection Eq as -> _. now apply unmarked_in in I as [_ I].
    + match goal with X : In _ (map _ _), Y : occurs _ _ |- _ => apply in_map_iff in X as ((k' & u') & Eq & I) end. injection Eq as <- <-. apply unmarked_in in I as [I _]. eapply IH; eauto.
Qed.

(** ** Induction over trees *)
Fixpoint nsize (a : node) : nat :=
  let sum := fun l => fold_right (fun b n => (nsize b + n)%nat) 0%nat l in
  let sump := fun l => fold_right (fun b n => (nsize (snd b) + n)%nat) 0%nat l in
  let sumo := fun o => match o with Some l => sum l | None => 0%nat end in
  S (match a with
  | ANull | ABool _ | AInt _ | ALong _ | AFloat _ | ADouble _ | AStr _ | ABase64 _ | ALit _ _ | ARef _ | ADoc _
  | AError _ _ | AFcnRef _ => 0
  | ANewObj fs _ | ALet fs | ASet fs | AFcnFill _ fs | APack fs => sump fs
  | ANewArr xs _ | ADo xs | ATry xs _ | ALog xs _ | AFcnDef _ _ xs | ACall _ xs => sum xs
  | AAttrGet e p => nsize e + sum p
  | AAttrTo e p to => nsize e + nsize to + sum p
  | ACellGet _ p | APoolGet _ p => sum p
  | ACellTo _ p to => nsize to + sum p
  | APoolTo _ p to init => nsize to + nsize init + sum p
  | APoolDel _ e | AUpcast e _ => nsize e
  | AIf p yes no => nsize p + sum yes + sumo no
  | ACond ifs no => sum ifs + sumo no
  | AWhile p body | AUntil body p => nsize p + sum body
  | AFor i p s body => nsize p + sump i + sump s + sum body
  | AForeach _ e body _ | AForkey _ _ e body => nsize e + sum body
  | ACast e cases _ => nsize e + fold_right (fun c n => (sum (snd c) + n)%nat) 0%nat cases
  | AIfNotNull fs yes no => sump fs + sum yes + sumo no
  | AUnpack e _ yes no => nsize e + sum yes + sumo no
  | ACallUser e args => nsize e + sum args
  end)%nat.
Lemma sum_in l b : In b l -> (nsize b <= fold_right (fun b n => (nsize b + n)%nat) 0%nat l)%nat.
Proof. induction l as [|a l IH]; intros []; cbn [fold_right]; subst; [lia|]. specialize (IH H). lia. Qed.
Lemma sump_in {A} (l : list (A * node)) b : In b (map snd l) -> (nsize b <= fold_right (fun b n => (nsize (snd b) + n)%nat) 0%nat l)%nat.
Proof. induction l as [|a l IH]; intros []; cbn [fold_right]; subst; [lia|]. specialize (IH H). lia. Qed.
Lemma sumc_in {A} (l : list (A * list node)) b : In b (concat (map snd l)) ->
  (nsize b <= fold_right (fun c n => (fold_right (fun b n => (nsize b + n)%nat) 0%nat (snd c) + n)%nat) 0%nat l)%nat.
Proof.
  induction l as [|[c bs] l IH]; cbn [map concat fold_right snd]; intros I; [destruct I|]. apply in_app_iff in I as [I|I].
  - apply sum_in in I. lia.
  - specialize (IH I). lia.
Qed.
Lemma part_small a b : In b (parts a) -> (nsize b < nsize a)%nat.
Proof.
  destruct a; cbn [parts nsize]; intros I; try (destruct I; fail).
  all: rewrite ?in_app_iff in I; cbn [In] in I; rewrite ?in_app_iff in I; cbn [In] in I; rewrite ?in_app_iff in I.
  all: try match goal with o : option (list node) |- _ => destruct o; cbn [opt_list] in I end.
  all: repeat match goal with H : _ \/ _ |- _ => destruct H as [H|H] end; subst.
  all: try match goal with H : In _ [] |- _ => destruct H | H : False |- _ => destruct H end.
  all: try match goal with
           | H : In _ (map snd _) |- _ => apply sump_in in H
           | H : In _ (concat _) |- _ => apply sumc_in in H
           | H : In _ _ |- _ => apply sum_in in H
           end.
  all: lia.
Qed.
Lemma node_ind2 (P : node -> Prop) : (forall a, (forall b, In b (parts a) -> P b) -> P a) -> forall a, P a.
Proof.
  intros H a. remember (nsize a) as n eqn:N. revert a N. induction n as [n IH] using (well_founded_induction lt_wf). intros a ->.
  apply H. intros b I. eapply IH; [|reflexivity]. now apply part_small.
Qed.

(** ** Well-formed trees read back *)
Lemma any_else_none l : (forall a, In a l -> exists p yes, a = AIf p yes None) -> any_else l = Ok false.
Proof.
  induction l as [|a l IH]; intros H; [reflexivity|]. cbn [any_else]. destruct (H a (or_introl eq_refl)) as (p & y & ->). cbn [else_of].
  apply IH. intros b I. apply H. right; auto.
Qed.
Lemma ifs_expr l : (forall a, In a l -> exists p yes, a = AIf p yes None) -> exprs l.
Proof. intros H a I. destruct (H a I) as (p & y & ->). reflexivity. Qed.
Lemma ifs_ok l : (forall a, In a l -> exists p yes, a = AIf p yes None) -> forallb is_if l = true.
Proof. intros H. apply forallb_forall. intros a I. destruct (H a I) as (p & y & ->). reflexivity. Qed.
Lemma assoc_none k : ~ In k special -> assoc k kinds = None.
Proof.
  intros N. destruct (assoc k kinds) as [kd|] eqn:A; [|reflexivity]. exfalso. apply N. apply assoc_In in A.
  apply (in_map fst) in A. exact A.
Qed.
Lemma special_reserved k : ~ In k special -> existsb (String.eqb k) reserved = false.
Proof.
  intros N. destruct (existsb (String.eqb k) reserved) eqn:X; [|reflexivity]. exfalso. apply N.
  apply existsb_exists in X as (k' & I & Eq). apply String.eqb_eq in Eq as <-.
  assert (S : forallb (fun k => existsb (String.eqb k) special) reserved = true) by (vm_compute; reflexivity).
  rewrite forallb_forall in S. specialize (S k I). apply existsb_exists in S as (k' & J & Eq). apply String.eqb_eq in Eq as <-. exact J.
Qed.
Lemma special_forms k (x : slot) : ~ In k special -> find (fun f => same_keys (fst f) (keys [(k, x)])) forms = None.
Proof.
  intros N. destruct (find _ forms) as [[names b]|] eqn:F; [|reflexivity]. exfalso. apply N. apply find_some in F as [I S].
  cbn [fst] in S. unfold same_keys in S. apply andb_true_iff in S as [L A]. cbn [keys map fst length] in *. apply Nat.eqb_eq in L.
  destruct names as [|k' [|]]; try discriminate L. cbn [forallb existsb] in A. rewrite !andb_true_r, !orb_false_r in A.
  apply String.eqb_eq in A as ->.
  assert (S : forallb (fun f : list string * (fields -> res node) => forallb (fun k => existsb (String.eqb k) special) (fst f)) forms = true) by (vm_compute; reflexivity).
  rewrite forallb_forall in S. specialize (S _ I). cbn [fst forallb] in S. apply andb_true_iff in S as [S _].
  apply existsb_exists in S as (k' & J & Eq). apply String.eqb_eq in Eq as <-. exact J.
Qed.

Section Forth.
  Context (E : outside).
  Hypothesis B64 : base64_inverse E.
  Notation RT := (RT E).
  Notation fld k v x := (ev (fun m => read_field E (read E m) (k, v) = Ok (k, x))).

  Lemma expr_ev a : RT a -> is_expr a = true -> ev (fun m => read_expr (read E m) (write E a) = Ok a).
  Proof using. intros R X. revert R. apply ev_mono. intros m R. unfold read_expr. rewrite R. cbn [rbind]. now rewrite X. Qed.
  Lemma exprs_ev l : (forall a, In a l -> RT a) -> exprs l -> ev (fun m => rmapM (read_expr (read E m)) (map (write E) l) = Ok l).
  Proof using.
    intros R X. assert (F : Forall (fun a => ev (fun m => read_expr (read E m) (write E a) = Ok a)) l).
    { apply Forall_forall. intros a I. apply expr_ev; auto. }
    apply ev_Forall in F. revert F. apply ev_mono. intros m F. now apply rmapM_back.
  Qed.
  Lemma args_ev l : (forall a, In a l -> RT a) -> ev (fun m => rmapM (read E m) (map (write E) l) = Ok l).
  Proof using.
    intros R. assert (F : Forall (fun a => ev (fun m => read E m (write E a) = Ok a)) l) by (apply Forall_forall; exact R).
    apply ev_Forall in F. revert F. apply ev_mono. intros m F. now apply rmapM_back.
  Qed.
  Lemma map_ev (f : nat -> val -> res node) (l : list (string * node)) :
    (forall a, In a (map snd l) -> ev (fun m => f m (write E a) = Ok a)) -> no_mark l ->
    ev (fun m => read_map (f m) (VDict (map (fun p => (fst p, write E (snd p))) l)) = Ok l).
  Proof using.
    intros R N. assert (F : Forall (fun p => ev (fun m => (x <- f m (write E (snd p)) ;; Ok (fst p, x)) = Ok p)) l).
    { apply Forall_forall. intros [k a] I. cbn [fst snd]. generalize (R a (in_map snd _ _ I)). apply ev_mono. intros m ->. reflexivity. }
    apply ev_Forall in F. revert F. apply ev_mono. intros m F. cbn [read_map].
    rewrite unmarked_id. 2: { intros k w I. apply in_map_iff in I as ((k' & a) & Eq & I). injection Eq as -> _. eapply N; eauto. }
    apply rmapM_ok_Forall2. clear R N. induction F as [|[k a] l X F IH]; cbn [map]; constructor; auto.
  Qed.

  Lemma f_expr k a : assoc k kinds = Some KExpr -> RT a -> is_expr a = true -> fld k (write E a) (SNode a).
  Proof using. intros K R X. generalize (expr_ev a R X). apply ev_mono. intros m Y. unfold read_field. rewrite K. cbn [read_kind]. now rewrite Y. Qed.
  Lemma f_arg k a : assoc k kinds = Some KArg -> RT a -> fld k (write E a) (SNode a).
  Proof using. intros K. apply ev_mono. intros m Y. unfold read_field. rewrite K. cbn [read_kind]. now rewrite Y. Qed.
  Lemma f_list k kd l : assoc k kinds = Some kd -> In kd [KBody; KExprs; KNew] -> (forall a, In a l -> RT a) -> exprs l ->
    fld k (VArr (map (write E) l)) (SList l).
  Proof using.
    intros K I R X. generalize (exprs_ev l R X). apply ev_mono. intros m Y. unfold read_field. rewrite K.
    cbn [In] in I. repeat (destruct I as [<-|I]; [cbn [read_kind read_body read_array]; rewrite Y; reflexivity|]). destruct I.
  Qed.
  Lemma f_cond l : (forall a, In a l -> RT a) -> (forall a, In a l -> exists p yes, a = AIf p yes None) ->
    fld "cond" (VArr (map (write E) l)) (SList l).
  Proof using.
    intros R X. generalize (exprs_ev l R (ifs_expr l X)). apply ev_mono. intros m Y. unfold read_field.
    cbn [assoc kinds String.eqb Ascii.eqb Bool.eqb read_kind read_array]. rewrite Y. cbn [rbind]. rewrite (any_else_none l X). reflexivity.
  Qed.
  Lemma f_map k kd l : assoc k kinds = Some kd -> In kd [KMap; KNew] -> (forall a, In a (map snd l) -> RT a) -> expr_map l ->
    fld k (VDict (map (fun p => (fst p, write E (snd p))) l)) (SMap l).
  Proof using.
    intros K I R [N X]. generalize (map_ev (fun m => read_expr (read E m)) l (fun a J => expr_ev a (R a J) (X a J)) N).
    apply ev_mono. intros m Y. unfold read_field. rewrite K.
    cbn [In] in I. repeat (destruct I as [<-|I]; [cbn [read_kind]; rewrite Y; reflexivity|]). destruct I.
  Qed.
  Lemma f_fill l : (forall a, In a (map snd l) -> RT a) -> no_mark l -> fld "fill" (VDict (map (fun p => (fst p, write E (snd p))) l)) (SMap l).
  Proof using.
    intros R N. generalize (map_ev (fun m => read E m) l R N). apply ev_mono. intros m Y. unfold read_field.
    cbn [assoc kinds String.eqb Ascii.eqb Bool.eqb read_kind]. rewrite Y. reflexivity.
  Qed.
  Lemma f_text k s : assoc k kinds = Some KString -> fld k (VStr s) (SText s).
  Proof using. intros K. apply ev_all. intros m. unfold read_field. rewrite K. reflexivity. Qed.
  Lemma f_json k v : assoc k kinds = Some KJson -> clean v -> fld k v (SVal v).
  Proof using. intros K C. apply ev_all. intros m. unfold read_field. rewrite K. cbn [read_kind]. now rewrite clean_strip. Qed.
  Lemma f_bool k b : assoc k kinds = Some KBool -> fld k (VBool b) (SVal (VBool b)).
  Proof using. intros K. apply ev_all. intros m. unfold read_field. rewrite K. reflexivity. Qed.
  Lemma f_float k x : assoc k kinds = Some KFloat -> fld k (VFlt x) (SVal (VFlt x)).
  Proof using. intros K. apply ev_all. intros m. unfold read_field. rewrite K. reflexivity. Qed.
  Lemma f_base64 s : fld "base64" (VStr (b64_enc E s)) (SText s).
  Proof using B64.
    apply ev_all. intros m. unfold read_field. cbn [assoc kinds String.eqb Ascii.eqb Bool.eqb read_kind read_string rbind]. now rewrite B64.
  Qed.
  Lemma read_long_ok v : long_or_bool v -> read_long v = Ok v.
  Proof using. intros [[b ->]|(z & -> & A & B)]; [reflexivity|]. unfold read_long. apply Z.leb_le in A, B. now rewrite A, B. Qed.
  Lemma read_int_ok v : int_or_bool v -> read_int v = Ok v.
  Proof using. intros [[b ->]|(z & -> & A & B)]; [reflexivity|]. unfold read_int. apply Z.leb_le in A, B. now rewrite A, B. Qed.
  Lemma f_long v : long_or_bool v -> fld "long" v (SVal v).
  Proof using.
    intros L. apply ev_all. intros m. unfold read_field. cbn [assoc kinds String.eqb Ascii.eqb Bool.eqb read_kind]. now rewrite read_long_ok.
  Qed.
  Lemma code_ok c : int_in (-2147483648) (-1) c -> int_or_bool c /\ negative c = true.
  Proof using. intros (z & -> & A & B). split; [right; exists z; split; [auto|lia]|]. cbn [negative]. apply Z.ltb_lt. lia. Qed.
  Lemma f_code v : int_in (-2147483648) (-1) v -> fld "code" v (SVal v).
  Proof using.
    intros L. apply code_ok in L as [L _]. apply ev_all. intros m. unfold read_field. cbn [assoc kinds String.eqb Ascii.eqb Bool.eqb read_kind].
    now rewrite read_int_ok.
  Qed.
  Lemma f_filter l : (forall v, In v l -> (exists s, v = VStr s) \/ (exists z, v = VInt z) \/ is_bool v) -> fld "filter" (VArr l) (SFilter l).
  Proof using.
    intros H. apply ev_all. intros m. unfold read_field. cbn [assoc kinds String.eqb Ascii.eqb Bool.eqb read_kind read_array].
    assert (X : rmapM read_string_or_int (map (fun v => v) l) = Ok l).
    { apply rmapM_back. apply Forall_forall. intros v I. destruct (H v I) as [[s ->]|[[z ->]|[b ->]]]; reflexivity. }
    rewrite map_id in X. now rewrite X.
  Qed.
  Lemma f_format l : no_mark l -> fld "format" (VArr (map (fun p => VDict [(fst p, VStr (snd p))]) l)) (SPairs l).
  Proof using.
    intros N. apply ev_all. intros m. unfold read_field. cbn [assoc kinds String.eqb Ascii.eqb Bool.eqb read_kind read_array].
    rewrite rmapM_back; [reflexivity|]. apply Forall_forall. intros [k s] I. cbn [fst snd]. unfold read_single. cbn [read_map].
    rewrite unmarked_id; [reflexivity|]. intros k2 v2 [Eq|[]]. injection Eq as <- _. eapply N; eauto.
  Qed.
  Lemma f_params l : (forall x t, In (x, t) l -> symbol x /\ clean t) -> fld "params" (VArr (map (fun p => VDict [p]) l)) (SParams l).
  Proof using.
    intros N. apply ev_all. intros m. unfold read_field. cbn [assoc kinds String.eqb Ascii.eqb Bool.eqb read_kind read_array].
    rewrite rmapM_back; [reflexivity|]. apply Forall_forall. intros [x t] I. destruct (N x t I) as [Sx Ct]. cbn [read_param].
    rewrite unmarked_id; [|intros k2 v2 [Eq|[]]; injection Eq as <- _; now apply symbol_mark].
    apply symbol_iff in Sx. now rewrite Sx, clean_strip.
  Qed.
  Lemma f_pack l : (forall a, In a (map snd l) -> RT a) -> expr_map l ->
    fld "pack" (VArr (map (fun p => VDict [(fst p, write E (snd p))]) l)) (SPack (Some l)).
  Proof using.
    intros R [N X].
    assert (F : Forall (fun c => ev (fun m => read_single (read_expr (read E m)) (VDict [(fst c, write E (snd c))]) = Ok c)) l).
    { apply Forall_forall. intros [k a] I. cbn [fst snd]. pose proof (in_map snd _ _ I) as J. cbn [snd] in J.
      generalize (expr_ev a (R a J) (X a J)). apply ev_mono. intros m Y. unfold read_single. cbn [read_map].
      rewrite unmarked_id; [|intros k2 v2 [Eq|[]]; injection Eq as <- _; eapply N; eauto]. cbn [rmapM fst snd]. rewrite Y. reflexivity. }
    apply ev_Forall in F. revert F. apply ev_mono. intros m F. unfold read_field. cbn [assoc kinds String.eqb Ascii.eqb Bool.eqb read_kind].
    rewrite (rmapM_back _ _ _ F). reflexivity.
  Qed.
  Lemma f_cases l : (forall a, In a (concat (map snd l)) -> RT a) -> (forall t x b, In (t, x, b) l -> clean t /\ symbol x /\ is_body b) ->
    fld "cases" (VArr (map (fun c => VDict [("as", fst (fst c)); ("named", VStr (snd (fst c))); ("do", VArr (map (write E) (snd c)))]) l)) (SCases l).
  Proof using.
    intros R H.
    assert (F : Forall (fun c => ev (fun m => read_case (read E m) (VDict [("as", fst (fst c)); ("named", VStr (snd (fst c))); ("do", VArr (map (write E) (snd c)))]) = Ok c)) l).
    { apply Forall_forall. intros [[t x] b] I. cbn [fst snd]. destruct (H t x b I) as (Ct & Sx & Ne & X).
      assert (Rb : forall a, In a b -> RT a). { intros a J. apply R. apply in_concat. exists b. split; auto. apply (in_map snd _ _ I). }
      generalize (exprs_ev b Rb X). apply ev_mono. intros m Y. apply symbol_iff in Sx. unfold read_case.
      change (unmarked ?l) with l. cbn [rmapM]. unfold case_field at 1. cbn [String.eqb Ascii.eqb Bool.eqb rbind].
      unfold case_field at 1. cbn [String.eqb Ascii.eqb Bool.eqb rbind read_string].
      unfold case_field at 1. cbn [String.eqb Ascii.eqb Bool.eqb rbind read_string read_body].
      rewrite Y. cbn [rbind]. cbn [assoc String.eqb Ascii.eqb Bool.eqb]. rewrite Sx. cbn [rbind]. unfold make_case. rewrite clean_strip, Sx by auto.
      destruct b; [congruence|reflexivity]. }
    apply ev_Forall in F. revert F. apply ev_mono. intros m F. unfold read_field. cbn [assoc kinds String.eqb Ascii.eqb Bool.eqb read_kind read_array].
    rewrite (rmapM_back _ _ _ F). reflexivity.
  Qed.

  Lemma dict_RT a d fs : write E a = VDict d -> no_mark d ->
    Forall2 (fun p q => ev (fun m => read_field E (read E m) p = Ok q)) d fs ->
    check_name valid_symbol "foreach" fs = Ok tt -> check_name valid_symbol "forkey" fs = Ok tt ->
    check_name valid_symbol "forval" fs = Ok tt -> check_name valid_function "fcn" fs = Ok tt ->
    make fs = Ok a -> RT a.
  Proof using.
    intros W N F C1 C2 C3 C4 M. unfold ReadProofs.RT. rewrite W. apply ev_S.
    assert (Ev : ev (fun m => rmapM (read_field E (read E m)) d = Ok fs)).
    { clear - F. induction F as [|p q d fs Ep F IH]; [apply ev_all; reflexivity|].
      pose proof (ev_and _ _ Ep IH) as X. revert X. apply ev_mono. intros m [X Y]. cbn [rmapM]. rewrite X. cbn [rbind]. rewrite Y. reflexivity. }
    revert Ev. apply ev_mono. intros m R. cbn [read]. eapply read_dict_of; eauto.
  Qed.

  Ltac fld1 :=
    first [ apply f_expr; [reflexivity| |]
          | apply f_arg; [reflexivity|]
          | eapply f_list; [reflexivity|cbn [In]; tauto| |]
          | apply f_cond
          | eapply f_map; [reflexivity|cbn [In]; tauto| |]
          | apply f_fill | apply f_text; reflexivity | apply f_json; [reflexivity|] | apply f_bool; reflexivity
          | apply f_float; reflexivity | apply f_base64 | apply f_long | apply f_code | apply f_filter | apply f_format | apply f_params
          | apply f_pack | apply f_cases ].
  Ltac marks := let J := fresh in intros ? ? J; cbn [In] in J;
    repeat match type of J with _ \/ _ => destruct J as [J|J]; [injection J as <- _; discriminate|] end; destruct J.
  Ltac below IH := first [ apply IH; cbn [parts opt_list app In]; tauto
    | let b := fresh in let J := fresh in intros b J; apply IH; cbn [parts opt_list app In]; rewrite ?in_app_iff; cbn [In]; rewrite ?in_app_iff; tauto ].
  Ltac side IH := first [ solve [auto] | solve [below IH] | solve [eauto] | idtac ].
  Ltac dict IH := eapply dict_RT;
    [ cbn [write dict_if app]; reflexivity | marks | repeat (apply Forall2_cons; [fld1|]); [..|apply Forall2_nil]; side IH | .. ].
  Ltac checks := cbn [check_name assoc String.eqb Ascii.eqb Bool.eqb];
    repeat match goal with X : symbol _ |- _ => apply symbol_iff in X; rewrite X | X : function_name _ |- _ => apply function_iff in X; rewrite X end;
    try reflexivity.

  Theorem well_formed_RT a : well_formed a -> plain_ints a -> RT a.
  Proof using B64.
    induction a as [a IH0] using node_ind2. intros W T.
    assert (IH : forall b, In b (parts a) -> RT b).
    { intros b I. apply IH0; auto; [|now apply (tame_part a b T)]. intros c Wc. apply W. eapply within_part; eauto. }
    clear IH0. pose proof (W a (within_here a)) as Sh.
    destruct a; cbn [shape] in Sh; unfold is_body in Sh; try (match goal with |- RT (AError _ ?c) => destruct c end);
      try (match goal with |- RT (AIf _ _ ?c) => destruct c | |- RT (ACond _ ?c) => destruct c | |- RT (AIfNotNull _ _ ?c) => destruct c
           | |- RT (AUnpack _ _ _ ?c) => destruct c | |- RT (ATry _ ?c) => destruct c | |- RT (ALog _ ?c) => destruct c
           | |- RT (ACellGet _ ?c) => destruct c | |- RT (ACellTo _ ?c _) => destruct c end);
      repeat match goal with H : _ /\ _ |- _ => destruct H end;
      repeat match goal with H : forall l, Some ?x = Some l -> _ |- _ => specialize (H x eq_refl) end;
      repeat match goal with H : _ /\ _ |- _ => destruct H end;
      try (apply ev_S, ev_all; reflexivity).
    all: try solve [dict IH; checks;
      first [ rewrite make_cond | rewrite make_cond_else | rewrite make_error | idtac ];
      try rewrite (proj2 (code_ok _ Sh)); try (rewrite ifs_ok by assumption);
      repeat match goal with NE : ?l <> [] |- _ => destruct l; [exfalso; now apply NE|clear NE] end; reflexivity].
    - destruct (T v) as (z & -> & B); [constructor|]. apply ev_S, ev_all. intros m. now apply int32_reads.
    - apply ev_S, ev_all. intros m. apply symbol_iff in Sh. cbn [write read]. now rewrite (symbol_split _ Sh), Sh.
    - eapply dict_RT with (fs := [(f, SCall args)]).
      + reflexivity.
      + intros k v [Eq|[]]. injection Eq as <- _. auto.
      + constructor; [|constructor]. generalize (args_ev args IH). apply ev_mono. intros m Y. unfold read_field.
        rewrite (assoc_none f) by auto. cbn beta iota. match type of Y with ?t = _ => change (rbind t (fun args => Ok (f, SCall args)) = Ok (f, SCall args)) end. rewrite Y. reflexivity.
      + unfold check_name. cbn [assoc]. destruct (String.eqb "foreach" f); reflexivity.
      + unfold check_name. cbn [assoc]. destruct (String.eqb "forkey" f); reflexivity.
      + unfold check_name. cbn [assoc]. destruct (String.eqb "forval" f); reflexivity.
      + unfold check_name. cbn [assoc]. destruct (String.eqb "fcn" f); reflexivity.
      + rewrite make_call by now apply special_forms. rewrite special_reserved by auto. unfold gcall, get. cbn [assoc].
        rewrite String.eqb_refl. reflexivity.
  Qed.
End Forth.
