(** Which exceptions the reader raises (C46). *)
From Verif Require Import Base PyNum ScopeModel ReadModel ReadSpec ReadProofs ReadProofs2 ReadProofs3.
From Coq Require Import Ascii.
Open Scope string_scope.
Open Scope list_scope.
Open Scope Z_scope.

Lemma rmapM_raise {A B} (f : A -> res B) l e : rmapM f l = Raise e -> exists a, In a l /\ f a = Raise e.
Proof.
  induction l as [|a l IH]; [discriminate|]. cbn [rmapM]. intros H. destruct (f a) as [b|] eqn:F; cbn [rbind] in H.
  - destruct (rmapM f l); cbn [rbind] in H; [discriminate|]. destruct (IH H) as (x & I & X). exists x. simpl; auto.
  - injection H as ->. exists a. simpl; auto.
Qed.
Lemma occurs_trans u v w : occurs u v -> occurs v w -> occurs u w.
Proof. intros A B. induction B; auto; [eapply occurs_item|eapply occurs_entry]; eauto. Qed.
Definition sub (u v : val) : Prop := occurs u v /\ (size u < size v)%nat.
Lemma sub_trans u v w : sub u v -> sub v w -> sub u w.
Proof. intros [A B] [C D]. split; [eapply occurs_trans; eauto|lia]. Qed.
Lemma sub_item l v : In v l -> sub v (VArr l).
Proof. intros I. split; [econstructor; [eauto|constructor]|now apply size_item]. Qed.
Lemma sub_entry d k v : In (k, v) d -> sub v (VDict d).
Proof. intros I. split; [econstructor; [eauto|constructor]|eapply size_entry; eauto]. Qed.
Lemma sub_field d k v : In (k, v) (unmarked d) -> sub v (VDict d).
Proof. intros I. apply unmarked_in in I as [I _]. eapply sub_entry; eauto. Qed.

Definition syn : exn := PyErr "PFASyntaxException".
Definition bad (E : outside) (v : val) (e : exn) : Prop := e = syn \/ exists d, occurs (VDict d) v /\ culprit E d.
Lemma bad_up E u v e : occurs u v -> bad E u e -> bad E v e.
Proof. intros O [->|(d & A & B)]; [left; auto|]. right. exists d. split; auto. eapply occurs_trans; eauto. Qed.
Lemma syntax_bad {A} E v e : @syntax A = Raise e -> bad E v e.
Proof. intros H. injection H as <-. now left. Qed.

(** the kind of what a field holds *)
Definition typed (kd : kind) (x : slot) : Prop :=
  match kd, x with
  | KInt, SVal _ | KLong, SVal _ | KJson, SVal _ | KFloat, SVal (VFlt _) | KBool, SVal (VBool _)
  | KString, SText _ | KBase64, SText _ | KMap, SMap _ | KArgMap, SMap _ | KBody, SList _ | KExprs, SList _ | KCond, SList _
  | KExpr, SNode _ | KArg, SNode _ | KCases, SCases _ | KNew, SMap _ | KNew, SList _ | KParams, SParams _ | KFilter, SFilter _
  | KPairs, SPairs _ | KPack, SPack _ => True
  | _, _ => False
  end.
Ltac binds H :=
  repeat match type of H with
         | rbind ?m _ = Ok _ => let G := fresh "G" in destruct m eqn:G; cbn [rbind] in H; [|discriminate H]
         end.
Lemma kind_typed E reader kd v x : read_kind E reader kd v = Ok x -> typed kd x.
Proof.
  intros H. destruct kd; cbn [read_kind] in H;
    try (binds H; injection H as <-; exact Logic.I).
  - binds H. injection H as <-. unfold read_float in G. destruct v; try discriminate; binds G; injection G as <-; exact Logic.I.
  - binds H. destruct a0; [discriminate|]. injection H as <-. exact Logic.I.
  - binds H. injection H as <-. destruct v; try discriminate. injection G as <-. exact Logic.I.
  - destruct v; try discriminate; binds H; injection H as <-; exact Logic.I.
  - destruct v; binds H; injection H as <-; exact Logic.I.
Qed.

(** the keys of a form *)
Fixpoint distinct (l : list string) : bool :=
  match l with [] => true | k :: l' => (negb (existsb (String.eqb k) l') && distinct l')%bool end.
Lemma distinct_NoDup l : distinct l = true -> NoDup l.
Proof.
  induction l as [|k l IH]; [constructor|]. cbn [distinct]. intros H. apply andb_prop in H as [A B]. constructor; auto.
  intros I. apply Bool.negb_true_iff in A. apply Bool.not_true_iff_false in A. apply A. apply existsb_exists. exists k. split; auto. apply String.eqb_refl.
Qed.
Lemma forms_distinct : forallb (fun f => distinct (fst f)) forms = true.
Proof. reflexivity. Qed.
Lemma same_keys_sound names ks : same_keys names ks = true -> forall k, In k names -> In k ks.
Proof.
  unfold same_keys. intros H k I. apply andb_prop in H as [_ H]. rewrite forallb_forall in H. specialize (H k I).
  apply existsb_exists in H as (k' & J & Eq). apply String.eqb_eq in Eq as ->. exact J.
Qed.
Lemma same_keys_complete names ks : same_keys names ks = true -> distinct names = true -> forall k, In k ks -> In k names.
Proof.
  intros H D k I. assert (A := same_keys_sound _ _ H). unfold same_keys in H. apply andb_prop in H as [L _]. apply Nat.eqb_eq in L.
  assert (incl ks names) as X; [|exact (X k I)]. apply NoDup_length_incl; [apply distinct_NoDup; auto|lia|exact A].
Qed.
Lemma in_keys_assoc {A} k (fs : list (string * A)) : In k (keys fs) -> exists x, assoc k fs = Some x.
Proof.
  induction fs as [|[k' x] fs IH]; [intros []|]. cbn [keys map fst In assoc]. destruct (String.eqb_spec k k') as [->|N]; [eauto|].
  intros [H|H]; [congruence|auto].
Qed.

Lemma keys_read E reader l fs : rmapM (read_field E reader) l = Ok fs -> keys fs = keys l.
Proof.
  intros H. apply rmapM_ok_Forall2 in H. unfold keys. induction H as [|[k v] [k' x] l l' H _ IH]; [reflexivity|].
  cbn [map fst]. pose proof (read_field_key _ _ _ _ _ _ H) as ->. now rewrite IH.
Qed.

Section Fields.
  Context (E : outside) (reader : val -> res node) (d : list (string * val)) (fs : list (string * slot)).
  Hypothesis R : rmapM (read_field E reader) (unmarked d) = Ok fs.
  Lemma field_typed k x kd : assoc k fs = Some x -> assoc k kinds = Some kd ->
    typed kd x /\ exists v, In (k, v) d /\ k <> "@" /\ read_kind E reader kd v = Ok x.
  Proof using R.
    intros A K. apply assoc_In in A. destruct (rmapM_in _ _ _ _ R A) as ([k' v] & J & X). pose proof (read_field_key _ _ _ _ _ _ X) as <-.
    apply unmarked_in in J as [J N]. unfold read_field in X. rewrite K in X. destruct (read_kind E reader kd v) as [y|] eqn:Y; cbn [rbind] in X; [|discriminate].
    injection X as ->. split; [eapply kind_typed; eauto|]. eauto.
  Qed.
  Lemma get_ok {A} (pick : slot -> option A) k kd : In k (keys fs) -> assoc k kinds = Some kd ->
    (forall x, typed kd x -> pick x <> None) -> exists a, get pick k fs = Ok a.
  Proof using R.
    intros I K P. destruct (in_keys_assoc _ _ I) as [x Ax]. destruct (field_typed _ _ _ Ax K) as [T _]. specialize (P x T).
    unfold get. rewrite Ax. destruct (pick x); [eauto|congruence].
  Qed.
  Lemma keys_fields k : In k (keys fs) <-> In k (keys (unmarked d)).
  Proof using R.
    now rewrite (keys_read _ _ _ _ R).
  Qed.

  (** with all its fields there, a node is made or the syntax is wrong *)
  Ltac reads M :=
    repeat (match goal with
            | |- context [rbind (?g ?k fs) _] =>
                let kd := eval vm_compute in (match assoc k kinds with Some kd => kd | None => KJson end) in
                let a := fresh "a" in let G := fresh "G" in
                assert (G : exists a, g k fs = Ok a);
                [ unfold gval, gtext, glist, gmap, gnode, gflt, gbool, gcases, gparams, gfilter, gpairs, gpack;
                  apply (get_ok _ k kd); [apply (M k); cbn [In]; tauto | reflexivity | let T := fresh "T" in let x := fresh "x" in intros x T; destruct x; cbn [typed] in T; try contradiction; try discriminate; match type of T with match ?v with _ => _ end => destruct v; try contradiction; discriminate end ]
                | destruct G as [a G]; rewrite G; clear G; cbn [rbind] ]
            end).
  Lemma make_err e : make fs = Raise e ->
    e = syn \/ (exists v, In ("del", v) d /\ forall k u, In (k, u) d -> k = "del" \/ k = "@").
  Proof using R.
    unfold make. destruct (find _ forms) as [[names build]|] eqn:F.
    - apply find_some in F as [I S]. cbn [fst] in S. pose proof (same_keys_sound _ _ S) as M. clear S.
      intros H. left. revert H. cbn [forms In] in I.
      repeat (destruct I as [I|I]; [injection I as <- <-; cbn beta; reads M|]); [..|destruct I].
      all: try discriminate.
      all: repeat match goal with |- context [some ?l] => destruct l; cbn [some rbind] end; try discriminate.
      all: try match goal with |- (if ?c then _ else _) = _ -> _ => destruct c; cbn [rbind] end.
      all: try (intros H; injection H as <-; reflexivity); try discriminate.
      + destruct (in_keys_assoc "new" fs) as [x A]; [apply M; cbn [In]; tauto|]. destruct (field_typed _ _ _ A eq_refl) as [T _].
        rewrite A. destruct x; try contradiction; discriminate.
      + destruct a as [[|]|]; try discriminate; intros H; injection H as <-; reflexivity.
    - destruct fs as [|[k x] [|]]; try (intros H; injection H as <-; now left).
      destruct (existsb (String.eqb k) reserved) eqn:Rs; [intros H; injection H as <-; now left|].
      unfold gcall, get. cbn [assoc]. rewrite String.eqb_refl. intros H. right.
      destruct (rmapM_in _ _ _ _ R (or_introl eq_refl)) as ([k' v] & J & X). pose proof (read_field_key _ _ _ _ _ _ X) as <-.
      unfold read_field in X. destruct (assoc k kinds) as [kd|] eqn:K.
      2: { destruct v; try (destruct (reader _); cbn [rbind] in X; [injection X as <-; discriminate|discriminate]).
           destruct (rmapM reader l); cbn [rbind] in X; [injection X as <-; discriminate|discriminate]. }
      assert (k = "del").
      { apply assoc_In in K. revert Rs. cbn [kinds In] in K.
        repeat (destruct K as [K|K]; [injection K as <- _; intros Rs; first [discriminate Rs | reflexivity]|]). destruct K. }
      subst k. apply unmarked_in in J as [J _]. exists v. split; auto. intros k u I.
      destruct (String.eqb_spec k "@") as [->|N]; [auto|]. left.
      assert (In k (keys (unmarked d))) as I2. { apply in_map_iff. exists (k, u). split; auto. apply unmarked_in. auto. }
      rewrite <- (keys_read _ _ _ _ R) in I2. destruct I2 as [<-|[]]. reflexivity.
  Qed.
  Lemma check_err valid k e : assoc k kinds = Some KString -> check_name valid k fs = Raise e ->
    exists s, In (k, VStr s) d /\ valid s = false.
  Proof using R.
    intros K H. unfold check_name in H. destruct (assoc k fs) as [x|] eqn:A; [|discriminate].
    destruct (field_typed _ _ _ A K) as (T & v & I & _ & Rk). destruct x; try contradiction. destruct (valid s) eqn:V; [discriminate|].
    destruct v; try discriminate. injection Rk as ->. eauto.
  Qed.
End Fields.

(** a tree that has an "else" *)
Definition branches (u : val) : Prop := has "if" u \/ has "cond" u \/ has "ifnotnull" u \/ has "unpack" u.
Lemma branches_else E n u a : read E n u = Ok a -> branches u -> else_of a <> None.
Proof.
  intros H B. destruct n as [|n]; [discriminate|]. destruct u as [| | | | | | |d];
    try (exfalso; destruct B as [(? & ? & ? & ?)|[(? & ? & ? & ?)|[(? & ? & ? & ?)|(? & ? & ? & ?)]]]; discriminate).
  cbn [read] in H. unfold read_dict in H.
  destruct (rmapM (read_field E (read E n)) (unmarked d)) as [fs|] eqn:R; cbn [rbind] in H; [|discriminate].
  repeat match type of H with rbind (check_name ?a ?b ?c) _ = _ => destruct (check_name a b c); cbn [rbind] in H; [|discriminate] end.
  assert (K : exists k, In k ["if"; "cond"; "ifnotnull"; "unpack"] /\ In k (keys fs)).
  { destruct B as [(d' & x & Eq & I)|[(d' & x & Eq & I)|[(d' & x & Eq & I)|(d' & x & Eq & I)]]]; injection Eq as <-;
      eexists; (split; [|rewrite (keys_read _ _ _ _ R); apply in_map_iff; eexists; split; [|apply unmarked_in; split; [exact I|discriminate]]; reflexivity]); cbn [In]; tauto. }
  destruct K as (k & Ks & Kf). unfold make in H. destruct (find _ forms) as [[names build]|] eqn:F.
  - apply find_some in F as [I S]. cbn [fst] in S.
    assert (D : distinct names = true). { pose proof forms_distinct as D. rewrite forallb_forall in D. exact (D _ I). }
    pose proof (same_keys_complete _ _ S D k Kf) as Kn. clear D S.
    cbn [forms In] in I.
    repeat (destruct I as [I|I]; [injection I as <- <-; cbn beta in H|]); [..|destruct I].
    all: cbn [In] in Ks, Kn.
    all: try (exfalso; clear -Ks Kn; intuition (subst; discriminate)).
    all: binds H; try match type of H with (if ?c then _ else _) = _ => destruct c; [binds H|discriminate H] end.
    all: injection H as <-; discriminate.
  - destruct fs as [|[k' x] [|]]; try discriminate. destruct Kf as [<-|[]]. cbn [fst] in *.
    cbn [In] in Ks. destruct (existsb (String.eqb k') reserved) eqn:Rs; [discriminate|]. exfalso. revert Rs.
    destruct Ks as [<-|[<-|[<-|[<-|[]]]]]; discriminate.
Qed.

Section Errors.
  Context (E : outside) (reader : val -> res node) (d : list (string * val)).
  Hypothesis RE : forall u e, sub u (VDict d) -> reader u = Raise e -> bad E u e.
  Hypothesis EL : forall u a, reader u = Ok a -> branches u -> else_of a <> None.
  Let top := VDict d.
  Lemma expr_err v e : sub v top -> read_expr reader v = Raise e -> bad E top e.
  Proof using RE.
    intros S H. unfold read_expr in H. destruct (reader v) as [a|] eqn:Rv; cbn [rbind] in H.
    - destruct (is_expr a); [discriminate|]. exact (syntax_bad _ _ _ H).
    - injection H as ->. eapply bad_up; [apply S|]. auto.
  Qed.
  Lemma arg_err v e : sub v top -> reader v = Raise e -> bad E top e.
  Proof using RE. intros S H. eapply bad_up; [apply S|]. auto. Qed.
  Lemma many_err {A} (f : val -> res A) l e : (forall u e, sub u top -> f u = Raise e -> bad E top e) -> (forall u, In u l -> sub u top) ->
    rmapM f l = Raise e -> bad E top e.
  Proof. intros F S H. apply rmapM_raise in H as (u & I & H). eauto. Qed.
  Lemma body_err v e : sub v top -> read_body reader v = Raise e -> bad E top e.
  Proof using RE.
    intros S H.
    assert (One : (a <- read_expr reader v ;; Ok [a]) = Raise e -> bad E top e).
    { clear H. intros H. destruct (read_expr reader v) eqn:X; cbn [rbind] in H; [discriminate|]. injection H as ->. eapply expr_err; eauto. }
    destruct v; try exact (One H). cbn [read_body] in H. eapply many_err; [apply expr_err| |exact H].
    intros u I. eapply sub_trans; [apply sub_item; eauto|auto].
  Qed.
  Lemma map_err {A} (f : val -> res A) v e : (forall u e, sub u top -> f u = Raise e -> bad E top e) -> sub v top ->
    read_map f v = Raise e -> bad E top e.
  Proof.
    intros F S H. destruct v; try (exact (syntax_bad _ _ _ H)). cbn [read_map] in H. apply rmapM_raise in H as ([k u] & I & H). cbn [fst snd] in H.
    destruct (f u) eqn:Fu; cbn [rbind] in H; [discriminate|]. injection H as ->. eapply F; [|exact Fu].
    eapply sub_trans; [eapply sub_field; eauto|auto].
  Qed.
  Lemma single_err {A} (f : val -> res A) v e : (forall u e, sub u top -> f u = Raise e -> bad E top e) -> sub v top ->
    read_single f v = Raise e -> bad E top e.
  Proof.
    intros F S H. unfold read_single in H. destruct (read_map f v) as [m|] eqn:M; cbn [rbind] in H.
    - destruct m as [|? [|]]; try discriminate; exact (syntax_bad _ _ _ H).
    - injection H as ->. eapply map_err; eauto.
  Qed.
  Lemma string_err v e : read_string v = Raise e -> bad E top e.
  Proof. intros H. destruct v; try discriminate; exact (syntax_bad _ _ _ H). Qed.
  Lemma case_err v e : sub v top -> is_dict v -> read_case reader v = Raise e -> bad E top e.
  Proof using RE.
    intros S [c ->] H. cbn [read_case] in H. destruct (rmapM (case_field reader) (unmarked c)) as [fs|] eqn:M; cbn [rbind] in H.
    - destruct (match assoc "named" fs with Some (SText x) => if valid_symbol x then Ok tt else syntax | _ => Ok tt end) as [u|] eqn:V; cbn [rbind] in H.
      + destruct (assoc "as" fs) as [[]|]; try (exact (syntax_bad _ _ _ H)). destruct (assoc "named" fs) as [[]|]; try (exact (syntax_bad _ _ _ H)).
        destruct (assoc "do" fs) as [[]|]; try (exact (syntax_bad _ _ _ H)). unfold make_case in H. destruct l; [exact (syntax_bad _ _ _ H)|].
        destruct (valid_symbol s); [discriminate|exact (syntax_bad _ _ _ H)].
      + injection H as ->. destruct (assoc "named" fs) as [[]|]; try discriminate. destruct (valid_symbol s); [discriminate|exact (syntax_bad _ _ _ V)].
    - injection H as ->. apply rmapM_raise in M as ([k u] & I & H). unfold case_field in H.
      destruct (String.eqb k "as"); [discriminate|].
      destruct (String.eqb k "named"). { destruct (read_string u) eqn:X; cbn [rbind] in H; [discriminate|]. injection H as ->. eapply string_err; eauto. }
      destruct (String.eqb k "do"); [|exact (syntax_bad _ _ _ H)].
      destruct (read_body reader u) eqn:X; cbn [rbind] in H; [discriminate|]. injection H as ->. eapply body_err; [|eauto].
      eapply sub_trans; [eapply sub_field; eauto|auto].
  Qed.
  Lemma param_err v e : is_dict v -> read_param v = Raise e -> e = syn.
  Proof.
    intros [c ->] H. cbn [read_param] in H. destruct (unmarked c) as [|[x t] [|]]; try (now injection H as <-).
    destruct (valid_symbol x); [discriminate|now injection H as <-].
  Qed.
  Lemma not_dict_dec v : is_dict v \/ ~ is_dict v.
  Proof. destruct v; try (right; intros [? ?]; discriminate). left. eexists. reflexivity. Qed.
  Lemma any_else_err l e : any_else l = Raise e -> exists a, In a l /\ else_of a = None.
  Proof.
    induction l as [|a l IH]; [discriminate|]. cbn [any_else]. destruct (else_of a) as [[no|]|] eqn:X; [discriminate| |].
    - intros H. destruct (IH H) as (b & ? & ?). exists b. simpl; auto.
    - intros _. exists a. simpl; auto.
  Qed.
  Ltac key K := apply assoc_In in K; cbn [kinds In] in K;
    repeat (destruct K as [K|K]; [try discriminate K|]); [..|destruct K]; injection K as <-.
  Lemma kind_err k v kd e : In (k, v) d -> k <> "@" -> assoc k kinds = Some kd -> read_kind E reader kd v = Raise e -> bad E top e.
  Proof using RE EL.
    intros I N K H. assert (S : sub v top) by (eapply sub_entry; eauto).
    assert (Items : forall l, v = VArr l -> forall u, In u l -> sub u top).
    { intros l -> u J. eapply sub_trans; [apply sub_item; eauto|auto]. }
    assert (C : culprit E d -> bad E top e). { intros C. right. exists d. split; [constructor|auto]. }
    destruct kd; cbn [read_kind] in H.
    - destruct (read_int v) eqn:X; cbn [rbind] in H; [discriminate|]. injection H as ->.
      destruct v; try (exact (syntax_bad _ _ _ X)); try discriminate. unfold read_int in X. destruct (_ && _)%bool in X; [discriminate|exact (syntax_bad _ _ _ X)].
    - destruct (read_long v) eqn:X; cbn [rbind] in H; [discriminate|]. injection H as ->.
      destruct v; try (exact (syntax_bad _ _ _ X)); try discriminate. unfold read_long in X. destruct (_ && _)%bool in X; [discriminate|exact (syntax_bad _ _ _ X)].
    - destruct (read_float v) eqn:X; cbn [rbind] in H; [discriminate|]. injection H as ->.
      destruct v; try (exact (syntax_bad _ _ _ X)); try discriminate; unfold read_float in X.
      + destruct b; discriminate.
      + destruct (py_float z) eqn:Pz; cbn [rbind] in X; [discriminate|]. injection X as ->. apply C.
        do 7 right. exists k. split. { key K; cbn [In]; tauto. } exists (VInt z). split; auto. eauto.
    - destruct (read_string v) eqn:X; cbn [rbind] in H; [discriminate|]. injection H as ->. eapply string_err; eauto.
    - destruct (read_string v) eqn:X; cbn [rbind] in H; [|injection H as ->; eapply string_err; eauto].
      destruct (b64_dec E a) eqn:Y; cbn [rbind] in H; [discriminate|]. injection H as ->. destruct v; try discriminate. injection X as ->.
      apply C. do 6 right. left. key K. exists (VStr a). split; auto. eauto.
    - discriminate.
    - destruct (read_map (read_expr reader) v) eqn:X; cbn [rbind] in H; [discriminate|]. injection H as ->. eapply map_err; [apply expr_err|..]; eauto.
    - destruct (read_body reader v) eqn:X; cbn [rbind] in H; [discriminate|]. injection H as ->. eapply body_err; eauto.
    - destruct (read_array (read_expr reader) v) eqn:X; cbn [rbind] in H; [discriminate|]. injection H as ->.
      destruct v; try (exact (syntax_bad _ _ _ X)). eapply many_err; [apply expr_err|..]; eauto.
    - destruct (read_expr reader v) eqn:X; cbn [rbind] in H; [discriminate|]. injection H as ->. eapply expr_err; eauto.
    - destruct (read_array (read_expr reader) v) as [as_|] eqn:X; cbn [rbind] in H.
      + destruct (any_else as_) as [b|] eqn:Y; cbn [rbind] in H; [destruct b; [exact (syntax_bad _ _ _ H)|discriminate]|]. injection H as ->.
        apply any_else_err in Y as (a & J & Ne). destruct v; try discriminate. cbn [read_array] in X. destruct (rmapM_in _ _ _ _ X J) as (u & Iu & Ru).
        apply C. do 5 right. left. key K. exists (VArr l). split; auto. exists l, u. repeat split; auto. intros B.
        unfold read_expr in Ru. destruct (reader u) as [a'|] eqn:Rr; cbn [rbind] in Ru; [|discriminate]. destruct (is_expr a'); [|discriminate]. injection Ru as ->.
        exact (EL _ _ Rr B Ne).
      + injection H as ->. destruct v; try (exact (syntax_bad _ _ _ X)). eapply many_err; [apply expr_err|..]; eauto.
    - destruct (read_array (read_case reader) v) eqn:X; cbn [rbind] in H; [discriminate|]. injection H as ->.
      destruct v; try (exact (syntax_bad _ _ _ X)). cbn [read_array] in X. apply rmapM_raise in X as (u & J & X).
      destruct (not_dict_dec u) as [D|D]; [exact (case_err u e (Items _ eq_refl _ J) D X)|]. apply C. right. left. key K. exists (VArr l). split; auto. exists l, u. auto.
    - destruct (read_bool v) eqn:X; cbn [rbind] in H; [discriminate|]. injection H as ->. destruct v; try discriminate; exact (syntax_bad _ _ _ X).
    - destruct v; try (exact (syntax_bad _ _ _ H)).
      + destruct (read_array (read_expr reader) (VArr l)) eqn:X; cbn [rbind] in H; [discriminate|]. injection H as ->. eapply many_err; [apply expr_err|..]; eauto.
      + destruct (read_map (read_expr reader) (VDict d0)) eqn:X; cbn [rbind] in H; [discriminate|]. injection H as ->. eapply map_err; [apply expr_err|..]; eauto.
    - destruct (read_array read_param v) eqn:X; cbn [rbind] in H; [discriminate|]. injection H as ->.
      destruct v; try (exact (syntax_bad _ _ _ X)). cbn [read_array] in X. apply rmapM_raise in X as (u & J & X).
      destruct (not_dict_dec u) as [D|D]; [left; eapply param_err; eauto|]. apply C. right. right. left. key K. exists (VArr l). split; auto. exists l, u. auto.
    - destruct (reader v) eqn:X; cbn [rbind] in H; [discriminate|]. injection H as ->. eapply arg_err; eauto.
    - destruct (read_map reader v) eqn:X; cbn [rbind] in H; [discriminate|]. injection H as ->. eapply map_err; [apply arg_err|..]; eauto.
    - destruct (read_array read_string_or_int v) eqn:X; cbn [rbind] in H; [discriminate|]. injection H as ->.
      destruct v; try (exact (syntax_bad _ _ _ X)). apply rmapM_raise in X as (u & J & X). destruct u; try discriminate; exact (syntax_bad _ _ _ X).
    - destruct (read_array (read_single read_string) v) eqn:X; cbn [rbind] in H; [discriminate|]. injection H as ->.
      destruct v; try (exact (syntax_bad _ _ _ X)). apply rmapM_raise in X as (u & J & X). eapply single_err; [|apply (Items _ eq_refl _ J)|exact X].
      intros; eapply string_err; eauto.
    - destruct v; try discriminate. destruct (rmapM (read_single (read_expr reader)) l) eqn:X; cbn [rbind] in H; [discriminate|]. injection H as ->.
      apply rmapM_raise in X as (u & J & X). eapply single_err; [apply expr_err|apply (Items _ eq_refl _ J)|exact X].
  Qed.
  Lemma field_err p e : In p (unmarked d) -> read_field E reader p = Raise e -> bad E top e.
  Proof using RE EL.
    destruct p as [k v]. intros I H. pose proof (sub_field _ _ _ I) as S. apply unmarked_in in I as [I N]. unfold read_field in H.
    destruct (assoc k kinds) as [kd|] eqn:K.
    - destruct (read_kind E reader kd v) eqn:X; cbn [rbind] in H; [discriminate|]. injection H as ->. eapply kind_err; eauto.
    - assert (One : (a <- reader v ;; Ok (k, SCall [a])) = Raise e -> bad E top e).
      { clear H. intros H. destruct (reader v) eqn:X; cbn [rbind] in H; [discriminate|]. injection H as ->. eapply arg_err; eauto. }
      destruct v; try exact (One H). destruct (rmapM reader l) eqn:X; cbn [rbind] in H; [discriminate|]. injection H as ->.
      eapply many_err; [apply arg_err| |exact X]. intros u J. eapply sub_trans; [apply sub_item; eauto|auto].
  Qed.
  Lemma dict_err e : read_dict E reader d = Raise e -> bad E top e.
  Proof using RE EL.
    unfold read_dict. intros H. destruct (rmapM (read_field E reader) (unmarked d)) as [fs|] eqn:R; cbn [rbind] in H.
    2: { injection H as ->. apply rmapM_raise in R as (p & I & R). eapply field_err; eauto. }
    assert (C : culprit E d -> bad E top e). { intros C. right. exists d. split; [constructor|auto]. }
    destruct (check_name valid_symbol "foreach" fs) eqn:C1; cbn [rbind] in H.
    2: { destruct (check_err _ _ _ _ R valid_symbol "foreach" _ eq_refl C1) as (s & I & V). apply C. do 3 right. left. exists "foreach". split; [cbn; auto|]. exists (VStr s). eauto. }
    destruct (check_name valid_symbol "forkey" fs) eqn:C2; cbn [rbind] in H.
    2: { destruct (check_err _ _ _ _ R valid_symbol "forkey" _ eq_refl C2) as (s & I & V). apply C. do 3 right. left. exists "forkey". split; [cbn; auto|]. exists (VStr s). eauto. }
    destruct (check_name valid_symbol "forval" fs) eqn:C3; cbn [rbind] in H.
    2: { destruct (check_err _ _ _ _ R valid_symbol "forval" _ eq_refl C3) as (s & I & V). apply C. do 3 right. left. exists "forval". split; [cbn; auto|]. exists (VStr s). eauto. }
    destruct (check_name valid_function "fcn" fs) eqn:C4; cbn [rbind] in H.
    2: { destruct (check_err _ _ _ _ R valid_function "fcn" _ eq_refl C4) as (s & I & V). apply C. do 4 right. left. exists (VStr s). eauto. }
    destruct (make_err _ _ _ _ R _ H) as [->|Del]; [now left|]. apply C. now left.
  Qed.
End Errors.

(** An exception of the reader is a PFASyntaxException, or there is a culprit in the document. *)
Theorem read_err E n : forall v e, (size v <= n)%nat -> read E n v = Raise e -> bad E v e.
Proof.
  induction n as [|n IH]; intros v e L H. { destruct v; cbn in L; lia. }
  cbn [read] in H. destruct v as [|b|z|f|s|l|l|d]; try discriminate.
  - destruct (_ && _)%bool in H; [discriminate|]. destruct (_ && _)%bool in H; [discriminate|exact (syntax_bad _ _ _ H)].
  - destruct (split_dots s) as [x [|r rest]]; destruct (valid_symbol x); try discriminate; exact (syntax_bad _ _ _ H).
  - exact (syntax_bad _ _ _ H).
  - destruct l as [|[] [|]]; try discriminate; exact (syntax_bad _ _ _ H).
  - eapply dict_err; [| |exact H].
    + intros u e' [O S] Hu. apply IH; auto. lia.
    + intros u a. apply branches_else.
Qed.

(** *** documents *)
Section DocErrors.
  Context (E : outside) (n : nat) (d : list (string * val)).
  Hypothesis L : (size (VDict d) <= n)%nat.
  Let top := VDict d.
  Let RE : forall u e, sub u top -> read E n u = Raise e -> bad E u e.
  Proof. intros u e [_ S] H. apply (read_err E n); auto. unfold top in *. lia. Qed.
  Definition bad_doc (e : exn) : Prop := bad E top e \/ bad_document E top.
  Lemma opt_err {A} k (f : val -> res A) e : opt_field k f (unmarked d) = Raise e -> exists v, In (k, v) d /\ sub v top /\ f v = Raise e.
  Proof.
    unfold opt_field. destruct (assoc k (unmarked d)) as [v|] eqn:K; [|discriminate]. destruct (f v) eqn:F; cbn [rbind]; [discriminate|].
    intros H. injection H as ->. apply assoc_In in K. exists v. split; [|split; auto; eapply sub_field; eauto]. now apply unmarked_in in K as [K _].
  Qed.
  Lemma doc_body_err k e : opt_field k (read_body (read E n)) (unmarked d) = Raise e -> bad_doc e.
  Proof using L. intros H. apply opt_err in H as (v & _ & S & H). left. eapply body_err; eauto. Qed.
  Lemma named_err {A} valid (f : val -> res A) fd e : read_named valid f fd = Raise e -> e = syn \/ exists k u, In (k, u) fd /\ f u = Raise e.
  Proof.
    unfold read_named. destruct (forallb _ _); [|intros H; injection H as <-; now left]. intros H. apply rmapM_raise in H as ([k u] & I & H).
    cbn [fst snd] in H. destruct (f u) eqn:F; cbn [rbind] in H; [discriminate|]. injection H as ->. right. exists k, u. split; auto. now apply unmarked_in in I as [I _].
  Qed.
  Lemma fcns_err e : opt_field "fcns" (read_fcns (read E n)) (unmarked d) = Raise e -> bad_doc e.
  Proof using L.
    intros H. apply opt_err in H as (v & I & S & H).
    assert (C : (~ is_dict v \/ exists k f u, v = VDict f /\ In (k, u) f /\
        (~ is_dict u \/ exists g, u = VDict g /\ value_at g "params" (fun v => item_of v (fun u => ~ is_dict u)))) -> bad_doc e).
    { intros C. right. right. exists d. split; [reflexivity|]. left. exists v. auto. }
    destruct (not_dict_dec v) as [[f ->]|D]; [|auto]. cbn [read_fcns] in H. apply named_err in H as [->|(k & u & J & H)]; [left; now left|].
    destruct (not_dict_dec u) as [[g ->]|D]; [|apply C; right; exists k, f, u; auto]. cbn [read_fcn] in H.
    assert (Sg : sub (VDict g) top). { eapply sub_trans; [eapply sub_entry; eauto|auto]. }
    destruct (rmapM (fcn_field (read E n)) (unmarked g)) as [fs|] eqn:M; cbn [rbind] in H.
    - destruct (assoc "params" fs) as [[]|]; try (left; exact (syntax_bad _ _ _ H)). destruct (assoc "ret" fs) as [[]|]; try (left; exact (syntax_bad _ _ _ H)).
      destruct (assoc "do" fs) as [[]|]; try (left; exact (syntax_bad _ _ _ H)). destruct l0; cbn [some rbind] in H; [left; exact (syntax_bad _ _ _ H)|discriminate].
    - injection H as ->. apply rmapM_raise in M as ([k' w] & Iw & H). unfold fcn_field in H.
      destruct (String.eqb_spec k' "params") as [->|].
      { destruct (read_array read_param w) eqn:X; cbn [rbind] in H; [discriminate|]. injection H as ->.
        destruct w; try (left; exact (syntax_bad _ _ _ X)). cbn [read_array] in X. apply rmapM_raise in X as (u & Ju & X).
        destruct (not_dict_dec u) as [D|D]; [left; left; eapply param_err; eauto|]. apply C. right. exists k, f, (VDict g). repeat (split; auto). right.
        exists g. split; auto. apply unmarked_in in Iw as [Iw _]. exists (VArr l). split; auto. exists l, u. auto. }
      destruct (String.eqb k' "ret"); [discriminate|]. destruct (String.eqb k' "do"); [|left; exact (syntax_bad _ _ _ H)].
      destruct (read_body (read E n) w) eqn:X; cbn [rbind] in H; [discriminate|]. injection H as ->. left.
      eapply body_err; [exact RE| |exact X]. eapply sub_trans; [eapply sub_field; eauto|auto].
  Qed.
  Lemma flag_err k fd e : flag k fd = Raise e -> e = syn.
  Proof. unfold flag. destruct (assoc k fd) as [[]|]; try discriminate; intros H; now injection H as <-. Qed.
  Lemma source_err fd e : source_of fd = Raise e -> e = syn.
  Proof. unfold source_of. destruct (assoc "source" fd) as [[]|]; try discriminate; intros H; now injection H as <-. Qed.
  Lemma cell_err v e : read_cell v = Raise e -> e = syn.
  Proof.
    destruct v as [| | | | | | |c]; try (intros H; now injection H as <-). cbn [read_cell]. set (c' := unmarked c). intros H.
    destruct (flag "shared" c') eqn:A1; cbn [rbind] in H; [|injection H as ->; eapply flag_err; eauto].
    destruct (flag "rollback" c') eqn:A2; cbn [rbind] in H; [|injection H as ->; eapply flag_err; eauto].
    destruct (source_of c') eqn:A3; cbn [rbind] in H; [|injection H as ->; eapply source_err; eauto].
    destruct (known_keys c'); [|now injection H as <-]. destruct (assoc "type" c'); [|now injection H as <-]. destruct (assoc "init" c'); [|now injection H as <-].
    destruct (String.eqb a1 "avro" || String.eqb a1 "json")%bool.
    - destruct (strip v0); cbn [rbind] in H; try (now injection H as <-). destruct (_ && _)%bool in H; [now injection H as <-|discriminate].
    - destruct (String.eqb a1 "embedded"); cbn [rbind] in H; [|now injection H as <-]. destruct (_ && _)%bool in H; [now injection H as <-|discriminate].
  Qed.
  Lemma cells_err e : opt_field "cells" read_cells (unmarked d) = Raise e -> bad_doc e.
  Proof.
    intros H. apply opt_err in H as (v & I & S & H). destruct (not_dict_dec v) as [[f ->]|D].
    - cbn [read_cells] in H. left. left. apply named_err in H as [->|(k & u & J & H)]; [reflexivity|]. eapply cell_err; eauto.
    - right. right. exists d. split; [reflexivity|]. right. left. exists v. auto.
  Qed.
  Lemma json_map_err v e : json_map v = Raise e -> e = syn.
  Proof. destruct v; try discriminate; intros H; now injection H as <-. Qed.
  Lemma pool_err v e : is_dict v -> read_pool v = Raise e ->
    e = syn \/ exists g, v = VDict g /\ (In ("source", VStr "json") g \/ In ("source", VStr "avro") g).
  Proof.
    intros [c ->]. cbn [read_pool]. set (c' := unmarked c). intros H.
    destruct (flag "shared" c') eqn:A1; cbn [rbind] in H; [|injection H as ->; left; eapply flag_err; eauto].
    destruct (flag "rollback" c') eqn:A2; cbn [rbind] in H; [|injection H as ->; left; eapply flag_err; eauto].
    destruct (source_of c') eqn:A3; cbn [rbind] in H; [|injection H as ->; left; eapply source_err; eauto].
    destruct (match assoc "init" c' with Some i => json_map i | None => Ok [] end) as [ini|] eqn:A4; cbn [rbind] in H.
    2: { injection H as ->. destruct (assoc "init" c'); [|discriminate]. left. eapply json_map_err; eauto. }
    destruct (known_keys c'); [|left; now injection H as <-]. destruct (assoc "type" c'); [|left; now injection H as <-].
    destruct (String.eqb_spec a1 "avro") as [->|]; [|destruct (String.eqb_spec a1 "json") as [->|]]; cbn [orb] in H.
    - right. exists c. split; auto. right. unfold source_of in A3. destruct (assoc "source" c') as [w|] eqn:K; [|discriminate].
      destruct w; try discriminate. injection A3 as ->. apply assoc_In in K. now apply unmarked_in in K as [K _].
    - right. exists c. split; auto. left. unfold source_of in A3. destruct (assoc "source" c') as [w|] eqn:K; [|discriminate].
      destruct w; try discriminate. injection A3 as ->. apply assoc_In in K. now apply unmarked_in in K as [K _].
    - left. destruct (String.eqb a1 "embedded"); [|now injection H as <-]. destruct (_ && _)%bool in H; [now injection H as <-|discriminate].
  Qed.
  Lemma pools_err e : opt_field "pools" read_pools (unmarked d) = Raise e -> bad_doc e.
  Proof.
    intros H. apply opt_err in H as (v & I & S & H). destruct (not_dict_dec v) as [[f ->]|D].
    - cbn [read_pools] in H. apply named_err in H as [->|(k & u & J & H)]; [left; now left|].
      assert (C : (~ is_dict u \/ exists g, u = VDict g /\ (In ("source", VStr "json") g \/ In ("source", VStr "avro") g)) -> bad_doc e).
      { intros C. right. right. exists d. split; [reflexivity|]. do 2 right. exists (VDict f). split; auto. exists k, f, u. auto. }
      destruct (not_dict_dec u) as [D|D]; [|auto]. destruct (pool_err _ _ D H) as [->|X]; [left; now left|auto].
    - left. left. destruct v; try (exfalso; apply D; eexists; reflexivity); now injection H as <-.
  Qed.
  Lemma plain_err {A} k (f : val -> res A) e : (forall v e, f v = Raise e -> e = syn) -> opt_field k f (unmarked d) = Raise e -> bad_doc e.
  Proof. intros F H. apply opt_err in H as (v & _ & _ & H). left. left. eauto. Qed.
  Lemma doc_err fresh e : read_doc E n fresh top = Raise e -> bad_doc e.
  Proof using L.
    intros H. unfold read_doc, top in H.
    destruct (forallb _ _) in H; [|left; exact (syntax_bad _ _ _ H)].
    assert (Str : forall v e, read_string v = Raise e -> e = syn). { intros v e' X. destruct v; try discriminate; now injection X as <-. }
    Ltac next H G := match type of H with rbind ?m _ = Raise _ => destruct m eqn:G; cbn [rbind] in H; [|injection H as ->] end.
    next H G1; [|eapply plain_err; [|exact G1]; auto].
    next H G2; [|eapply plain_err; [|exact G2]].
    2: { intros v e' X. unfold read_method in X. destruct (read_string v) eqn:Y; cbn [rbind] in X; [|injection X as ->; eapply Str; eauto].
         destruct (_ || _)%bool in X; [discriminate|now injection X as <-]. }
    next H G3; [|eapply plain_err; [|exact G3]; discriminate].
    next H G4; [|eapply plain_err; [|exact G4]; discriminate].
    next H G5; [|eapply doc_body_err; eauto].
    next H G6; [|eapply doc_body_err; eauto].
    next H G7; [|eapply doc_body_err; eauto].
    next H G8; [|eapply fcns_err; eauto].
    next H G9; [|eapply plain_err; [|exact G9]; discriminate].
    next H G10; [|eapply doc_body_err; eauto].
    next H G11; [|eapply cells_err; eauto].
    next H G12; [|eapply pools_err; eauto].
    next H G13; [|eapply plain_err; [|exact G13]].
    2: { intros v e' X. destruct v; try (now injection X as <-); try discriminate. unfold read_long in X. destruct (_ && _)%bool in X; [discriminate|now injection X as <-]. }
    next H G14; [|eapply plain_err; [|exact G14]; auto].
    next H G15; [|eapply plain_err; [|exact G15]].
    2: { intros v e' X. destruct v; try (now injection X as <-); try discriminate. unfold read_int in X. destruct (_ && _)%bool in X; [discriminate|now injection X as <-]. }
    next H G16; [|eapply plain_err; [|exact G16]].
    2: { intros v e' X. destruct v as [| | | | | | |c]; try (now injection X as <-). cbn [read_map] in X. apply rmapM_raise in X as ([k w] & _ & X). cbn [snd fst] in X.
         destruct (read_string w) eqn:Y; cbn [rbind] in X; [discriminate|]. injection X as ->. eauto. }
    next H G17; [|eapply plain_err; [|exact G17]; apply json_map_err].
    left. left. destruct a1; [|now injection H as <-]. destruct a2; [|now injection H as <-]. destruct a4 as [l|]; [|now injection H as <-].
    destruct (match assoc "@" d with Some (VStr _) | Some VNull | None => true | Some _ => false end); [|now injection H as <-].
    destruct l; cbn [some rbind] in H; [now injection H as <-|].
    destruct (if String.eqb _ "fold" then _ else _) in H; [discriminate|now injection H as <-].
  Qed.
End DocErrors.
