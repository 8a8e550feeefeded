(** Proofs about ReadModel: every field that was read reads back from what the writer makes of it (C45). *)
From Verif Require Import Base PyNum ScopeModel ReadModel ReadSpec.
From Verif Require SnapModel.
From Coq Require Import Ascii.
Open Scope string_scope.
Open Scope list_scope.
Open Scope Z_scope.

(** from some number on *)
Definition ev (P : nat -> Prop) : Prop := exists m0, forall m, (m0 <= m)%nat -> P m.
Lemma ev_and P Q : ev P -> ev Q -> ev (fun m => P m /\ Q m).
Proof. intros [a A] [b B]. exists (a + b)%nat. intros m L. split; [apply A|apply B]; lia. Qed.
Lemma ev_mono (P Q : nat -> Prop) : (forall m, P m -> Q m) -> ev P -> ev Q.
Proof. intros H [a A]. exists a. auto. Qed.
Lemma ev_S (P : nat -> Prop) : ev (fun m => P (S m)) -> ev P.
Proof. intros [a A]. exists (S a). intros [|m] L; [lia|]. apply A. lia. Qed.
Lemma ev_all (P : nat -> Prop) : (forall m, P m) -> ev P.
Proof. intros H. exists O. auto. Qed.
Lemma ev_Forall {A} (P : nat -> A -> Prop) l : Forall (fun a => ev (fun m => P m a)) l -> ev (fun m => Forall (P m) l).
Proof.
  induction 1 as [|a l H _ IH]; [exists O; constructor|]. generalize (ev_and _ _ H IH). apply ev_mono.
  intros m [X Y]. now constructor.
Qed.

Lemma rmapM_in {A B} (f : A -> res B) l l' b : rmapM f l = Ok l' -> In b l' -> exists a, In a l /\ f a = Ok b.
Proof.
  intros H. apply rmapM_ok_Forall2 in H. induction H as [|x y l l' H _ IH]; [intros []|].
  intros [->|I]; [exists x; simpl; auto|]. destruct (IH I) as (a & ? & ?). exists a. simpl; auto.
Qed.
Lemma rmapM_back {A B} (f : A -> res B) (g : B -> A) l : Forall (fun b => f (g b) = Ok b) l -> rmapM f (map g l) = Ok l.
Proof. intros H. apply rmapM_ok_Forall2. induction H; simpl; constructor; auto. Qed.

(** *** marks *)
Lemma unmarked_id {A} (d : list (string * A)) : (forall k v, In (k, v) d -> k <> "@") -> unmarked d = d.
Proof.
  intros H. unfold unmarked. induction d as [|[k v] d IH]; [reflexivity|]. cbn [filter fst].
  destruct (String.eqb_spec k "@") as [->|]; [exfalso; apply (H "@" v); simpl; auto|]. cbn [negb]. f_equal. apply IH.
  intros k' v' I. apply (H k' v'). right; auto.
Qed.
Lemma unmarked_in {A} (d : list (string * A)) k v : In (k, v) (unmarked d) <-> In (k, v) d /\ k <> "@".
Proof.
  unfold unmarked. rewrite filter_In. cbn [fst]. destruct (String.eqb_spec k "@") as [->|N]; cbn [negb]; intuition congruence.
Qed.
Lemma strip_dict d : strip (VDict d) = VDict (map (fun p => (fst p, strip (snd p))) (unmarked d)).
Proof.
  unfold strip. cbn [SnapModel.strip]. f_equal. induction d as [|[k v] d IH]; [reflexivity|]. unfold unmarked in *. cbn [filter fst].
  destruct (String.eqb k "@"); cbn [negb]; [exact IH|]. cbn [map fst snd]. f_equal. exact IH.
Qed.
Lemma strip_arr l : strip (VArr l) = VArr (map strip l).
Proof. reflexivity. Qed.
Fixpoint size (v : val) : nat :=
  match v with
  | VArr l => S (list_sum (map size l))
  | VDict d => S (list_sum (map (fun p => size (snd p)) d))
  | _ => 1%nat
  end.
Lemma size_item l v : In v l -> (size v < size (VArr l))%nat.
Proof.
  intros H. cbn [size]. induction l as [|a l IH]; [destruct H|]. cbn [map]. unfold list_sum in *; cbn [fold_right].
  destruct H as [->|H]; [lia|]. specialize (IH H). lia.
Qed.
Lemma size_entry d k v : In (k, v) d -> (size v < size (VDict d))%nat.
Proof.
  intros H. cbn [size]. induction d as [|a l IH]; [destruct H|]. cbn [map]. unfold list_sum in *; cbn [fold_right].
  destruct H as [->|H]; [cbn [snd]; lia|]. specialize (IH H). lia.
Qed.
Lemma val_ind2 (P : val -> Prop) :
  P VNull -> (forall b, P (VBool b)) -> (forall z, P (VInt z)) -> (forall f, P (VFlt f)) -> (forall s, P (VStr s)) ->
  (forall l, P (VBytes l)) -> (forall l, (forall v, In v l -> P v) -> P (VArr l)) ->
  (forall d, (forall k v, In (k, v) d -> P v) -> P (VDict d)) -> forall v, P v.
Proof.
  intros H1 H2 H3 H4 H5 H6 H7 H8 v. remember (size v) as n eqn:E. assert (L : (size v <= n)%nat) by lia. clear E.
  revert v L. induction n as [|n IH]; intros v L; [destruct v; cbn in L; lia|].
  destruct v; auto.
  - apply H7. intros v I. apply IH. apply size_item in I. lia.
  - apply H8. intros k v I. apply IH. apply size_entry in I. lia.
Qed.
Lemma strip_twice v : strip (strip v) = strip v.
Proof.
  induction v as [| | | | | |l H|d H] using val_ind2; try reflexivity.
  - rewrite !strip_arr, map_map. f_equal. apply map_ext_in. exact H.
  - rewrite strip_dict, strip_dict. f_equal. rewrite unmarked_id.
    + rewrite map_map. apply map_ext_in. intros [k v] I. cbn [fst snd]. apply unmarked_in in I as [I _]. f_equal. exact (H k v I).
    + intros k v I. apply in_map_iff in I as ((k' & v') & E & I). injection E as -> <-. now apply unmarked_in in I as [_ I].
Qed.

(** *** names *)
Lemma split_dots_head s : forall x r, split_dots s = (x, r) -> split_dots x = (x, []) /\ (r = [] -> s = x).
Proof.
  induction s as [|c s IH]; intros x r H; cbn in H; [injection H as <- <-; auto|].
  destruct (split_dots s) as [w ws] eqn:E. destruct (Ascii.eqb c ".") eqn:D; injection H as <- <-.
  - split; [reflexivity|discriminate].
  - destruct (IH w ws eq_refl) as [A B]. split; [cbn; rewrite A, D; reflexivity|]. intros ->. now rewrite B.
Qed.

Section Back.
  Context (E : outside).
  Hypothesis B64 : base64_inverse E.
  Let tame (a : node) : Prop := plain_ints a.
  Definition RT (a : node) : Prop := ev (fun m => read E m (write E a) = Ok a).
  Lemma tame_part a b : tame a -> In b (parts a) -> tame b.
  Proof. intros T I v W. apply T. eapply within_part; eauto. Qed.

  (** what the writer makes of a field *)
  Definition case_json (c : val * string * list node) : val :=
    VDict [("as", fst (fst c)); ("named", VStr (snd (fst c))); ("do", VArr (map (write E) (snd c)))].
  Definition slot_json (k : kind) (x : slot) : val :=
    match x with
    | SVal v => v
    | SText s => match k with KBase64 => VStr (b64_enc E s) | _ => VStr s end
    | SList l => VArr (map (write E) l)
    | SMap m => VDict (map (fun p => (fst p, write E (snd p))) m)
    | SNode a => write E a
    | SCases l => VArr (map case_json l)
    | SParams l => VArr (map (fun p => VDict [p]) l)
    | SFilter l => VArr l
    | SPairs l => VArr (map (fun p => VDict [(fst p, VStr (snd p))]) l)
    | SPack (Some l) => VArr (map (fun p => VDict [(fst p, write E (snd p))]) l)
    | SPack None => VNull
    | SCall l => VArr (map (write E) l)
    end.
  Definition slot_nodes (x : slot) : list node :=
    match x with
    | SList l | SCall l => l
    | SMap m | SPack (Some m) => map snd m
    | SNode a => [a]
    | SCases l => concat (map snd l)
    | _ => []
    end.

  Section OneReader.
    Context (reader : val -> res node).
    Hypothesis back : forall v a, reader v = Ok a -> tame a -> RT a.

    Lemma expr_back v a : read_expr reader v = Ok a -> tame a -> ev (fun m => read_expr (read E m) (write E a) = Ok a).
    Proof using back.
      unfold read_expr. intros H T. destruct (reader v) as [b|] eqn:R; cbn [rbind] in H; [|discriminate].
      destruct (is_expr b) eqn:X; [|discriminate]. injection H as ->. generalize (back v a R T). apply ev_mono.
      intros m ->. cbn [rbind]. now rewrite X.
    Qed.
    Lemma exprs_back l l' : rmapM (read_expr reader) l = Ok l' -> (forall a, In a l' -> tame a) ->
      ev (fun m => rmapM (read_expr (read E m)) (map (write E) l') = Ok l').
    Proof using back.
      intros H T. assert (F : Forall (fun a => ev (fun m => read_expr (read E m) (write E a) = Ok a)) l').
      { apply Forall_forall. intros a I. destruct (rmapM_in _ _ _ _ H I) as (v & _ & R). eapply expr_back; eauto. }
      apply ev_Forall in F. revert F. apply ev_mono. intros m F. now apply rmapM_back.
    Qed.
    Lemma args_back l l' : rmapM reader l = Ok l' -> (forall a, In a l' -> tame a) ->
      ev (fun m => rmapM (read E m) (map (write E) l') = Ok l').
    Proof using back.
      intros H T. assert (F : Forall (fun a => ev (fun m => read E m (write E a) = Ok a)) l').
      { apply Forall_forall. intros a I. destruct (rmapM_in _ _ _ _ H I) as (v & _ & R). eapply back; eauto. }
      apply ev_Forall in F. revert F. apply ev_mono. intros m F. now apply rmapM_back.
    Qed.
    Lemma body_back v l : read_body reader v = Ok l -> (forall a, In a l -> tame a) ->
      ev (fun m => read_body (read E m) (VArr (map (write E) l)) = Ok l).
    Proof using back.
      intros H T.
      assert (Single : (a <- read_expr reader v ;; Ok [a]) = Ok l -> ev (fun m => read_body (read E m) (VArr (map (write E) l)) = Ok l)).
      { clear H. intros H. destruct (read_expr reader v) as [b|] eqn:R; cbn [rbind] in H; [|discriminate]. injection H as <-.
        generalize (expr_back _ _ R (T b (or_introl eq_refl))). apply ev_mono. intros m X. cbn [read_body map rmapM]. now rewrite X. }
      destruct v; try (exact (Single H)). cbn [read_body] in H. generalize (exprs_back _ _ H T). apply ev_mono. auto.
    Qed.
    Lemma entries_back (f0 : val -> res node) (f : nat -> val -> res node) d m0 :
      (forall v a, f0 v = Ok a -> tame a -> ev (fun m => f m (write E a) = Ok a)) ->
      rmapM (fun p => x <- f0 (snd p) ;; Ok (fst p, x)) (unmarked d) = Ok m0 ->
      (forall a, In a (map snd m0) -> tame a) ->
      ev (fun m => Forall (fun p => (x <- f m (write E (snd p)) ;; Ok (fst p, x)) = Ok p) m0) /\ (forall k a, In (k, a) m0 -> k <> "@").
    Proof.
      intros FB H T. split.
      - apply ev_Forall. apply Forall_forall. intros [k a] I. destruct (rmapM_in _ _ _ _ H I) as ([k' v] & _ & R). cbn [fst snd] in *.
        destruct (f0 v) as [b|] eqn:Rb; cbn [rbind] in R; [|discriminate]. injection R as -> ->.
        generalize (FB _ _ Rb (T a (in_map snd _ _ I))). apply ev_mono. intros m ->. reflexivity.
      - intros k a I. destruct (rmapM_in _ _ _ _ H I) as ([k' v] & J & R). cbn [fst snd] in *. apply unmarked_in in J as [_ J].
        destruct (f0 v) as [b|]; cbn [rbind] in R; [|discriminate]. injection R as -> ->. exact J.
    Qed.
    Lemma map_back (f0 : val -> res node) (f : nat -> val -> res node) v m0 :
      (forall v a, f0 v = Ok a -> tame a -> ev (fun m => f m (write E a) = Ok a)) ->
      read_map f0 v = Ok m0 -> (forall a, In a (map snd m0) -> tame a) ->
      ev (fun m => read_map (f m) (VDict (map (fun p => (fst p, write E (snd p))) m0)) = Ok m0).
    Proof.
      intros FB H T. destruct v as [| | | | | | |d]; try discriminate. cbn [read_map] in H.
      destruct (entries_back _ _ _ _ FB H T) as [Ev N]. revert Ev. apply ev_mono. intros m F. cbn [read_map].
      rewrite unmarked_id. 2: { intros k w I. apply in_map_iff in I as ((k' & a) & Eq & I). injection Eq as -> _. eauto. }
      apply rmapM_ok_Forall2. clear H T N. induction F as [|[k a] l X F IH]; cbn [map]; constructor; auto.
    Qed.
    Lemma single_back (f0 : val -> res node) (f : nat -> val -> res node) v p :
      (forall v a, f0 v = Ok a -> tame a -> ev (fun m => f m (write E a) = Ok a)) ->
      read_single f0 v = Ok p -> tame (snd p) -> ev (fun m => read_single (f m) (VDict [(fst p, write E (snd p))]) = Ok p).
    Proof.
      intros FB H T. unfold read_single in H. destruct (read_map f0 v) as [m0|] eqn:R; cbn [rbind] in H; [|discriminate].
      destruct m0 as [|q [|]]; try discriminate. injection H as ->.
      assert (T' : forall a, In a (map snd [p]) -> tame a) by (intros a [<-|[]]; auto).
      generalize (map_back _ f _ _ FB R T'). apply ev_mono. intros m X. unfold read_single. cbn [map] in X. rewrite X. reflexivity.
    Qed.
    Lemma text_single_back v p : read_single read_string v = Ok p -> read_single read_string (VDict [(fst p, VStr (snd p))]) = Ok p.
    Proof.
      intros H. unfold read_single in *. destruct (read_map read_string v) as [m0|] eqn:R; cbn [rbind] in H; [|discriminate].
      destruct m0 as [|q [|]]; try discriminate. injection H as ->. destruct p as [k s]. cbn [fst snd].
      destruct v as [| | | | | | |d]; try discriminate. cbn [read_map] in *.
      destruct (rmapM_in _ _ _ _ R (or_introl eq_refl)) as ([k' w] & J & X). cbn [fst snd] in X. apply unmarked_in in J as [_ J].
      destruct (read_string w); cbn [rbind] in X; [|discriminate]. injection X as -> ->.
      rewrite unmarked_id; [reflexivity|]. intros k2 v2 [Eq|[]]. congruence.
    Qed.
    Lemma param_back v p : read_param v = Ok p -> read_param (VDict [p]) = Ok p.
    Proof.
      intros H. destruct v as [| | | | | | |d]; try discriminate. cbn [read_param] in H.
      destruct (unmarked d) as [|[x t] [|]] eqn:U; try discriminate. destruct (valid_symbol x) eqn:V; [|discriminate]. injection H as <-.
      assert (N : x <> "@"). { assert (I : In (x, t) (unmarked d)) by (rewrite U; simpl; auto). now apply unmarked_in in I as [_ I]. }
      cbn [read_param]. rewrite unmarked_id by (intros k2 v2 [Eq|[]]; congruence). now rewrite V, strip_twice.
    Qed.
    Lemma case_back v c : read_case reader v = Ok c -> (forall a, In a (snd c) -> tame a) ->
      ev (fun m => read_case (read E m) (case_json c) = Ok c).
    Proof using back.
      intros H T. destruct v as [| | | | | | |d]; try discriminate. cbn [read_case] in H.
      destruct (rmapM (case_field reader) (unmarked d)) as [fs|] eqn:R; cbn [rbind] in H; [|discriminate].
      destruct (match assoc "named" fs with Some (SText x) => if valid_symbol x then Ok tt else syntax | _ => Ok tt end) eqn:V; cbn [rbind] in H; [|discriminate].
      destruct (assoc "as" fs) as [[t| | | | | | | | | |]|] eqn:A1; try discriminate.
      destruct (assoc "named" fs) as [[|x| | | | | | | | |]|] eqn:A2; try discriminate.
      destruct (assoc "do" fs) as [[| |body| | | | | | | |]|] eqn:A3; try discriminate.
      destruct (valid_symbol x) eqn:Vx; [|discriminate].
      unfold make_case in H. destruct body as [|b0 bs]; [discriminate|]. rewrite Vx in H. injection H as <-. cbn [snd fst] in *.
      apply assoc_In in A1, A3. destruct (rmapM_in _ _ _ _ R A1) as ([k1 v1] & _ & X1). destruct (rmapM_in _ _ _ _ R A3) as ([k3 v3] & _ & X3).
      assert (St : strip t = t).
      { unfold case_field in X1. destruct (String.eqb k1 "as"). { injection X1 as _ <-. apply strip_twice. }
        destruct (String.eqb k1 "named"). { destruct (read_string v1); cbn [rbind] in X1; discriminate. }
        destruct (String.eqb k1 "do"); [|discriminate]. destruct (read_body reader v1); cbn [rbind] in X1; discriminate. }
      assert (Bd : exists w, read_body reader w = Ok (b0 :: bs)).
      { unfold case_field in X3. destruct (String.eqb k3 "as"); [discriminate|].
        destruct (String.eqb k3 "named"). { destruct (read_string v3); cbn [rbind] in X3; discriminate. }
        destruct (String.eqb k3 "do"); [|discriminate]. exists v3. destruct (read_body reader v3); cbn [rbind] in X3; [|discriminate]. now injection X3 as _ ->. }
      destruct Bd as [w Bd]. generalize (body_back _ _ Bd T). apply ev_mono. intros m X.
      unfold case_json, read_case. cbn [fst snd].
      change (unmarked ?l) with l.
      cbn [rmapM]. unfold case_field at 1. cbn [String.eqb Ascii.eqb Bool.eqb rbind].
      unfold case_field at 1. cbn [String.eqb Ascii.eqb Bool.eqb rbind read_string].
      unfold case_field at 1. cbn [String.eqb Ascii.eqb Bool.eqb rbind read_string].
      rewrite X. cbn [rbind]. cbn [assoc String.eqb Ascii.eqb Bool.eqb]. rewrite Vx. cbn [rbind]. unfold make_case. rewrite St, Vx. reflexivity.
    Qed.

    (** a field that was read reads back *)
    Lemma kind_back k v x : read_kind E reader k v = Ok x -> (forall a, In a (slot_nodes x) -> tame a) ->
      x <> SPack None -> ev (fun m => read_kind E (read E m) k (slot_json k x) = Ok x).
    Proof using back B64.
      intros H T NP. destruct k; cbn [read_kind] in H.
      - destruct (read_int v) as [y|] eqn:R; cbn [rbind] in H; [|discriminate]. injection H as <-. apply ev_all; intros m.
        assert (read_int y = Ok y) as X. { destruct v; cbn in R; try discriminate; [injection R as <-; auto|]. destruct (_ && _)%bool eqn:C in R; [|discriminate]. injection R as <-. cbn. now rewrite C. }
        cbn [slot_json read_kind]. now rewrite X.
      - destruct (read_long v) as [y|] eqn:R; cbn [rbind] in H; [|discriminate]. injection H as <-. apply ev_all; intros m.
        assert (read_long y = Ok y) as X. { destruct v; cbn in R; try discriminate; [injection R as <-; auto|]. destruct (_ && _)%bool eqn:C in R; [|discriminate]. injection R as <-. cbn. now rewrite C. }
        cbn [slot_json read_kind]. now rewrite X.
      - destruct (read_float v) as [y|] eqn:R; cbn [rbind] in H; [|discriminate]. injection H as <-. apply ev_all; intros m.
        assert (exists f, y = VFlt f) as [f ->].
        { unfold read_float in R. destruct v; try discriminate; [..|injection R as <-; eauto];
            (destruct (py_float _); cbn [rbind] in R; [injection R as <-; eauto|discriminate]). }
        reflexivity.
      - destruct v; try discriminate. injection H as <-. apply ev_all; intros m. reflexivity.
      - destruct v; try discriminate. cbn [read_string rbind] in H. destruct (b64_dec E s) as [r|] eqn:D; cbn [rbind] in H; [|discriminate]. injection H as <-.
        apply ev_all; intros m. cbn [slot_json read_kind read_string rbind]. now rewrite B64.
      - injection H as <-. apply ev_all; intros m. cbn [slot_json read_kind]. now rewrite strip_twice.
      - destruct (read_map (read_expr reader) v) as [m0|] eqn:R; cbn [rbind] in H; [|discriminate]. injection H as <-.
        generalize (map_back _ (fun m => read_expr (read E m)) _ _ expr_back R T). apply ev_mono. intros m X. cbn [slot_json read_kind]. now rewrite X.
      - destruct (read_body reader v) as [l|] eqn:R; cbn [rbind] in H; [|discriminate]. injection H as <-.
        generalize (body_back _ _ R T). apply ev_mono. intros m X. cbn [slot_json read_kind]. now rewrite X.
      - destruct v; try discriminate. cbn [read_array] in H. destruct (rmapM (read_expr reader) l) as [l'|] eqn:R; cbn [rbind] in H; [|discriminate]. injection H as <-.
        generalize (exprs_back _ _ R T). apply ev_mono. intros m X. cbn [slot_json read_kind read_array]. now rewrite X.
      - destruct (read_expr reader v) as [a|] eqn:R; cbn [rbind] in H; [|discriminate]. injection H as <-.
        generalize (expr_back _ _ R (T a (or_introl eq_refl))). apply ev_mono. intros m X. cbn [slot_json read_kind]. now rewrite X.
      - destruct v; try discriminate. cbn [read_array] in H. destruct (rmapM (read_expr reader) l) as [l'|] eqn:R; cbn [rbind] in H; [|discriminate].
        destruct (any_else l') as [[]|] eqn:Ae; cbn [rbind] in H; try discriminate. injection H as <-.
        generalize (exprs_back _ _ R T). apply ev_mono. intros m X. cbn [slot_json read_kind read_array]. rewrite X. cbn [rbind]. now rewrite Ae.
      - destruct v; try discriminate. cbn [read_array] in H. destruct (rmapM (read_case reader) l) as [l'|] eqn:R; cbn [rbind] in H; [|discriminate]. injection H as <-.
        assert (F : Forall (fun c => ev (fun m => read_case (read E m) (case_json c) = Ok c)) l').
        { apply Forall_forall. intros c I. destruct (rmapM_in _ _ _ _ R I) as (w & _ & Rw). eapply case_back; eauto.
          intros a Ia. apply T. cbn [slot_nodes]. apply in_concat. exists (snd c). split; auto. now apply in_map. }
        apply ev_Forall in F. revert F. apply ev_mono. intros m F. cbn [slot_json read_kind read_array]. now rewrite (rmapM_back _ _ _ F).
      - destruct v; try discriminate. injection H as <-. apply ev_all; intros m. reflexivity.
      - destruct v; try discriminate.
        + cbn [read_array] in H. destruct (rmapM (read_expr reader) l) as [l'|] eqn:R; cbn [rbind] in H; [|discriminate]. injection H as <-.
          generalize (exprs_back _ _ R T). apply ev_mono. intros m X. cbn [slot_json read_kind read_array]. now rewrite X.
        + destruct (read_map (read_expr reader) (VDict d)) as [m0|] eqn:R; cbn [rbind] in H; [|discriminate]. injection H as <-.
          generalize (map_back _ (fun m => read_expr (read E m)) _ _ expr_back R T). apply ev_mono. intros m X. cbn [slot_json read_kind]. now rewrite X.
      - destruct v; try discriminate. cbn [read_array] in H. destruct (rmapM read_param l) as [l'|] eqn:R; cbn [rbind] in H; [|discriminate]. injection H as <-.
        apply ev_all; intros m. cbn [slot_json read_kind read_array]. rewrite rmapM_back; [reflexivity|].
        apply Forall_forall. intros c I. destruct (rmapM_in _ _ _ _ R I) as (w & _ & Rw). eapply param_back; eauto.
      - destruct (reader v) as [a|] eqn:R; cbn [rbind] in H; [|discriminate]. injection H as <-.
        generalize (back _ _ R (T a (or_introl eq_refl))). apply ev_mono. intros m X. cbn [slot_json read_kind]. now rewrite X.
      - destruct (read_map reader v) as [m0|] eqn:R; cbn [rbind] in H; [|discriminate]. injection H as <-.
        generalize (map_back _ (fun m => read E m) _ _ back R T). apply ev_mono. intros m X. cbn [slot_json read_kind]. now rewrite X.
      - destruct v; try discriminate. cbn [read_array] in H. destruct (rmapM read_string_or_int l) as [l'|] eqn:R; cbn [rbind] in H; [|discriminate]. injection H as <-.
        apply ev_all; intros m. cbn [slot_json read_kind read_array].
        assert (X : rmapM read_string_or_int (map (fun v => v) l') = Ok l').
        { apply rmapM_back. apply Forall_forall. intros c I. destruct (rmapM_in _ _ _ _ R I) as (w & _ & Rw). destruct w; try discriminate; injection Rw as <-; reflexivity. }
        rewrite map_id in X. now rewrite X.
      - destruct v; try discriminate. cbn [read_array] in H. destruct (rmapM (read_single read_string) l) as [l'|] eqn:R; cbn [rbind] in H; [|discriminate]. injection H as <-.
        apply ev_all; intros m. cbn [slot_json read_kind read_array]. rewrite rmapM_back; [reflexivity|].
        apply Forall_forall. intros c I. destruct (rmapM_in _ _ _ _ R I) as (w & _ & Rw). eapply text_single_back; eauto.
      - destruct v; try (injection H as <-; congruence). destruct (rmapM (read_single (read_expr reader)) l) as [l'|] eqn:R; cbn [rbind] in H; [|discriminate]. injection H as <-.
        assert (F : Forall (fun c => ev (fun m => read_single (read_expr (read E m)) (VDict [(fst c, write E (snd c))]) = Ok c)) l').
        { apply Forall_forall. intros c I. destruct (rmapM_in _ _ _ _ R I) as (w & _ & Rw). apply (single_back _ (fun m => read_expr (read E m)) _ _ expr_back Rw).
          apply T. cbn [slot_nodes]. now apply in_map. }
        apply ev_Forall in F. revert F. apply ev_mono. intros m F. cbn [slot_json read_kind]. now rewrite (rmapM_back _ _ _ F).
    Qed.

    (** the value of a field, as [make] gets it *)
    Lemma get_back {A} (pick : slot -> option A) k kd fs d (a : A) :
      rmapM (read_field E reader) (unmarked d) = Ok fs -> get pick k fs = Ok a -> assoc k kinds = Some kd ->
      exists x, pick x = Some a /\ ((forall b, In b (slot_nodes x) -> tame b) -> x <> SPack None ->
        ev (fun m => read_field E (read E m) (k, slot_json kd x) = Ok (k, x))).
    Proof using back B64.
      intros R G K. unfold get in G. destruct (assoc k fs) as [x|] eqn:A1; [|discriminate].
      destruct (pick x) as [a'|] eqn:P; [|discriminate]. injection G as ->. exists x. split; auto. intros T NP.
      apply assoc_In in A1. destruct (rmapM_in _ _ _ _ R A1) as ([k' v] & _ & X). unfold read_field in X.
      assert (k' = k) as ->.
      { destruct (assoc k' kinds). { destruct (read_kind E reader k0 v); cbn [rbind] in X; [now injection X|discriminate]. }
        destruct v; try (destruct (reader _); cbn [rbind] in X; [now injection X|discriminate]).
        destruct (rmapM reader l); cbn [rbind] in X; [now injection X|discriminate]. }
      rewrite K in X. destruct (read_kind E reader kd v) as [y|] eqn:Rk; cbn [rbind] in X; [|discriminate]. injection X as ->.
      generalize (kind_back _ _ _ Rk T NP). apply ev_mono. intros m Y. unfold read_field. rewrite K, Y. reflexivity.
    Qed.
  End OneReader.
End Back.
