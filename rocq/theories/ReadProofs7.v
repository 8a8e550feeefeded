(** What the reader gives is well-formed (C46). *)
From Verif Require Import Base PyNum ScopeModel ReadModel ReadSpec ReadSpec2 ReadProofs ReadProofs2 ReadProofs6.
From Coq Require Import Ascii.
Open Scope string_scope.
Open Scope list_scope.
Open Scope Z_scope.

Lemma wf_intro a : shape a -> (forall b, In b (parts a) -> well_formed b) -> well_formed a.
Proof. intros S P b W. inversion W; subst; auto. eapply P; eauto. Qed.
Lemma in_concat_map {A} (l : list (A * list node)) b : In b (concat (map snd l)) -> exists c, In c l /\ In b (snd c).
Proof. intros I. apply in_concat in I as (x & J & I). apply in_map_iff in J as (c & <- & J). eauto. Qed.

(** what a field holds after it is read *)
Definition slot_ok (k : kind) (x : slot) : Prop :=
  match x with
  | SVal v => match k with
              | KInt => int_or_bool v | KLong => long_or_bool v | KBool => is_bool v | KJson => clean v
              | KFloat => exists f, v = VFlt f | _ => False end
  | SText _ => True
  | SList l => exprs l /\ (k = KCond -> any_else l = Ok false)
  | SMap m => no_mark m /\ (k <> KArgMap -> exprs (map snd m))
  | SNode a => k <> KArg -> is_expr a = true
  | SCases l => forall t x b, In (t, x, b) l -> clean t /\ symbol x /\ is_body b
  | SParams l => forall x t, In (x, t) l -> symbol x /\ clean t
  | SFilter l => forall v, In v l -> (exists s, v = VStr s) \/ (exists z, v = VInt z) \/ is_bool v
  | SPairs l => no_mark l
  | SPack (Some l) => expr_map l
  | SPack None => True
  | SCall _ => True
  end.

Section Reader.
  Context (E : outside) (reader : val -> res node).
  Hypothesis WF : forall v a, reader v = Ok a -> well_formed a.

  Lemma expr_wf v a : read_expr reader v = Ok a -> is_expr a = true /\ well_formed a.
  Proof using WF.
    unfold read_expr. intros H. destruct (reader v) as [b|] eqn:R; cbn [rbind] in H; [|discriminate].
    destruct (is_expr b) eqn:X; [|discriminate]. injection H as <-. split; [auto|eapply WF; eauto].
  Qed.
  Lemma exprs_wf l l' : rmapM (read_expr reader) l = Ok l' -> exprs l' /\ forall a, In a l' -> well_formed a.
  Proof using WF. intros H. split; intros a I; destruct (rmapM_in _ _ _ _ H I) as (v & _ & R); now apply expr_wf in R. Qed.
  Lemma args_wf l l' : rmapM reader l = Ok l' -> forall a, In a l' -> well_formed a.
  Proof using WF. intros H a I. destruct (rmapM_in _ _ _ _ H I) as (v & _ & R). eapply WF; eauto. Qed.
  Lemma body_wf v l : read_body reader v = Ok l -> exprs l /\ forall a, In a l -> well_formed a.
  Proof using WF.
    intros H. assert (One : (a <- read_expr reader v ;; Ok [a]) = Ok l -> exprs l /\ forall a, In a l -> well_formed a).
    { clear H. intros H. destruct (read_expr reader v) as [b|] eqn:R; cbn [rbind] in H; [|discriminate]. injection H as <-.
      apply expr_wf in R. split; intros a [<-|[]]; tauto. }
    destruct v; try exact (One H). now apply exprs_wf in H.
  Qed.
  Lemma map_keys {A} (f : val -> res A) v m : read_map f v = Ok m -> no_mark m /\ forall k x, In (k, x) m -> exists u, f u = Ok x.
  Proof.
    intros H. destruct v as [| | | | | | |d]; try discriminate. cbn [read_map] in H.
    split; intros k x I; destruct (rmapM_in _ _ _ _ H I) as ([k' u] & J & R); cbn [fst snd] in R;
      destruct (f u) eqn:F; cbn [rbind] in R; try discriminate; injection R as -> ->.
    - now apply unmarked_in in J as [_ J].
    - eauto.
  Qed.
  Lemma single_keys {A} (f : val -> res A) v p : read_single f v = Ok p -> fst p <> "@" /\ exists u, f u = Ok (snd p).
  Proof.
    unfold read_single. intros H. destruct (read_map f v) as [m|] eqn:R; cbn [rbind] in H; [|discriminate].
    destruct m as [|[k x] [|]]; try discriminate. injection H as <-. apply map_keys in R as [N F]. cbn [fst snd].
    split; [eapply N; simpl; eauto|eapply F; simpl; eauto].
  Qed.
  Lemma case_wf v t x b : read_case reader v = Ok (t, x, b) -> (clean t /\ symbol x /\ is_body b) /\ forall a, In a b -> well_formed a.
  Proof using WF.
    intros H. destruct v as [| | | | | | |d]; try discriminate. cbn [read_case] in H.
    destruct (rmapM (case_field reader) (unmarked d)) as [fs|] eqn:R; cbn [rbind] in H; [|discriminate].
    destruct (match assoc "named" fs with Some (SText x) => if valid_symbol x then Ok tt else syntax | _ => Ok tt end) eqn:V; cbn [rbind] in H; [|discriminate].
    destruct (assoc "as" fs) as [[t'| | | | | | | | | |]|] eqn:A1; try discriminate.
    destruct (assoc "named" fs) as [[|x'| | | | | | | | |]|] eqn:A2; try discriminate.
    destruct (assoc "do" fs) as [[| |b'| | | | | | | |]|] eqn:A3; try discriminate.
    unfold make_case in H. destruct b' as [|b0 bs]; [discriminate|]. destruct (valid_symbol x') eqn:Vx; [|discriminate]. injection H as <- <- <-.
    apply assoc_In in A1, A3. destruct (rmapM_in _ _ _ _ R A1) as ([k1 v1] & _ & X1). destruct (rmapM_in _ _ _ _ R A3) as ([k3 v3] & _ & X3).
    assert (St : clean t').
    { unfold case_field in X1. destruct (String.eqb k1 "as"). { injection X1 as _ <-. apply strip_clean. }
      destruct (String.eqb k1 "named"). { destruct (read_string v1); cbn [rbind] in X1; discriminate. }
      destruct (String.eqb k1 "do"); [|discriminate]. destruct (read_body reader v1); cbn [rbind] in X1; discriminate. }
    assert (Bd : exists w, read_body reader w = Ok (b0 :: bs)).
    { unfold case_field in X3. destruct (String.eqb k3 "as"); [discriminate|].
      destruct (String.eqb k3 "named"). { destruct (read_string v3); cbn [rbind] in X3; discriminate. }
      destruct (String.eqb k3 "do"); [|discriminate]. exists v3. destruct (read_body reader v3); cbn [rbind] in X3; [|discriminate]. now injection X3 as _ ->. }
    destruct Bd as [w Bd]. apply body_wf in Bd as [X W]. split; [|auto]. split; [auto|]. split; [now apply symbol_iff|]. split; [discriminate|auto].
  Qed.
  Lemma param_wf v x t : read_param v = Ok (x, t) -> symbol x /\ clean t.
  Proof.
    intros H. destruct v as [| | | | | | |d]; try discriminate. cbn [read_param] in H.
    destruct (unmarked d) as [|[x' t'] [|]]; try discriminate. destruct (valid_symbol x') eqn:V; [|discriminate]. injection H as <- <-.
    split; [now apply symbol_iff|apply strip_clean].
  Qed.
  Lemma int_ok v y : read_int v = Ok y -> int_or_bool y.
  Proof.
    unfold read_int. destruct v; try discriminate; [intros H; injection H as <-; left; eexists; eauto|].
    destruct (_ && _)%bool eqn:C; [|discriminate]. intros H. injection H as <-. right. eexists. split; eauto. apply andb_true_iff in C. lia.
  Qed.
  Lemma long_ok v y : read_long v = Ok y -> long_or_bool y.
  Proof.
    unfold read_long. destruct v; try discriminate; [intros H; injection H as <-; left; eexists; eauto|].
    destruct (_ && _)%bool eqn:C; [|discriminate]. intros H. injection H as <-. right. eexists. split; eauto. apply andb_true_iff in C. lia.
  Qed.

  Lemma kind_wf k v x : read_kind E reader k v = Ok x -> slot_ok k x /\ forall a, In a (slot_nodes x) -> well_formed a.
  Proof using WF.
    intros H. destruct k; cbn [read_kind] in H.
    - destruct (read_int v) eqn:R; cbn [rbind] in H; [|discriminate]. injection H as <-. split; [|intros b []]. eapply int_ok; eauto.
    - destruct (read_long v) eqn:R; cbn [rbind] in H; [|discriminate]. injection H as <-. split; [|intros b []]. eapply long_ok; eauto.
    - destruct (read_float v) eqn:R; cbn [rbind] in H; [|discriminate]. injection H as <-. split; [|intros b []]. cbn [slot_ok].
      unfold read_float in R. destruct v; try discriminate; [..|injection R as <-; eauto];
        (destruct (py_float _); cbn [rbind] in R; [injection R as <-; eauto|discriminate]).
    - destruct (read_string v) eqn:R; cbn [rbind] in H; [|discriminate]. injection H as <-. split; [exact I|intros b []].
    - destruct (read_string v) as [s|] eqn:R; cbn [rbind] in H; [|discriminate]. destruct (b64_dec E s); cbn [rbind] in H; [|discriminate].
      injection H as <-. split; [exact I|intros b []].
    - injection H as <-. split; [apply strip_clean|intros b []].
    - destruct (read_map (read_expr reader) v) as [m|] eqn:R; cbn [rbind] in H; [|discriminate]. injection H as <-.
      apply map_keys in R as [N F]. cbn [slot_nodes slot_ok]. split; [split; [auto|]|].
      + intros _ a I. apply in_map_iff in I as ((k & a') & <- & I). destruct (F _ _ I) as [u R]. now apply expr_wf in R.
      + intros a I. apply in_map_iff in I as ((k & a') & <- & I). destruct (F _ _ I) as [u R]. now apply expr_wf in R.
    - destruct (read_body reader v) as [l|] eqn:R; cbn [rbind] in H; [|discriminate]. injection H as <-. apply body_wf in R as [X W].
      split; [split; [auto|discriminate]|auto].
    - destruct v; try discriminate. cbn [read_array] in H. destruct (rmapM (read_expr reader) l) as [l'|] eqn:R; cbn [rbind] in H; [|discriminate].
      injection H as <-. apply exprs_wf in R as [X W]. split; [split; [auto|discriminate]|auto].
    - destruct (read_expr reader v) as [a|] eqn:R; cbn [rbind] in H; [|discriminate]. injection H as <-. apply expr_wf in R as [X W].
      split; [intros _; auto|intros b [<-|[]]; auto].
    - destruct v; try discriminate. cbn [read_array] in H. destruct (rmapM (read_expr reader) l) as [l'|] eqn:R; cbn [rbind] in H; [|discriminate].
      destruct (any_else l') as [[]|] eqn:Ae; cbn [rbind] in H; try discriminate. injection H as <-. apply exprs_wf in R as [X W].
      split; [split; auto|auto].
    - destruct v; try discriminate. cbn [read_array] in H. destruct (rmapM (read_case reader) l) as [l'|] eqn:R; cbn [rbind] in H; [|discriminate].
      injection H as <-. split.
      + intros t x b I. destruct (rmapM_in _ _ _ _ R I) as (w & _ & Rw). now apply case_wf in Rw.
      + intros a I. apply in_concat_map in I as ([[t x] b] & I & J). destruct (rmapM_in _ _ _ _ R I) as (w & _ & Rw). apply case_wf in Rw. now apply Rw.
    - destruct (read_bool v) eqn:R; cbn [rbind] in H; [|discriminate]. injection H as <-. split; [|intros b []]. destruct v; try discriminate.
      injection R as <-. eexists; eauto.
    - destruct v; try discriminate.
      + cbn [read_array] in H. destruct (rmapM (read_expr reader) l) as [l'|] eqn:R; cbn [rbind] in H; [|discriminate]. injection H as <-.
        apply exprs_wf in R as [X W]. split; [split; [auto|discriminate]|auto].
      + destruct (read_map (read_expr reader) (VDict d)) as [m|] eqn:R; cbn [rbind] in H; [|discriminate]. injection H as <-.
        apply map_keys in R as [N F]. cbn [slot_nodes slot_ok]. split; [split; [auto|]|].
        * intros _ a I. apply in_map_iff in I as ((k & a') & <- & I). destruct (F _ _ I) as [u R]. now apply expr_wf in R.
        * intros a I. apply in_map_iff in I as ((k & a') & <- & I). destruct (F _ _ I) as [u R]. now apply expr_wf in R.
    - destruct v; try discriminate. cbn [read_array] in H. destruct (rmapM read_param l) as [l'|] eqn:R; cbn [rbind] in H; [|discriminate].
      injection H as <-. split; [|intros b []]. intros x t I. destruct (rmapM_in _ _ _ _ R I) as (w & _ & Rw). eapply param_wf; eauto.
    - destruct (reader v) as [a|] eqn:R; cbn [rbind] in H; [|discriminate]. injection H as <-. split; [intros N; congruence|].
      intros b [<-|[]]. eapply WF; eauto.
    - destruct (read_map reader v) as [m|] eqn:R; cbn [rbind] in H; [|discriminate]. injection H as <-. apply map_keys in R as [N F].
      split; [split; [auto|congruence]|]. intros a I. apply in_map_iff in I as ((k & a') & <- & I). destruct (F _ _ I) as [u R]. eapply WF; eauto.
    - destruct v; try discriminate. cbn [read_array] in H. destruct (rmapM read_string_or_int l) as [l'|] eqn:R; cbn [rbind] in H; [|discriminate].
      injection H as <-. split; [|intros b []]. intros x I. destruct (rmapM_in _ _ _ _ R I) as (w & _ & Rw).
      destruct w; try discriminate; injection Rw as <-; [right; right|right; left|left]; eexists; eauto.
    - destruct v; try discriminate. cbn [read_array] in H. destruct (rmapM (read_single read_string) l) as [l'|] eqn:R; cbn [rbind] in H; [|discriminate].
      injection H as <-. split; [|intros b []]. intros k x I. destruct (rmapM_in _ _ _ _ R I) as (w & _ & Rw). now apply single_keys in Rw.
    - destruct v as [| | | | | |l|]; try (injection H as <-; split; [exact Logic.I|intros ? []]).
      destruct (rmapM (read_single (read_expr reader)) l) as [l'|] eqn:R; cbn [rbind] in H; [|discriminate]. injection H as <-.
      assert (F : forall k a, In (k, a) l' -> k <> "@" /\ is_expr a = true /\ well_formed a).
      { intros k a I. destruct (rmapM_in _ _ _ _ R I) as (w & _ & Rw). apply single_keys in Rw as [N (u & Ru)]. split; auto. now apply expr_wf in Ru. }
      split; [split|].
      + intros k a I. now apply F in I.
      + intros a I. apply in_map_iff in I as ((k & a') & <- & I). now apply F in I.
      + intros a I. apply in_map_iff in I as ((k & a') & <- & I). now apply F in I.
  Qed.
  Lemma get_wf {A} (pick : slot -> option A) k kd fs d (a : A) :
    rmapM (read_field E reader) (unmarked d) = Ok fs -> get pick k fs = Ok a -> assoc k kinds = Some kd ->
    exists x, pick x = Some a /\ slot_ok kd x /\ forall b, In b (slot_nodes x) -> well_formed b.
  Proof using WF.
    intros R G K. unfold get in G. destruct (assoc k fs) as [x|] eqn:A1; [|discriminate].
    destruct (pick x) as [a'|] eqn:P; [|discriminate]. injection G as ->. exists x. split; auto.
    apply assoc_In in A1. destruct (rmapM_in _ _ _ _ R A1) as ([k' v] & _ & X). pose proof (read_field_key _ _ _ _ _ _ X) as <-.
    unfold read_field in X. rewrite K in X. destruct (read_kind E reader kd v) as [y|] eqn:Rk; cbn [rbind] in X; [|discriminate]. injection X as ->.
    eapply kind_wf; eauto.
  Qed.
End Reader.

Lemma ifs_plain l : forallb is_if l = true -> any_else l = Ok false -> forall a, In a l -> exists p yes, a = AIf p yes None.
Proof.
  induction l as [|a l IH]; intros F A b I; [destruct I|]. cbn [forallb any_else] in *. apply andb_true_iff in F as [Fa F].
  destruct a; try discriminate. cbn [else_of] in A. destruct no; [discriminate|]. destruct I as [<-|I]; [eauto|]. now apply IH.
Qed.
Lemma negative_code c : int_or_bool c -> negative c = true -> int_in (-2147483648) (-1) c.
Proof. intros [[b ->]|(z & -> & B)] N; [discriminate|]. apply Z.ltb_lt in N. exists z. split; [auto|lia]. Qed.

Lemma assoc_key {A} (l : list (string * A)) k : In k (map fst l) -> assoc k l <> None.
Proof.
  induction l as [|[k2 x] l IH]; cbn [map fst In assoc]; [tauto|]. intros [->|I]; [rewrite String.eqb_refl; discriminate|].
  destruct (String.eqb k k2); [discriminate|auto].
Qed.

Section Trees.
  Context (E : outside).
  Ltac binds H :=
    repeat match type of H with
           | rbind ?m _ = Ok _ => let G := fresh "G" in destruct m eqn:G; cbn [rbind] in H; [|discriminate H]
           end.
  Ltac field n wf R :=
    match goal with
    | G : get ?pick ?k ?fs = Ok ?a |- _ =>
        let kd := eval vm_compute in (match assoc k kinds with Some kd => kd | None => KJson end) in
        let x := fresh "x" in let P := fresh "P" in let S := fresh "S" in let W := fresh "W" in
        destruct (get_wf E (read E n) wf pick k kd fs _ a R G eq_refl) as (x & P & S & W);
        clear G; destruct x; try discriminate P
    end.
  Lemma dict_wf n d a : (forall v a, read E n v = Ok a -> well_formed a) -> read_dict E (read E n) d = Ok a -> well_formed a.
  Proof using.
    intros wf H. unfold read_dict in H.
    destruct (rmapM (read_field E (read E n)) (unmarked d)) as [fs|] eqn:R; cbn [rbind] in H; [|discriminate].
    destruct (check_name valid_symbol "foreach" fs) as [[]|] eqn:C1; cbn [rbind] in H; [|discriminate].
    destruct (check_name valid_symbol "forkey" fs) as [[]|] eqn:C2; cbn [rbind] in H; [|discriminate].
    destruct (check_name valid_symbol "forval" fs) as [[]|] eqn:C3; cbn [rbind] in H; [|discriminate].
    destruct (check_name valid_function "fcn" fs) as [[]|] eqn:C4; cbn [rbind] in H; [|discriminate].
    unfold make in H. destruct (find _ forms) as [[names build]|] eqn:Fd.
    - apply find_some in Fd as [I _]. cbn [forms In] in I.
      repeat (destruct I as [I|I]; [injection I as <- <-; cbn beta in H; binds H|]); [..|destruct I].
      all: try (match type of H with match ?l with Some _ => _ | None => _ end = Ok _ => match l with assoc _ _ => fail 1 | _ => destruct l; [binds H|discriminate H] end end).
      all: try (match type of H with match assoc "new" ?fs with _ => _ end = Ok _ =>
             let A := fresh "A" in destruct (assoc "new" fs) as [[]|] eqn:A; try discriminate H end).
      all: try match goal with A : assoc "new" ?fs = Some (SMap ?m) |- _ => assert (gmap "new" fs = Ok m) by (unfold gmap, get; rewrite A; reflexivity); clear A end.
      all: try match goal with A : assoc "new" ?fs = Some (SList ?m) |- _ => assert (glist "new" fs = Ok m) by (unfold glist, get; rewrite A; reflexivity); clear A end.
      all: try (match type of H with (if ?c then _ else _) = Ok _ => destruct c eqn:Q; [|discriminate H]; binds H end).
      all: repeat match goal with
                  | G : gtext "foreach" _ = Ok _, C : check_name _ "foreach" _ = Ok _ |- _ => let N := fresh "N" in pose proof (checked _ _ _ _ _ G C) as N; unfold gtext in G
                  | G : gtext "forkey" _ = Ok _, C : check_name _ "forkey" _ = Ok _ |- _ => let N := fresh "N" in pose proof (checked _ _ _ _ _ G C) as N; unfold gtext in G
                  | G : gtext "forval" _ = Ok _, C : check_name _ "forval" _ = Ok _ |- _ => let N := fresh "N" in pose proof (checked _ _ _ _ _ G C) as N; unfold gtext in G
                  | G : gtext "fcn" _ = Ok _, C : check_name _ "fcn" _ = Ok _ |- _ => let N := fresh "N" in pose proof (checked _ _ _ _ _ G C) as N; unfold gtext in G
                  | G : some ?l = Ok _ |- _ => let NE := fresh "NE" in apply some_ok in G as [-> NE]
                  end.
      all: repeat match goal with C : check_name _ _ _ = Ok _ |- _ => clear C end; unfold gval, gtext, glist, gmap, gnode, gflt, gbool, gcases, gparams, gfilter, gpairs, gpack in *.
      all: repeat field n wf R.
      all: match goal with H : Ok _ = Ok _ |- _ => injection H as <- | _ => idtac end.
      all: repeat match goal with P : _ = Some _ |- _ => cbn beta iota in P; first [injection P as P; subst | match type of P with match ?v with _ => _ end = _ => destruct v; try discriminate P end] end.
      all: cbn [slot_ok slot_nodes] in *; unfold expr_map in *.
      all: repeat match goal with H : _ /\ _ |- _ => destruct H end.
      all: repeat match goal with
                  | H : KCond = KCond -> _ |- _ => specialize (H eq_refl)
                  | H : ?k <> ?k' -> _ |- _ => specialize (H ltac:(discriminate))
                  | H : valid_symbol _ = true |- _ => apply symbol_iff in H
                  | H : valid_function _ = true |- _ => apply function_iff in H
                  end.
      all: apply wf_intro;
        [ cbn [shape]; unfold is_body, expr_map; repeat match goal with |- _ /\ _ => split end; auto;
          try (intros ? Eq; first [discriminate Eq | injection Eq as <-; auto])
        | cbn [parts opt_list app In]; intros b J; rewrite ?app_nil_r, ?in_app_iff in J; cbn [In] in J; rewrite ?in_app_iff in J;
          repeat match goal with H : _ \/ _ |- _ => destruct H as [H|H] end; subst; try contradiction; auto;
          try (match goal with W : forall b, In b [?a] -> well_formed b |- well_formed ?a => apply W; left; reflexivity end) ].
      all: try match goal with |- exprs [] => intros ? [] end.
      all: try (apply ifs_plain; assumption).
      all: try (apply negative_code; assumption).
    - destruct fs as [|[k x] [|]]; try discriminate. destruct (existsb (String.eqb k) reserved) eqn:Rs; [discriminate|].
      binds H. injection H as <-. unfold gcall, get in G. cbn [assoc] in G. rewrite String.eqb_refl in G.
      destruct x; try discriminate. injection G as ->.
      destruct (rmapM_in _ _ _ _ R (or_introl eq_refl)) as ([k' v] & J & X). pose proof (read_field_key _ _ _ _ _ _ X) as ->.
      apply unmarked_in in J as [_ J].
      assert (K : assoc k' kinds = None /\ exists l0, rmapM (read E n) l0 = Ok a0).
      { unfold read_field in X. destruct (assoc k' kinds) as [kd|].
        - exfalso. destruct (read_kind E (read E n) kd v) as [y|] eqn:Y; cbn [rbind] in X; [|discriminate]. injection X as ->.
          destruct kd; cbn [read_kind] in Y; try (destruct v; try discriminate Y); binds Y; try discriminate Y.
          all: match type of Y with (if ?c then _ else _) = _ => destruct c; discriminate Y end.
        - split; [reflexivity|].
          assert (One : (a <- read E n v ;; Ok (k', SCall [a])) = Ok (k', SCall a0) -> exists l0, rmapM (read E n) l0 = Ok a0).
          { intros Y. exists [v]. cbn [rmapM]. destruct (read E n v); cbn [rbind] in *; [|discriminate]. now injection Y as <-. }
          destruct v; try exact (One X). exists l. destruct (rmapM (read E n) l); cbn [rbind] in X; [|discriminate]. now injection X as <-. }
      destruct K as (K & l0 & Rl). apply wf_intro; [|exact (args_wf (read E n) wf _ _ Rl)]. split; [|auto].
      intros S. exact (assoc_key kinds k' S K).
  Qed.
  Lemma path_part_wf s : is_expr (path_part E s) = true /\ well_formed (path_part E s).
  Proof using.
    unfold path_part. destruct (int_of E s); (split; [reflexivity|apply wf_intro; [exact Logic.I|intros ? []]]).
  Qed.
  Theorem read_wf n : forall v a, read E n v = Ok a -> well_formed a.
  Proof using.
    induction n as [|n IH]; intros v a H; [discriminate|]. cbn [read] in H. destruct v as [|b|z|f|s|l|l|d].
    - injection H as <-. apply wf_intro; [exact Logic.I|intros ? []].
    - injection H as <-. apply wf_intro; [exact Logic.I|intros ? []].
    - destruct (_ && _)%bool in H. { injection H as <-. apply wf_intro; [exact Logic.I|intros ? []]. }
      destruct (_ && _)%bool eqn:C2 in H; [|discriminate]. injection H as <-. apply wf_intro; [|intros ? []].
      right. exists z. split; [auto|]. apply andb_true_iff in C2. lia.
    - injection H as <-. apply wf_intro; [exact Logic.I|intros ? []].
    - destruct (split_dots s) as [x rest]. assert (Wx : valid_symbol x = true -> well_formed (ARef x)).
      { intros V. apply wf_intro; [now apply symbol_iff|intros ? []]. }
      destruct rest as [|r rest].
      + destruct (valid_symbol x) eqn:V; [|discriminate]. injection H as <-. auto.
      + destruct (valid_symbol x) eqn:V; [|discriminate]. injection H as <-. apply wf_intro.
        * split; [reflexivity|]. split; [discriminate|]. intros a I. change (In a (map (path_part E) (r :: rest))) in I.
          apply in_map_iff in I as (q & <- & _). apply path_part_wf.
        * intros b [<-|I]; [auto|]. change (In b (map (path_part E) (r :: rest))) in I. apply in_map_iff in I as (q & <- & _). apply path_part_wf.
    - discriminate.
    - destruct l as [|[| | | |s| | |] [|]]; try discriminate. injection H as <-. apply wf_intro; [exact Logic.I|intros ? []].
    - eapply dict_wf; eauto.
  Qed.
End Trees.
