(** Every tree that was read reads back from what the writer makes of it (C45). *)
From Verif Require Import Base PyNum ScopeModel ReadModel ReadSpec ReadProofs.
From Coq Require Import Ascii.
Open Scope string_scope.
Open Scope list_scope.
Open Scope Z_scope.

Lemma checked valid k fs s u : gtext k fs = Ok s -> check_name valid k fs = Ok u -> valid s = true.
Proof.
  unfold gtext, get, check_name. destruct (assoc k fs) as [[|t| | | | | | | | |]|]; try discriminate.
  intros H. injection H as ->. destruct (valid s); [auto|discriminate].
Qed.
Lemma some_ok {A} (l l' : list A) : some l = Ok l' -> l' = l /\ l <> [].
Proof. destruct l; [discriminate|]. intros H. injection H as <-. split; [auto|discriminate]. Qed.
Lemma some_id {A} (l : list A) : l <> [] -> some l = Ok l.
Proof. destruct l; [congruence|reflexivity]. Qed.
Lemma int32_reads E m z : -2147483648 <= z <= 2147483647 -> read E (S m) (VInt z) = Ok (AInt (VInt z)).
Proof. intros [A B]. cbn [read]. apply Z.leb_le in A, B. now rewrite A, B. Qed.
Lemma read_field_key E reader k v k' x : read_field E reader (k, v) = Ok (k', x) -> k' = k.
Proof.
  unfold read_field. intros X. destruct (assoc k kinds). { destruct (read_kind E reader k0 v); cbn [rbind] in X; [now injection X|discriminate]. }
  destruct v; try (destruct (reader _); cbn [rbind] in X; [now injection X|discriminate]).
  destruct (rmapM reader l); cbn [rbind] in X; [now injection X|discriminate].
Qed.

(** read_dict on the fields the writer made *)
Lemma read_dict_of E reader d fs a : (forall k v, In (k, v) d -> k <> "@") -> rmapM (read_field E reader) d = Ok fs ->
  check_name valid_symbol "foreach" fs = Ok tt -> check_name valid_symbol "forkey" fs = Ok tt ->
  check_name valid_symbol "forval" fs = Ok tt -> check_name valid_function "fcn" fs = Ok tt ->
  make fs = Ok a -> read_dict E reader d = Ok a.
Proof. intros U R C1 C2 C3 C4 M. unfold read_dict. rewrite (unmarked_id _ U), R. cbn [rbind]. rewrite C1, C2, C3, C4. exact M. Qed.

Lemma make_cond l : make [("cond", SList l)] = if forallb is_if l then l <- some l ;; Ok (ACond l None) else syntax.
Proof. reflexivity. Qed.
Lemma make_cond_else l e : make [("cond", SList l); ("else", SList e)] =
  if forallb is_if l then l <- some l ;; e <- some e ;; Ok (ACond l (Some e)) else syntax.
Proof. reflexivity. Qed.
Lemma make_error s c : make [("error", SText s); ("code", SVal c)] = if negative c then Ok (AError s (Some c)) else syntax.
Proof. reflexivity. Qed.
Lemma make_call k x : find (fun f => same_keys (fst f) (keys [(k, x)])) forms = None ->
  make [(k, x)] = if existsb (String.eqb k) reserved then syntax else l <- gcall k [(k, x)] ;; Ok (ACall k l).
Proof. unfold make. now intros ->. Qed.

Section Back.
  Context (E : outside).
  Hypothesis B64 : base64_inverse E.
  Let tame (a : node) : Prop := plain_ints a.

  Ltac binds H :=
    repeat match type of H with
           | rbind ?m _ = Ok _ => let G := fresh "G" in destruct m eqn:G; cbn [rbind] in H; [|discriminate H]
           end.
  Ltac inside := let b := fresh in let J := fresh in
    intros b J; match goal with T : tame ?a |- _ => apply (tame_part a b T) end;
    cbn [slot_nodes parts opt_list app In] in J |- *; rewrite ?in_app_iff; cbn [In]; rewrite ?app_nil_r, ?in_app_iff in *; cbn [In] in *; tauto.
  (** one value that [make] took from a field *)
  Ltac field reader back R :=
    match goal with
    | G : get ?pick ?k ?fs = Ok ?a |- _ =>
        let kd := eval vm_compute in (match assoc k kinds with Some kd => kd | None => KJson end) in
        let x := fresh "x" in let P := fresh "P" in let F := fresh "F" in
        destruct (get_back E B64 reader back pick k kd fs _ a R G eq_refl) as (x & P & F);
        clear G; destruct x; try discriminate P
    end.
  Ltac collect :=
    match goal with
    | F1 : ev _, F2 : ev _ |- _ => let F := fresh "F" in pose proof (ev_and _ _ F1 F2) as F; clear F1 F2
    end.

  Lemma dict_back n d a : (forall v a, read E n v = Ok a -> tame a -> RT E a) ->
    read_dict E (read E n) d = Ok a -> tame a -> RT E a.
  Proof using B64.
    intros back H T. unfold read_dict in H.
    destruct (rmapM (read_field E (read E n)) (unmarked d)) as [fs|] eqn:R; cbn [rbind] in H; [|discriminate].
    destruct (check_name valid_symbol "foreach" fs) as [[]|] eqn:C1; cbn [rbind] in H; [|discriminate].
    destruct (check_name valid_symbol "forkey" fs) as [[]|] eqn:C2; cbn [rbind] in H; [|discriminate].
    destruct (check_name valid_symbol "forval" fs) as [[]|] eqn:C3; cbn [rbind] in H; [|discriminate].
    destruct (check_name valid_function "fcn" fs) as [[]|] eqn:C4; cbn [rbind] in H; [|discriminate].
    unfold make in H. destruct (find _ forms) as [[names build]|] eqn:Fd.
    - apply find_some in Fd as [I _]. cbn [forms In] in I.
      repeat (destruct I as [I|I]; [injection I as <- <-; cbn beta in H; binds H|]); [..|destruct I].
      all: try (match type of H with match ?l with Some _ => _ | None => _ end = Ok _ => match l with assoc _ _ => fail 1 | _ => destruct l; [binds H|discriminate H] end end).
      all: try (match type of H with match assoc "new" ?fs with _ => _ end = Ok _ =>
             let A := fresh "A" in destruct (assoc "new" fs) as [[]|] eqn:A; try discriminate H end).
      all: try match goal with A : assoc "new" ?fs = Some (SMap ?m) |- _ => assert (gmap "new" fs = Ok m) by (unfold gmap, get; rewrite A; reflexivity); clear A end.
      all: try match goal with A : assoc "new" ?fs = Some (SList ?m) |- _ => assert (glist "new" fs = Ok m) by (unfold glist, get; rewrite A; reflexivity); clear A end.
      all: try (match type of H with (if ?c then _ else _) = Ok _ => destruct c eqn:Q; [|discriminate H]; binds H end).
      all: repeat match goal with
                  | G : gtext "foreach" _ = Ok _, C : check_name _ "foreach" _ = Ok _ |- _ => let N := fresh "N" in pose proof (checked _ _ _ _ _ G C) as N; unfold gtext in G
                  | G : gtext "forkey" _ = Ok _, C : check_name _ "forkey" _ = Ok _ |- _ => let N := fresh "N" in pose proof (checked _ _ _ _ _ G C) as N; unfold gtext in G
                  | G : gtext "forval" _ = Ok _, C : check_name _ "forval" _ = Ok _ |- _ => let N := fresh "N" in pose proof (checked _ _ _ _ _ G C) as N; unfold gtext in G
                  | G : gtext "fcn" _ = Ok _, C : check_name _ "fcn" _ = Ok _ |- _ => let N := fresh "N" in pose proof (checked _ _ _ _ _ G C) as N; unfold gtext in G
                  | G : some ?l = Ok _ |- _ => let NE := fresh "NE" in apply some_ok in G as [-> NE]
                  end.
      all: repeat match goal with C : check_name _ _ _ = Ok _ |- _ => clear C end; unfold gval, gtext, glist, gmap, gnode, gflt, gbool, gcases, gparams, gfilter, gpairs, gpack in *.
      all: match goal with R : rmapM _ _ = Ok _, back : forall v a, read E ?n v = _ -> _ |- _ => repeat field (read E n) back R end.
      all: match goal with
           | H : Ok _ = Ok _ |- _ => injection H as <-
           | _ => idtac
           end.
      all: repeat match goal with P : _ = Some _ |- _ => cbn beta iota in P; first [injection P as P; subst | match type of P with match ?v with _ => _ end = _ => destruct v; try discriminate P end] end.
      all: repeat match goal with
                  | F : _ -> _ -> ev _ |- _ => specialize (F ltac:(inside) ltac:(discriminate)); cbn [slot_json] in F; unfold case_json in F
                  end.
      all: repeat collect.
      all: try match goal with |- RT E (ACellGet _ ?p) => is_var p; destruct p | |- RT E (ACellTo _ ?p _) => is_var p; destruct p end.
      all: try match goal with
           | F : ev _ |- RT E ?a =>
               let t := eval cbn [write dict_if app] in (write E a) in
               match t with VDict _ => idtac end;
               unfold RT; apply ev_S; revert F; apply ev_mono; intros mm F; repeat match goal with X : _ /\ _ |- _ => destruct X end;
               cbn [write dict_if app read];
               eapply read_dict_of;
               [ intros k v J; cbn [In] in J;
                 repeat match type of J with _ \/ _ => destruct J as [J|J]; [injection J as <- _; discriminate|] end; destruct J
               | cbn [rmapM];
                 repeat match goal with X : read_field _ _ _ = Ok _ |- _ => rewrite X; clear X; cbn [rbind] end;
                 repeat match goal with |- context [read_field E ?r (?k, VBool ?b)] =>
                   change (read_field E r (k, VBool b)) with (Ok (k, SVal (VBool b))); cbn [rbind] end; reflexivity
               | cbn [check_name assoc String.eqb Ascii.eqb Bool.eqb];
                 repeat match goal with X : _ = true |- _ => rewrite X end; reflexivity ..
               | idtac ]
           end.
      all: try match goal with |- make _ = _ =>
             first [ rewrite make_cond | rewrite make_cond_else | rewrite make_error | idtac ];
             try match goal with Q : _ = true |- _ => rewrite Q end;
             repeat match goal with NE : ?l <> [] |- _ => destruct l; [exfalso; now apply NE|clear NE] end; reflexivity end.
      + destruct (T a0) as (z & -> & B); [constructor|]. apply ev_S, ev_all. intros m. now apply int32_reads.
      + apply ev_S, ev_all. intros m. reflexivity.
    - destruct fs as [|[k x] [|]]; try discriminate. rename Fd into Nf. destruct (existsb (String.eqb k) reserved) eqn:Rs; [discriminate|].
      binds H. injection H as <-. unfold gcall, get in G. cbn [assoc] in G. rewrite String.eqb_refl in G.
      destruct x; try discriminate. injection G as ->.
      destruct (rmapM_in _ _ _ _ R (or_introl eq_refl)) as ([k' v] & J & X). pose proof (read_field_key _ _ _ _ _ _ X) as ->.
      apply unmarked_in in J as [_ J].
      assert (K : assoc k' kinds = None /\ exists l0, rmapM (read E n) l0 = Ok a0).
      { unfold read_field in X. destruct (assoc k' kinds) as [kd|].
        - exfalso. destruct (read_kind E (read E n) kd v) as [y|] eqn:Y; cbn [rbind] in X; [|discriminate]. injection X as ->.
          destruct kd; cbn [read_kind] in Y; try (destruct v; try discriminate Y); binds Y; try discriminate Y.
          all: match type of Y with (if ?c then _ else _) = _ => destruct c; discriminate Y end.
        - split; [reflexivity|].
          assert (One : (a <- read E n v ;; Ok (k', SCall [a])) = Ok (k', SCall a0) -> exists l0, rmapM (read E n) l0 = Ok a0).
          { intros Y. exists [v]. cbn [rmapM]. destruct (read E n v); cbn [rbind] in *; [|discriminate]. now injection Y as <-. }
          destruct v; try exact (One X). exists l. destruct (rmapM (read E n) l); cbn [rbind] in X; [|discriminate]. now injection X as <-. }
      destruct K as (K & l0 & Rl).
      assert (Ta : forall a, In a a0 -> tame a) by (intros a I; apply (tame_part _ _ T); exact I).
      generalize (args_back E (read E n) back _ _ Rl Ta). intros F. apply ev_S. revert F. apply ev_mono. intros m F.
      cbn [write read]. eapply read_dict_of with (fs := [(k', SCall a0)]).
      + intros k2 v2 [Eq|[]]. congruence.
      + cbn [rmapM]. unfold read_field. rewrite K, F. reflexivity.
      + unfold check_name. cbn [assoc]. destruct (String.eqb "foreach" k'); reflexivity.
      + unfold check_name. cbn [assoc]. destruct (String.eqb "forkey" k'); reflexivity.
      + unfold check_name. cbn [assoc]. destruct (String.eqb "forval" k'); reflexivity.
      + unfold check_name. cbn [assoc]. destruct (String.eqb "fcn" k'); reflexivity.
      + rewrite make_call by exact Nf. rewrite Rs. unfold gcall, get. cbn [assoc]. rewrite String.eqb_refl. reflexivity.
  Qed.

  (** the parts of a dotted name *)
  Lemma path_part_back s : tame (path_part E s) -> RT E (path_part E s).
  Proof using.
    unfold path_part. intros T. destruct (int_of E s) as [z|].
    - destruct (T (VInt z)) as (z' & Eq & B); [constructor|]. injection Eq as <-. apply ev_S, ev_all. intros m. now apply int32_reads.
    - apply ev_S, ev_all. intros m. reflexivity.
  Qed.
  (** Every tree that was read, and whose integers are plain, reads back from what the writer makes of it. *)
  Theorem read_back n : forall v a, read E n v = Ok a -> tame a -> RT E a.
  Proof using B64.
    induction n as [|n IH]; intros v a H T; [discriminate|]. cbn [read] in H. destruct v as [|b|z|f|s|l|l|d].
    - injection H as <-. apply ev_S, ev_all. reflexivity.
    - injection H as <-. apply ev_S, ev_all. reflexivity.
    - destruct (_ && _)%bool eqn:C in H.
      { injection H as <-. apply ev_S, ev_all. intros m. cbn [write read]. now rewrite C. }
      destruct (_ && _)%bool eqn:C2 in H; [|discriminate]. injection H as <-. apply ev_S, ev_S, ev_all. intros m.
      cbn [write read]. eapply read_dict_of with (fs := [("long", SVal (VInt z))]); try reflexivity.
      + intros k w [Eq|[]]. injection Eq as <- _. discriminate.
      + cbn [rmapM]. unfold read_field. cbn [assoc kinds String.eqb Ascii.eqb Bool.eqb read_kind read_long]. rewrite C2. reflexivity.
    - injection H as <-. apply ev_S, ev_all. reflexivity.
    - destruct (split_dots s) as [x rest] eqn:Sp. destruct (split_dots_head _ _ _ Sp) as [Sx _].
      assert (Rx : forall m, valid_symbol x = true -> read E (S m) (VStr x) = Ok (ARef x)).
      { intros m V. cbn [read]. now rewrite Sx, V. }
      destruct rest as [|r rest].
      + destruct (valid_symbol x) eqn:V; [|discriminate]. injection H as <-. apply ev_S, ev_all. intros m. cbn [write]. now apply Rx.
      + destruct (valid_symbol x) eqn:V; [|discriminate]. injection H as <-.
        set (ps := map (path_part E) (r :: rest)) in *.
        assert (F : ev (fun m => rmapM (read_expr (read E m)) (map (write E) ps) = Ok ps)).
        { assert (F : Forall (fun a => ev (fun m => read_expr (read E m) (write E a) = Ok a)) ps).
          { apply Forall_forall. intros a I. apply in_map_iff in I as (s' & <- & I').
            assert (Ta : tame (path_part E s')). { apply (tame_part _ _ T). right. change (In (path_part E s') (map (path_part E) (r :: rest))). now apply in_map. }
            generalize (path_part_back _ Ta). apply ev_mono. intros m X. unfold read_expr. rewrite X. cbn [rbind].
            unfold path_part. destruct (int_of E s'); reflexivity. }
          apply ev_Forall in F. revert F. apply ev_mono. intros m F. now apply rmapM_back. }
        apply ev_S, ev_S. destruct F as [m0 F]. exists m0. intros m L. specialize (F (S m) ltac:(lia)).
        change (write E (AAttrGet (ARef x) ps)) with (VDict [("attr", VStr x); ("path", VArr (map (write E) ps))]).
        cbn [read]. change (read_dict E (read E (S m)) [("attr", VStr x); ("path", VArr (map (write E) ps))] = Ok (AAttrGet (ARef x) ps)).
        eapply read_dict_of with (fs := [("attr", SNode (ARef x)); ("path", SList ps)]); try reflexivity.
        * intros k w [Eq|[Eq|[]]]; injection Eq as <- _; discriminate.
        * cbn [rmapM]. unfold read_field at 1. cbn [assoc kinds String.eqb Ascii.eqb Bool.eqb read_kind]. unfold read_expr at 1.
          rewrite Rx by auto. cbn [rbind is_expr]. unfold read_field at 1. cbn [assoc kinds String.eqb Ascii.eqb Bool.eqb read_kind read_array].
          rewrite F. reflexivity.
    - discriminate.
    - destruct l as [|[| | | |s| | |] [|]]; try discriminate. injection H as <-. apply ev_S, ev_S, ev_all. intros m. reflexivity.
    - eapply dict_back; eauto.
  Qed.
End Back.
