(** Induction over expressions and arguments together. *)
From Verif Require Import Base ScopeModel CoreModel.
Open Scope list_scope.

Inductive node := NE (e : expr) | NA (a : arg).
Definition opt_list {A} (o : option (list A)) : list A := match o with Some l => l | None => [] end.
(** the immediate parts, in the order of the collect methods of pfaast.py *)
Definition parts (n : node) : list node :=
  let named {A} (bs : list (A * expr)) := map (fun b => NE (snd b)) bs in
  match n with
  | NE e =>
      match e with
      | ELit _ _ | ERef _ | EDoc | EError _ _ => []
      | ECall _ args => map NA args
      | ECallUser nm _ args => NE nm :: map NE args
      | ENewObj fs => named fs
      | ENewArr es | EDo es | ETry es _ | ELog es => map NE es
      | ELet bs | ESet bs => named bs
      | EAttrGet e path => NE e :: map NE path
      | EAttrTo e path to => NE e :: map NE path ++ [NA to]
      | ECellGet _ path | EPoolGet _ path => map NE path
      | ECellTo _ path to => map NE path ++ [NA to]
      | EPoolTo _ path to init => map NE path ++ [NA to; NE init]
      | EPoolDel _ e => [NE e]
      | EIf p t el => NE p :: map NE t ++ map NE (opt_list el)
      | ECond its el => flat_map (fun it => NE (fst it) :: map NE (snd it)) its ++ map NE (opt_list el)
      | EWhile p body => NE p :: map NE body
      | EDoUntil body p => map NE body ++ [NE p]
      | EFor init p upd body => named init ++ NE p :: named upd ++ map NE body
      | EForeach _ e body _ => NE e :: map NE body
      | EForkeyval _ _ e body => NE e :: map NE body
      | ECast e _ cases _ => NE e :: flat_map (fun c => map NE (snd c)) cases
      | EUpcast e _ => [NE e]
      | EIfNotNull bs t el => named bs ++ map NE t ++ map NE (opt_list el)
      | EPack es => named es
      | EUnpack e _ t el => NE e :: map NE t ++ map NE (opt_list el)
      end
  | NA a =>
      match a with
      | AExpr e => [NE e]
      | AFcn _ body => map NE body
      | ARef _ => []
      | AFill _ fills => map (fun b => NA (snd b)) fills
      end
  end.

Section Ind.
  Variable P : node -> Prop.
  Hypothesis H : forall n, Forall P (parts n) -> P n.
  Lemma node_expr : forall e, P (NE e)
  with node_arg : forall a, P (NA a).
  Proof.
    - intros e. apply H.
      destruct e; cbn [parts];
        repeat (first [apply Forall_nil | apply Forall_cons | apply Forall_app; split]);
        try apply node_expr; try apply node_arg.
      all: try match goal with
        | |- Forall P (map NE (opt_list ?o)) => destruct o as [l|]; cbn [opt_list]; [|constructor]
        end.
      all: try match goal with
        | |- Forall P (map _ ?l) => induction l as [|y0 l0 IHl]; cbn [map]; constructor; [|exact IHl]
        end.
      all: try apply node_expr; try apply node_arg.
      all: try (destruct y0 as [? y0]; apply node_expr).
      + induction its as [|[p t] its IH]; cbn [flat_map]; [constructor|]. apply Forall_app. split; [|exact IH].
        cbn [fst snd]. constructor; [apply node_expr|]. induction t as [|x t IHt]; cbn [map]; constructor; [apply node_expr|exact IHt].
      + induction cases as [|[c t] its IH]; cbn [flat_map]; [constructor|]. apply Forall_app. split; [|exact IH].
        cbn [fst snd]. induction t as [|x t IHt]; cbn [map]; constructor; [apply node_expr|exact IHt].
    - intros a. apply H. destruct a; cbn [parts].
      + constructor; [apply node_expr|constructor].
      + induction body as [|x l IHl]; cbn [map]; constructor; [apply node_expr|exact IHl].
      + constructor.
      + induction fills as [|[k x] l IHl]; cbn [map snd]; constructor; [apply node_arg|exact IHl].
  Qed.
  Theorem node_induction : forall n, P n.
  Proof. intros [e|a]; [apply node_expr|apply node_arg]. Qed.
End Ind.
