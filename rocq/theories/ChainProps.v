(** C79: a chain made from scoring engines does what the engines do one after the other. *)
From Verif Require Import Base ScopeModel ScopeProofs CoreModel EngineModel CoreDemo ChainModel ChainSpec ChainNames ChainSim ChainProofs ChainProofs2 ChainProofs3.
Open Scope string_scope.
Open Scope list_scope.
Open Scope Z_scope.

(** All of it: the engines begin, are given the values vs one after the other, and end. The chain does the same, gives the same
    values, and holds the same cells and pools, each under the name of its step. *)
Theorem C79_chain_is_pipeline : forall L name ps H inst meta o n ob oe vs ss1 outs ss2 ss3,
  plain_lib L -> chain name None ps = Ok H -> unlimited o -> Forall dicts ps ->
  Forall (action_moves (counting ps)) ps ->
  apart ob (among common_names) -> code_moves ob (among common_names) (among common_names) f_begin 0 ps ->
  apart oe (among engine_names) -> code_moves oe (among engine_names) (known (counting ps)) f_end 0 ps ->
  let es := map (engine_of L (VStr (h_name H)) inst meta o) ps in
  let C := chain_engine L inst meta o H in
  begin_all n es (map (fun e => load (snd e)) es) = Some ss1 -> pipeline n es vs ss1 = Some (outs, ss2) -> end_all n es ss2 = Some ss3 ->
  exists m s1 s2 s3, begin (fst C) (snd C) m (load (snd C)) = Done (Ok tt) s1 /\ holds_all 0 ps ss1 s1 /\
    one_engine m C vs s1 = Some (outs, s2) /\ holds_all 0 ps ss2 s2 /\
    end_ (fst C) (snd C) m s2 = Done (Ok tt) s3 /\ holds_all 0 ps ss3 s3.
Proof.
  intros L name ps H inst meta o n ob oe vs ss1 outs ss2 ss3 PL Hc Ho Hd Hm [B1 B2 B3] Hb [E1 E2 E3] He es C Y1 Y2 Y3.
  assert (Y1' : begin_all n (map (eng L (VStr (h_name H)) inst meta o) ps) (loads ps H inst meta o) = Some ss1).
  { rewrite <- Y1. unfold es, loads. now rewrite map_map. }
  destruct (chain_begin L PL name ps H Hc inst meta o Ho Hd n ob ss1 B1 B2 B3 Hb Y1') as (m1 & s1 & X1 & T1 & _).
  destruct (chain_actions L PL name ps H Hc inst meta o Ho Hd n Hm vs ss1 outs ss2 s1 T1 Y2) as (m2 & s2 & X2 & T2).
  destruct (chain_end L PL name ps H Hc inst meta o Ho Hd n oe ss2 ss3 s2 E1 E2 E3 He T2 Y3) as (m3 & s3 & X3 & T3 & _).
  exists (m1 + m2 + m3)%nat, s1, s2, s3. split; [|split; [exact (ti_holds _ _ _ _ _ _ T1)|split; [|split; [exact (ti_holds _ _ _ _ _ _ T2)|split; [|exact T3]]]]].
  - eapply begin_mono; [|exact X1]. lia.
  - eapply one_mono; [|exact X2]. lia.
  - eapply end_mono; [|exact X3]. lia.
Qed.

(** A chain of maps: if a step fails, so does the chain, with the same exception. *)
Theorem C79_chain_fails : forall L name qs p rest H inst meta o n ob vs ss1 outs ssa s ssb ssa2 v w x s3,
  let ps := qs ++ p :: rest in
  plain_lib L -> chain name None ps = Ok H -> counting ps = true -> unlimited o -> Forall dicts ps ->
  Forall (action_moves true) ps ->
  apart ob (among common_names) -> code_moves ob (among common_names) (among common_names) f_begin 0 ps ->
  let es := map (engine_of L (VStr (h_name H)) inst meta o) in
  let C := chain_engine L inst meta o H in
  begin_all n (es ps) (map (fun e => load (snd e)) (es ps)) = Some ss1 -> pipeline n (es ps) vs ss1 = Some (outs, ssa ++ s :: ssb) -> length ssa = length qs ->
  pipeline n (es qs) [v] ssa = Some ([w], ssa2) ->
  action (with_fcns L (f_fcns p)) (doc_of (VStr (h_name H)) inst meta o p) n w s = Done (Raise x) s3 ->
  exists m s1 s2 s4, begin (fst C) (snd C) m (load (snd C)) = Done (Ok tt) s1 /\ one_engine m C vs s1 = Some (outs, s2) /\
    action (fst C) (snd C) m v s2 = Done (Raise x) s4 /\ s_started s4 = s_started s2 + 1 /\ s_finished s4 = s_finished s2.
Proof.
  intros L name qs p rest H inst meta o n ob vs ss1 outs ssa s ssb ssa2 v w x s3 ps PL Hc Hct Ho Hd Hm [B1 B2 B3] Hb es C Y1 Y2 Hlen Y3 Y4.
  assert (Y1' : begin_all n (map (eng L (VStr (h_name H)) inst meta o) ps) (loads ps H inst meta o) = Some ss1).
  { rewrite <- Y1. unfold es, loads. now rewrite map_map. }
  destruct (chain_begin L PL name ps H Hc inst meta o Ho Hd n ob ss1 B1 B2 B3 Hb Y1') as (m1 & s1 & X1 & T1 & _).
  assert (Hm' : Forall (action_moves (counts ps)) ps) by (change (counts ps) with (counting ps); now rewrite Hct).
  destruct (chain_actions L PL name ps H Hc inst meta o Ho Hd n Hm' vs ss1 outs _ s1 T1 Y2) as (m2 & s2 & X2 & T2).
  destruct (chain_failure L PL name ps H Hc inst meta o Ho Hd n qs p rest ssa s ssb ssa2 v w x s3 s2 Hct Hm eq_refl Hlen T2 Y3 Y4) as (m3 & s4 & X3 & X4 & X5).
  exists (m1 + m2 + m3)%nat, s1, s2, s4. split; [|split; [|split]].
  - eapply begin_mono; [|exact X1]. lia.
  - eapply one_mono; [|exact X2]. lia.
  - eapply action_mono; [|exact X3]. lia.
  - auto.
Qed.

(** Nothing is lost or overwritten, whatever the steps are called: even in a chain of two copies of one engine. The cell (pool) c of step i has
    its own place, apart from those of the other steps and from the cells in which the chain keeps the name, the counters and so on. *)
Theorem C79_names_apart : forall name ps H, chain name None ps = Ok H -> Forall dicts ps ->
  (forall i j p q c d, nth_error ps i = Some p -> nth_error ps j = Some q -> prefix_cell i (f_name p) c = prefix_cell j (f_name q) d -> i = j /\ c = d) /\
  (forall i p c, nth_error ps i = Some p -> assoc (prefix_cell i (f_name p) c) (h_cells H) = assoc c (f_cells p)) /\
  (forall i p c, nth_error ps i = Some p -> assoc (prefix_pool i (f_name p) c) (h_pools H) = option_map fst (assoc c (f_pools p))) /\
  length (h_cells H) = (5 + list_sum (map (fun p => length (f_cells p)) ps))%nat /\
  length (h_pools H) = list_sum (map (fun p => length (f_pools p)) ps) /\
  length (h_fcns H) = list_sum (map (fun p => S (length (f_fcns p))) ps).
Proof.
  intros name ps H Hc Hd. destruct (chain_inv _ _ _ Hc) as (_ & _ & _ & Hf & _ & _ & _ & Hce & Hpo). split; [|split; [|split; [|split; [|split]]]].
  - intros i j p q c d Hi Hj E. assert (i = j) by (eapply label_index; exact E). subst j. split; [reflexivity|]. rewrite Hi in Hj. injection Hj as ->. now apply append_inj in E.
  - intros i p c Hi. rewrite Hce, fill_assoc by now apply cells_NoDup. rewrite (cell_of_step ps 0 Hd i p i Hi eq_refl). destruct (assoc c (f_cells p)); [reflexivity|].
    apply assoc_None. cbn [map fst]. apply label_given_in.
  - intros i p c Hi. rewrite Hpo, fill_assoc by now apply pools_NoDup. rewrite (pool_of_step ps 0 Hd i p i Hi eq_refl).
    assert (X : assoc c (map (fun q => (fst q, fst (snd q))) (f_pools p)) = option_map fst (assoc c (f_pools p))).
    { induction (f_pools p) as [|[k v] l IH]; cbn; [reflexivity|]. destruct (String.eqb c k); auto. }
    rewrite X. destruct (assoc c (f_pools p)); reflexivity.
  - rewrite Hce, fill_app; [|now apply cells_NoDup|].
    + rewrite app_length. cbn [length]. f_equal. clear. generalize 0%nat. induction ps as [|p ps IH]; intros i; cbn [all_cells map list_sum fold_right]; [reflexivity|].
      rewrite app_length, map_length, IH. reflexivity.
    + intros x I. apply cells_labelled in I. destruct I as (j & a & y & _ & ->). cbn [map fst]. apply label_given_in.
  - rewrite Hpo, fill_app; [|now apply pools_NoDup|auto]. cbn [app]. clear. generalize 0%nat. induction ps as [|p ps IH]; intros i; cbn [all_pools map list_sum fold_right]; [reflexivity|].
    rewrite app_length, map_length, IH. reflexivity.
  - rewrite Hf, fill_app; [|now apply fcns_NoDup|auto]. cbn [app]. clear. generalize (method_of ps) as w. generalize 0%nat.
    induction ps as [|p ps IH]; intros i w; cbn [all_fcns map list_sum fold_right]; [reflexivity|].
    rewrite app_length, IH. cbn [step_fcns length]. now rewrite map_length.
Qed.

(** *** Examples *)
Definition lib : env := demo_env [] (fun _ => 0).
Lemma lib_plain : plain_lib lib.
Proof.
  split; cbn.
  - intros f g. unfold demo_lib. destruct (String.eqb f "+"); [|destruct (String.eqb f "<"); [|destruct (String.eqb f "apply"); [|destruct (String.eqb f "&&"); discriminate]]];
    intros [= <-] a b Hab; (destruct Hab as [|x y a b H1 Hab]; [reflexivity|]);
    (destruct Hab as [|x' y' a b H2 Hab]; [destruct x as [[]|], y; cbn in H1; try contradiction; subst; reflexivity|]);
    (destruct Hab as [|x'' y'' a b H3 Hab]; destruct x as [[]|], y; cbn in H1; try contradiction; subst; try reflexivity;
     destruct x' as [[]|], y'; cbn in H2; try contradiction; subst; reflexivity).
  - reflexivity.
  - intros f g a. unfold demo_lib. destruct (String.eqb f "+"); [|destruct (String.eqb f "<"); [|destruct (String.eqb f "apply"); [|destruct (String.eqb f "&&"); discriminate]]];
    intros [= <-]; destruct a as [|[[]|] [|[[]|] [|]]]; try apply q_raise; try apply q_ret; apply q_call; intros []; constructor.
  - intros f p. unfold demo_lib. destruct (String.eqb f "+"); [discriminate|]. destruct (String.eqb f "<"); [discriminate|]. destruct (String.eqb f "apply"); [discriminate|].
    destruct (String.eqb f "&&"); [|discriminate]. intros [= <-]. apply q_force. intros [v|e]; [|apply q_raise]. destruct v as [|[]| | | | | |]; try apply q_ret. apply q_force. intros []; constructor.
  - intros. apply q_raise.
  - discriminate.
Qed.
(** Two steps with a cell of the same name, functions, begin and end. *)
Definition one : pfa := Pfa "one" MMap [ELet [("a", int 7)]; ECellTo "x" [] (AExpr (ERef "a"))]
  [ECellTo "x" [] (AFcn ["old"] [ECall "u.twice" [AExpr (add (ERef "old") (int 1))]]); add (ECellGet "x" []) (ERef "input")] []
  [("twice", (["y"], [add (ERef "y") (ERef "y")]))] [("x", CellDecl (VInt 0) false true)] [].
Definition two : pfa := Pfa "two" MMap [ELet [("b", int 100)]; ECellTo "x" [] (AExpr (ERef "b"))]
  [ELet [("k", ERef "actionsStarted")]; ECellTo "x" [] (AFcn ["old"] [add (ERef "old") (int 1)]); add (ERef "input") (add (ERef "k") (ECellGet "x" []))]
  [ECellTo "x" [] (AExpr (ERef "actionsFinished"))] [] [("x", CellDecl (VInt 0) false false)] [].
(** An engine that emits twice, and one that counts. *)
Definition twice : pfa := Pfa "twice" MEmit [] [ECall "emit" [AExpr (ERef "input")]; ECall "u.again" [AExpr (ERef "input")]] []
  [("again", (["y"], [ECall "emit" [AExpr (add (ERef "y") (int 1))]]))] [] [].
Definition count : pfa := Pfa "count" MMap [] [ECellTo "x" [] (AFcn ["old"] [add (ERef "old") (ERef "input")]); ECellGet "x" []] []
  [] [("x", CellDecl (VInt 0) false false)] [].
Definition sep (ps : list pfa) (nm : string) (vs : list val) : option (list val) :=
  let es := map (engine_of lib (VStr nm) (VInt 0) (VDict []) CoreDemo.no_limit) ps in
  match begin_all 30 es (map (fun e => load (snd e)) es) with
  | Some ss => option_map fst (pipeline 30 es vs ss)
  | None => None
  end.
Definition chained_out (ps : list pfa) (nm : string) (vs : list val) : option (list val) :=
  match chain (Some nm) None ps with
  | Ok H => let C := chain_engine lib (VInt 0) (VDict []) CoreDemo.no_limit H in
            match begin (fst C) (snd C) 60 (load (snd C)) with
            | Done (Ok _) s => option_map fst (one_engine 60 C vs s)
            | _ => None
            end
  | Raise _ => None
  end.
Definition own_begin (i : nat) (x : string) : bool := match i with O => among ["a"; "old"; "y"] x | S O => among ["b"; "k"] x | _ => false end.
Definition no_own (i : nat) (x : string) : bool := false.
Lemma own_begin_apart : apart own_begin (among common_names).
Proof.
  split.
  - intros [|[|i]] x; cbn [own_begin]; try discriminate; intros Hx; apply among_In in Hx; cbn in Hx; repeat destruct Hx as [<-|Hx]; try reflexivity; contradiction.
  - intros [|[|i]] [|[|j]] x Hij; cbn [own_begin]; try congruence; try discriminate; auto; intros Hx; apply among_In in Hx; cbn in Hx; repeat destruct Hx as [<-|Hx]; try reflexivity; contradiction.
  - intros [|[|i]] j; reflexivity.
Qed.
Lemma no_own_apart g : apart no_own g.
Proof. split; discriminate || reflexivity. Qed.
Ltac moves F := exists (among F); split; [split; [reflexivity| |]|auto];
  [cbn; intros f ps body I Hf; repeat destruct I as [I|I]; try contradiction; injection I as <- <- <-; first [discriminate Hf|reflexivity]
  |intros f Hf; apply among_In in Hf; cbn in Hf |- *; repeat destruct Hf as [Hf|Hf]; try contradiction; try discriminate; injection Hf as <-; auto].
Ltac keys := repeat split; cbn; repeat constructor; cbn; intuition discriminate.
Lemma one_two_dicts : Forall dicts [one; two].
Proof. repeat constructor; cbn; intuition discriminate. Qed.
Lemma one_two_moves : Forall (action_moves true) [one; two].
Proof.
  repeat constructor; try discriminate; try (cbn; intuition discriminate).
  - moves ["+"; "u.twice"].
  - moves ["+"].
Qed.
Lemma one_two_begin : code_moves own_begin (among common_names) (among common_names) f_begin 0 [one; two].
Proof.
  split; [|split; [|exact I]]; (split; [keys|]).
  - moves [""].
  - moves [""].
Qed.
Lemma one_two_end : code_moves no_own (among engine_names) (known true) f_end 0 [one; two].
Proof.
  split; [|split; [|exact I]]; (split; [keys|]).
  - moves [""].
  - moves [""].
Qed.
Example C79_chain_is_pipeline_example :
  (exists H, chain (Some "c") None [one; two] = Ok H /\ h_name H = "c") /\ plain_lib lib /\ unlimited CoreDemo.no_limit /\ Forall dicts [one; two] /\
  counting [one; two] = true /\ Forall (action_moves true) [one; two] /\
  apart own_begin (among common_names) /\ code_moves own_begin (among common_names) (among common_names) f_begin 0 [one; two] /\
  apart no_own (among engine_names) /\ code_moves no_own (among engine_names) (known true) f_end 0 [one; two] /\
  sep [one; two] "c" [VInt 1; VInt 2] = Some [VInt 119; VInt 140] /\ chained_out [one; two] "c" [VInt 1; VInt 2] = Some [VInt 119; VInt 140].
Proof.
  split; [eexists; split; reflexivity|]. split; [exact lib_plain|]. split; [unfold unlimited; cbn; lia|]. split; [exact one_two_dicts|]. split; [reflexivity|].
  split; [exact one_two_moves|]. split; [exact own_begin_apart|]. split; [exact one_two_begin|]. split; [apply no_own_apart|]. split; [exact one_two_end|].
  split; vm_compute; reflexivity.
Qed.
Example C79_emit_example : Forall dicts [twice; count; twice] /\ counting [twice; count; twice] = false /\ Forall (action_moves false) [twice; count; twice] /\
  code_moves no_own (among common_names) (among common_names) f_begin 0 [twice; count; twice] /\
  sep [twice; count; twice] "c" [VInt 1; VInt 5] = Some [VInt 1; VInt 2; VInt 3; VInt 4; VInt 8; VInt 9; VInt 14; VInt 15] /\
  chained_out [twice; count; twice] "c" [VInt 1; VInt 5] = Some [VInt 1; VInt 2; VInt 3; VInt 4; VInt 8; VInt 9; VInt 14; VInt 15].
Proof.
  assert (Ht : action_moves false twice).
  { split; [discriminate|]. split; [keys|]. exists (among ["emit"; "+"; "u.again"]). split; [split; [reflexivity| |]|discriminate].
    - cbn. intros f ps body I Hf. repeat destruct I as [I|I]; try contradiction. injection I as <- <- <-. reflexivity.
    - intros f Hf. apply among_In in Hf. cbn in Hf |- *. repeat destruct Hf as [Hf|Hf]; try contradiction; try discriminate. injection Hf as <-. auto. }
  split; [repeat constructor; cbn; intuition discriminate|]. split; [reflexivity|]. split; [|split; [|split; vm_compute; reflexivity]].
  - constructor; [exact Ht|]. constructor; [|constructor; [exact Ht|constructor]]. split; [discriminate|]. split; [keys|]. moves ["+"].
  - split; [|split; [|split; [|exact I]]]; (split; [keys|]; exists (fun _ => false); split; [split; [reflexivity| |]|reflexivity]; discriminate).
Qed.
Print Assumptions C79_chain_is_pipeline.

(** *** Where a chain does something else *)
(** After a failure: the chain takes back the cells of all its steps; the engines before the failing one have no reason to. *)
Definition grow : pfa := Pfa "grow" MMap [] [ECellTo "x" [] (AFcn ["old"] [add (ERef "old") (int 1)]); ECellGet "x" []] [] [] [("x", CellDecl (VInt 0) false true)] [].
Definition choke : pfa := Pfa "choke" MMap [] [EIf (ECall "<" [AExpr (ERef "input"); AExpr (int 2)]) [EError "no" None] None; ERef "input"] [] [] [] [].
(** what the last engine of the two, or the chain, answers to each value *)
Definition sep2 (p q : pfa) (v1 v2 : val) : option (res val * res val) :=
  let e1 := engine_of lib (VStr "c") (VInt 0) (VDict []) CoreDemo.no_limit p in
  let e2 := engine_of lib (VStr "c") (VInt 0) (VDict []) CoreDemo.no_limit q in
  match action (fst e1) (snd e1) 30 v1 (load (snd e1)) with
  | Done (Ok w1) s1 =>
      match action (fst e2) (snd e2) 30 w1 (load (snd e2)) with
      | Done r1 t1 => match action (fst e1) (snd e1) 30 v2 s1 with
                      | Done (Ok w2) s2 => match action (fst e2) (snd e2) 30 w2 t1 with Done r2 _ => Some (r1, r2) | _ => None end
                      | _ => None
                      end
      | _ => None
      end
  | _ => None
  end.
Definition chain2 (p q : pfa) (v1 v2 : val) : option (res val * res val) :=
  match chain (Some "c") None [p; q] with
  | Ok H => let C := chain_engine lib (VInt 0) (VDict []) CoreDemo.no_limit H in
            match begin (fst C) (snd C) 60 (load (snd C)) with
            | Done (Ok _) s => match history (fst C) (snd C) 60 [CAction v1; CAction v2] s with Some ([r1; r2], _) => Some (r1, r2) | _ => None end
            | _ => None
            end
  | Raise _ => None
  end.
Theorem C79_after_failure_refuted : exists p q v1 v2, Forall (action_moves true) [p; q] /\
  sep2 p q v1 v2 = Some (Raise (UserErr "no" None), Ok (VInt 2)) /\ chain2 p q v1 v2 = Some (Raise (UserErr "no" None), Raise (UserErr "no" None)).
Proof.
  exists grow, choke, VNull, VNull. split; [|split; vm_compute; reflexivity].
  repeat constructor; try discriminate; try (cbn; intuition discriminate); [moves ["+"]|moves ["<"]].
Qed.
(** An exception of a later step comes up through the emit of an earlier one, where a try block can catch it. *)
Definition careful : pfa := Pfa "careful" MEmit [] [ETry [ECall "emit" [AExpr (ERef "input")]] None] [] [] [] [].
Theorem C79_try_refuted : exists p q v, Forall (action_moves false) [p; q] /\ sep [p; q] "c" [v] = None /\ chained_out [p; q] "c" [v] = Some [].
Proof.
  exists careful, choke, (VInt 1). split; [|split; vm_compute; reflexivity].
  constructor; [|constructor; [|constructor]].
  - split; [discriminate|]. split; [keys|]. exists (among ["emit"]). split; [split; [reflexivity| |]|discriminate].
    + intros f ps body [].
    + intros f Hf. apply among_In in Hf. cbn in Hf. destruct Hf as [Hf|[]]. discriminate.
  - split; [discriminate|]. split; [keys|]. moves ["<"].
Qed.
(** In a chain with an emit engine the counters are those of the chain, not of the step. *)
Definition counter : pfa := Pfa "counter" MMap [] [ERef "actionsStarted"] [] [] [] [].
Theorem C79_counters_refuted : exists ps v, Forall (action_moves true) ps /\ sep ps "c" [v] = Some [VInt 1; VInt 2] /\ chained_out ps "c" [v] = Some [VInt 1; VInt 1].
Proof.
  exists [twice; counter], (VInt 1). split; [|split; vm_compute; reflexivity].
  constructor; [|constructor; [|constructor]].
  - split; [discriminate|]. split; [keys|]. exists (among ["emit"; "+"; "u.again"]). split; [split; [reflexivity| |]|discriminate].
    + cbn. intros f ps body I Hf. repeat destruct I as [I|I]; try contradiction. injection I as <- <- <-. reflexivity.
    + intros f Hf. apply among_In in Hf. cbn in Hf |- *. repeat destruct Hf as [Hf|Hf]; try contradiction; try discriminate. injection Hf as <-. auto.
  - split; [discriminate|]. split; [keys|]. moves ["+"].
Qed.
(** Deletion from a pool keeps the old name of the pool, which the chain does not have (chain.py has no case for PoolDel). *)
Definition forget : pfa := Pfa "forget" MMap [] [EPoolDel "p" (str "a"); ERef "input"] [] [] [] [("p", (PoolDecl [("a", VInt 1)] false false, false))].
Theorem C79_pool_del_refuted : exists p v, dicts p /\ sep [p] "c" [v] = Some [v] /\ chained_out [p] "c" [v] = None.
Proof. exists forget, (VInt 1). split; [keys|split; vm_compute; reflexivity]. Qed.
(** Functions written in place do not see the cells that stand for the variables of the engine. *)
Definition inline : pfa := Pfa "inline" MMap [] [ECall "apply" [AFcn ["y"] [ERef "name"]; AExpr (ERef "input")]] [] [] [] [].
Theorem C79_inline_refuted : exists p v, dicts p /\ sep [p] "c" [v] = Some [VStr "c"] /\ chained_out [p] "c" [v] = None.
Proof. exists inline, (VInt 1). split; [keys|split; vm_compute; reflexivity]. Qed.
(** Functions called by a computed name are not found under their new names. *)
Definition byname : pfa := Pfa "byname" MMap [] [ECallUser (str "f") ["f"] [ERef "input"]] [] [("f", (["y"], [add (ERef "y") (int 1)]))] [] [].
Theorem C79_call_refuted : exists p, dicts p /\ sep [p] "c" [VInt 1] = Some [VInt 2] /\ chained_out [p] "c" [VInt 1] = None.
Proof. exists byname. split; [keys|split; vm_compute; reflexivity]. Qed.
(** No chain can be given a version number. *)
Theorem C79_version_refuted : forall name v p ps, Forall (fun p => f_method p <> MFold) (p :: ps) -> chain name (Some v) (p :: ps) = Raise (PyErr "PFASyntaxException").
Proof.
  intros name v p ps Hf. unfold chain. destruct (existsb (fun p => is_fold (f_method p)) (p :: ps)) eqn:Ef; [|reflexivity].
  exfalso. apply existsb_exists in Ef. destruct Ef as (q & I & E). rewrite Forall_forall in Hf. specialize (Hf q I). destruct (f_method q); try discriminate. congruence.
Qed.
(** An engine with a pool that is stored in the document itself cannot be put into a chain. *)
Theorem C79_embedded_pool_refuted : forall name ps p q, Forall (fun p => f_method p <> MFold) ps -> In p ps -> In q (f_pools p) -> snd (snd q) = true ->
  chain name None ps = Raise (PyErr "TypeError").
Proof.
  intros name ps p q Hf I J Eq. unfold chain. destruct ps as [|p0 ps]; [contradiction|].
  destruct (existsb (fun p => is_fold (f_method p)) (p0 :: ps)) eqn:Ef.
  - exfalso. apply existsb_exists in Ef. destruct Ef as (q' & I' & E'). rewrite Forall_forall in Hf. specialize (Hf q' I'). destruct (f_method q'); try discriminate. congruence.
  - assert (X : existsb (fun p => existsb (fun q => snd (snd q)) (f_pools p)) (p0 :: ps) = true); [|now rewrite X].
    apply existsb_exists. exists p. split; [exact I|]. apply existsb_exists. exists q. auto.
Qed.
Example C79_chain_fails_example : exists H s,
  chain (Some "c") None ([grow] ++ choke :: []) = Ok H /\ counting [grow; choke] = true /\
  action (with_fcns lib (f_fcns choke)) (doc_of (VStr "c") (VInt 0) (VDict []) CoreDemo.no_limit choke) 30 (VInt 1) (load (doc_of (VStr "c") (VInt 0) (VDict []) CoreDemo.no_limit choke)) = Done (Raise (UserErr "no" None)) s.
Proof. do 2 eexists. split; [reflexivity|]. split; [reflexivity|]. vm_compute. reflexivity. Qed.
Example C79_names_apart_example : exists H, chain (Some "c") None [one; one] = Ok H /\ Forall dicts [one; one] /\ length (h_cells H) = 7%nat /\ length (h_fcns H) = 4%nat.
Proof. eexists. split; [reflexivity|]. split; [|split; reflexivity]. repeat constructor; cbn; intuition discriminate. Qed.
Print Assumptions C79_chain_fails.
Print Assumptions C79_names_apart.
Print Assumptions C79_after_failure_refuted.
Print Assumptions C79_try_refuted.
Print Assumptions C79_counters_refuted.
Print Assumptions C79_pool_del_refuted.
Print Assumptions C79_inline_refuted.
Print Assumptions C79_call_refuted.
Print Assumptions C79_version_refuted.
Print Assumptions C79_embedded_pool_refuted.
