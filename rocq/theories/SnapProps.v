(** Snapshots (C58). *)
From Verif Require Import Base PyNum ScopeModel TypeModel TypeSpec TypeProofs TypeProofs2 TypeProps.
From Verif Require Import JsonModel JsonSpec JsonFuel JsonProofs JsonProofs2 JsonProps.
From Verif Require Import CoreModel EngineModel CoreDemo.
From Verif Require Import SnapModel SnapSpec SnapProofs SnapProofs2.
Open Scope string_scope.
Open Scope list_scope.
Open Scope Z_scope.

(** The types of the document are sound, and its zero can be read. *)
Definition sound {R} (P : parsers) (n : nat) (c : config R) : Prop :=
  good_defs (cf_defs c) /\
  (forall k a, assoc k (cf_cells c) = Some a -> good (ca_type a)) /\
  (forall k a, assoc k (cf_pools c) = Some a -> good (pa_type a)) /\
  (forall t z, cf_fold c = Some (t, z) -> exists v, decode n P (cf_defs c) t z = Ok v).
Definition no_fetch (source url : string) : res val := Raise (PyErr "FileNotFoundError").

(** The snapshot of an engine whose values all fit their types can be loaded, and every cell and every pool item is
    restored: Python's == finds no difference, and the flags are the same. *)
Theorem C58_restores {R} P fetch n (e : engine R) :
  sound P n (en_config e) -> own e -> holds (stored n (cf_defs (en_config e))) e ->
  exists c s e', snapshot e = Ok c /\ from_ast P fetch n empty c = Ok (s, e') /\ restored e e'.
Proof.
  intros ((WD & UD & ND) & Gc & Gp & Z) O [Hc Hp].
  destruct (reload P fetch e n O Z same) as (c & s & e' & Sn & L & Rr & Rd & Cs & Ps).
  - intros k x a Hk Ha. specialize (Hc k x a Hk Ha). destruct (Gc k a Ha) as (W & U & _). split; [eapply stored_plain, Hc|now apply stored_decode].
  - intros k x a i v Hk Ha Hi. specialize (Hp k x a i v Hk Ha Hi). destruct (Gp k a Ha) as (W & U & _). split; [eapply stored_plain, Hp|now apply stored_decode].
  - exists c, s, e'. split; [exact Sn|]. split; [exact L|]. split; [exact Cs|]. split; [|auto].
    intros k. specialize (Ps k). destruct (assoc k (en_pools e)) as [x|], (assoc k (en_pools e')) as [y|]; try exact Ps. destruct Ps as [F Q]. split; [exact F|].
    clear - Q. induction Q as [|[i v] [j w] d d' [E S] Q IH]; intros k; cbn [assoc]; [exact I|]. cbn [fst snd] in E, S. subst j. destruct (String.eqb k i); [exact S|apply IH].
Qed.

(** If the values are as decoding leaves them (fields in order, floats as floats), they are restored exactly. *)
Theorem C58_exact {R} P fetch n (e : engine R) :
  sound P n (en_config e) -> own e -> holds (canonical n (cf_defs (en_config e))) e ->
  exists c s e', snapshot e = Ok c /\ from_ast P fetch n empty c = Ok (s, e') /\ identical e e'.
Proof.
  intros ((WD & UD & ND) & Gc & Gp & Z) O [Hc Hp].
  destruct (reload P fetch e n O Z (fun v w => w = v)) as (c & s & e' & Sn & L & Rr & Rd & Cs & Ps).
  - intros k x a Hk Ha. specialize (Hc k x a Hk Ha). destruct (Gc k a Ha) as (W & U & _). split; [eapply canonical_plain, Hc|]. eexists. split; [|reflexivity]. now apply canonical_decode.
  - intros k x a i v Hk Ha Hi. specialize (Hp k x a i v Hk Ha Hi). destruct (Gp k a Ha) as (W & U & _). split; [eapply canonical_plain, Hp|]. eexists. split; [|reflexivity]. now apply canonical_decode.
  - exists c, s, e'. split; [exact Sn|]. split; [exact L|]. split; [|split; [|auto]]; intros k.
    + specialize (Cs k). destruct (assoc k (en_cells e)) as [[v sh rb so]|], (assoc k (en_cells e')) as [[v' sh' rb' so']|]; try contradiction; [|reflexivity].
      destruct Cs as [(E1 & E2 & E3) E]. cbn in *. congruence.
    + specialize (Ps k). destruct (assoc k (en_pools e)) as [[v sh rb so]|], (assoc k (en_pools e')) as [[v' sh' rb' so']|]; try contradiction; [|reflexivity].
      destruct Ps as [(E1 & E2 & E3) Q]. cbn in *. assert (E : v' = v). { clear - Q. induction Q as [|[? ?] [? ?] ? ? [? ?]]; [reflexivity|]. cbn in *. congruence. } congruence.
Qed.

(** A document as the reader accepts it: names are unique, and nothing is both shared and rolled back. *)
Definition accepted {R} (c : config R) : Prop :=
  NoDup (map fst (cf_cells c)) /\ NoDup (map fst (cf_pools c)) /\
  (forall k a, assoc k (cf_cells c) = Some a -> ca_shared a = true -> ca_rollback a = false) /\
  (forall k a, assoc k (cf_pools c) = Some a -> pa_shared a = true -> pa_rollback a = false).
(** A newly loaded engine is such an engine. *)
Theorem C58_loaded {R} P fetch n (c : config R) s e :
  sound P n c -> accepted c -> from_ast P fetch n empty c = Ok (s, e) ->
  sound P (S n) (en_config e) /\ own e /\ holds (canonical (S n) (cf_defs (en_config e))) e.
Proof.
  intros ((WD & UD & ND) & Gc & Gp & Z) (Nc & Np & Fc & Fp) L. destruct (load_inv P fetch n c s e Nc Np L) as (Ec & Ne & Nf & Ic & Ip & It). rewrite Ec.
  assert (Kc : forall k, In k (map fst (en_cells e)) <-> In k (map fst (cf_cells c))).
  { intros k. specialize (Ic k). destruct (assoc k (cf_cells c)) as [a|] eqn:E.
    - destruct Ic as (v & _ & A). apply assoc_In in E, A. split; intros _; eapply in_keys; eassumption.
    - apply assoc_None in E, Ic. tauto. }
  assert (Kp : forall k, In k (map fst (en_pools e)) <-> In k (map fst (cf_pools c))).
  { intros k. specialize (Ip k). destruct (assoc k (cf_pools c)) as [a|] eqn:E.
    - destruct Ip as (v & _ & A). apply assoc_In in E, A. split; intros _; eapply in_keys; eassumption.
    - apply assoc_None in E, Ip. tauto. }
  assert (Cv : forall a v, cell_value P fetch n (cf_defs c) a = Ok v ->
             exists j w, decode n P (cf_defs c) (ca_type a) j = Ok w /\ v = Item _ w (ca_shared a) (ca_rollback a) (ca_source a)).
  { intros a v. unfold cell_value. destruct (init_json fetch a) as [j|]; cbn [rbind]; [|discriminate]. destruct (decode n P (cf_defs c) (ca_type a) j) as [w|] eqn:E; cbn [rbind]; [|discriminate].
    injection 1 as <-. eauto. }
  assert (Pv : forall a v, pool_value P n (cf_defs c) a = Ok v ->
             exists d, on_values (decode n P (cf_defs c) (pa_type a)) (pa_init a) = Ok d /\ v = Item _ d (pa_shared a) (pa_rollback a) (pa_source a)).
  { intros a v. unfold pool_value. cbn [decode]. destruct (on_values _ (pa_init a)) as [d|]; cbn [rbind]; [|discriminate]. injection 1 as <-. eauto. }
  split; [|split].
  - split; [exact (conj WD (conj UD ND))|]. split; [exact Gc|]. split; [exact Gp|].
    intros t z E. destruct (Z t z E) as [v Ev]. exists v. apply (decode_ge _ _ n _ _ _ Ev). lia.
  - unfold own. rewrite Ec. split; [exact Ne|]. split; [exact Nf|]. split; [exact Kc|]. split; [exact Kp|]. split.
    + intros k x H. apply NoDup_in in H; [|exact Ne]. specialize (Ic k). destruct (assoc k (cf_cells c)) as [a|] eqn:E; [|congruence].
      destruct Ic as (v & Ev & A). destruct (Cv a v Ev) as (j & w & _ & ->). rewrite A in H. injection H as <-. cbn. apply (Fc k a E).
    + intros k x H. apply NoDup_in in H; [|exact Nf]. specialize (Ip k). destruct (assoc k (cf_pools c)) as [a|] eqn:E; [|congruence].
      destruct Ip as (v & Ev & A). destruct (Pv a v Ev) as (d & _ & ->). rewrite A in H. injection H as <-. cbn. apply (Fp k a E).
  - unfold holds. rewrite Ec. split.
    + intros k x a H E. apply NoDup_in in H; [|exact Ne]. specialize (Ic k). rewrite E in Ic. destruct Ic as (v & Ev & A). destruct (Cv a v Ev) as (j & w & Ew & ->).
      rewrite A in H. injection H as <-. cbn [it_value]. destruct (Gc k a E) as (_ & _ & N). eapply decode_canonical; eauto.
    + intros k x a i v H E Hi. apply NoDup_in in H; [|exact Nf]. specialize (Ip k). rewrite E in Ip. destruct Ip as (y & Ev & A). destruct (Pv a y Ev) as (d & Ed & ->).
      rewrite A in H. injection H as <-. cbn [it_value] in Hi. destruct (Gp k a E) as (_ & _ & N). destruct (on_values_in _ _ _ _ _ Ed Hi) as (z & _ & Ez). eapply decode_canonical; eauto.
Qed.

(** The snapshot says the same when it is written as a document and read again, if the data were embedded in the
    document and nothing in them is called "@". *)
Definition unmarked {R} (e : engine R) : Prop :=
  (forall k x, In (k, x) (en_cells e) -> no_marks (it_value x)) /\ (forall k x, In (k, x) (en_pools e) -> no_marks (VDict (it_value x))).
Theorem C58_document {R} fetch (e : engine R) c :
  embedded e -> unmarked e -> snapshot e = Ok c -> reread fetch c = Ok c.
Proof.
  intros [Ec Ep] [Mc Mp] H. unfold snapshot in H.
  destruct (rmapM (snapshot_cell (en_config e)) (en_cells e)) as [cs|] eqn:Hc; cbn [rbind] in H; [|discriminate].
  destruct (rmapM (snapshot_pool (en_config e)) (en_pools e)) as [ps|] eqn:Hp; cbn [rbind] in H; [|discriminate]. injection H as <-.
  unfold reread. cbn [cf_cells cf_pools cf_defs cf_fold cf_rest].
  assert (Fc : forall kb, In kb cs -> (x <- write_cell fetch (snd kb) ;; a <- read_cell x ;; Ok (fst kb, a)) = Ok kb).
  { intros [k b] Hb. destruct (rmapM_in _ _ _ _ Hc Hb) as ([k' x] & Hx & E). cbn [snapshot_cell] in E. destruct (assoc k' (cf_cells (en_config e))) as [a|]; [|discriminate].
    unfold dumps in E. destruct (has_bytes (it_value x)); cbn [rbind] in E; [discriminate|]. unfold make_cell in E.
    destruct (it_shared x && it_rollback x)%bool eqn:Fl; cbn [rbind] in E; [discriminate|]. injection E as <- <-.
    cbn [fst snd write_cell init_json ca_init ca_type ca_shared ca_rollback ca_source rbind]. rewrite (Ec k' x Hx). cbn [source_json String.eqb].
    unfold read_cell. cbn [ij_init ij_source ij_type ij_shared ij_rollback]. rewrite (strip_id _ (Mc k' x Hx)). cbn [source_json]. cbn. unfold make_cell. rewrite Fl. reflexivity. }
  assert (Fp : forall kb, In kb ps -> (a <- read_pool (write_pool (snd kb)) ;; Ok (fst kb, a)) = Ok kb).
  { intros [k b] Hb. destruct (rmapM_in _ _ _ _ Hp Hb) as ([k' x] & Hx & E). cbn [snapshot_pool] in E. destruct (assoc k' (cf_pools (en_config e))) as [a|]; [|discriminate].
    match type of E with rbind ?m _ = _ => destruct m as [j|] eqn:Ej end; cbn [rbind] in E; [|discriminate].
    assert (j = it_value x) as ->.
    { clear - Ej. revert j Ej. induction (it_value x) as [|[i v] d IH]; intros j Ej; cbn [rmapM] in Ej; [now injection Ej as <-|].
      unfold dumps in Ej at 1. cbn [fst snd] in Ej. destruct (has_bytes v); cbn [rbind] in Ej; [discriminate|].
      match type of Ej with rbind ?m _ = _ => destruct m as [j'|] eqn:E' end; cbn [rbind] in Ej; [|discriminate]. injection Ej as <-. f_equal. now apply IH. }
    unfold make_pool in E. destruct (it_shared x && it_rollback x)%bool eqn:Fl; cbn [rbind] in E; [discriminate|]. injection E as <- <-.
    unfold read_pool, write_pool. cbn [fst snd pa_init pa_type pa_shared pa_rollback pa_source ij_init ij_source ij_type ij_shared ij_rollback].
    rewrite (strip_id _ (Mp k' x Hx)), (Ep k' x Hx). cbn. unfold make_pool. rewrite Fl. reflexivity. }
  assert (G : forall A (f : string * A -> res (string * A)) l, (forall p, In p l -> f p = Ok p) -> rmapM f l = Ok l).
  { intros A f l. induction l as [|p l IH]; intros H; [reflexivity|]. cbn [rmapM]. rewrite H by now left. cbn [rbind]. rewrite IH by (intros; apply H; now right). reflexivity. }
  rewrite (G _ _ cs Fc). cbn [rbind]. rewrite (G _ _ ps Fp). reflexivity.
Qed.

(** Taking a snapshot of the restored engine gives the same snapshot. *)
Theorem C58_again {R} P fetch n (e : engine R) :
  sound P n (en_config e) -> own e -> holds (canonical n (cf_defs (en_config e))) e ->
  exists c s e' c', snapshot e = Ok c /\ from_ast P fetch n empty c = Ok (s, e') /\ snapshot e' = Ok c' /\
    (forall k, assoc k (cf_cells c') = assoc k (cf_cells c)) /\ (forall k, assoc k (cf_pools c') = assoc k (cf_pools c)) /\
    cf_rest c' = cf_rest c /\ cf_fold c' = cf_fold c /\ cf_defs c' = cf_defs c.
Proof.
  intros Sd O H. pose proof Sd as ((WD & UD & ND) & Gc & Gp & Z). pose proof H as [Hc Hp].
  assert (Pl : plain e).
  { split.
    - intros k x Hk. destruct (own_cell e O k x Hk) as [a Ea]. eapply canonical_plain, Hc; eassumption.
    - intros k x i v Hk Hi. destruct (own_pool e O k x Hk) as [a Ea]. eapply canonical_plain, Hp; eassumption. }
  destruct (C58_exact P fetch n e Sd O H) as (c & s & e' & Sn & L & Ic & Ip & Rr & Rd).
  destruct (snapshot_ok e O Pl) as (c0 & Sn0 & Rec). assert (c0 = c) as -> by congruence. clear Sn0.
  destruct Rec as (Kc & Kp & Rc & Rp & Rde & Rf & Rre).
  assert (Nc : NoDup (map fst (cf_cells c))) by (rewrite Kc; apply O). assert (Np : NoDup (map fst (cf_pools c))) by (rewrite Kp; apply O).
  destruct (load_inv P fetch n c s e' Nc Np L) as (Ecf & Ne & Nf & _).
  assert (O' : own e').
  { unfold own. rewrite Ecf. split; [exact Ne|]. split; [exact Nf|].
    assert (Key : forall A B (l : list (string * A)) (m : list (string * B)), (forall k, assoc k l = None <-> assoc k m = None) -> forall k, In k (map fst l) <-> In k (map fst m)).
    { intros A B l m G k. specialize (G k). rewrite !assoc_None in G. unfold keys in G.
      destruct (in_dec string_dec k (map fst l)), (in_dec string_dec k (map fst m)); tauto. }
    split; [|split; [|split]].
    - apply Key. intros k. rewrite Ic. specialize (Rc k). destruct (assoc k (en_cells e)); [destruct Rc as (a & _ & ->); split; discriminate|tauto].
    - apply Key. intros k. rewrite Ip. specialize (Rp k). destruct (assoc k (en_pools e)); [destruct Rp as (a & _ & ->); split; discriminate|tauto].
    - intros k x Hx. apply NoDup_in in Hx; [|exact Ne]. rewrite Ic in Hx. apply assoc_In in Hx. apply (proj1 (proj2 (proj2 (proj2 (proj2 O)))) k x Hx).
    - intros k x Hx. apply NoDup_in in Hx; [|exact Nf]. rewrite Ip in Hx. apply assoc_In in Hx. apply (proj2 (proj2 (proj2 (proj2 (proj2 O)))) k x Hx). }
  assert (Pl' : plain e').
  { split.
    - intros k x Hx. apply NoDup_in in Hx; [|exact Ne]. rewrite Ic in Hx. apply assoc_In in Hx. now apply (proj1 Pl k).
    - intros k x i v Hx. apply NoDup_in in Hx; [|exact Nf]. rewrite Ip in Hx. apply assoc_In in Hx. now apply (proj2 Pl k). }
  destruct (snapshot_ok e' O' Pl') as (c' & Sn' & _ & _ & Rc' & Rp' & Rd' & Rf' & Rr').
  rewrite Ecf in Rc', Rp', Rd', Rf', Rr'.
  exists c, s, e', c'. split; [exact Sn|]. split; [exact L|]. split; [exact Sn'|]. split; [|split; [|auto]].
  - intros k. specialize (Rc k). specialize (Rc' k). rewrite Ic in Rc'. destruct (assoc k (en_cells e)) as [x|]; [|congruence].
    destruct Rc as (a & Ea & Eb). destruct Rc' as (a' & Ea' & Eb'). rewrite Eb'. rewrite Eb in Ea'. injection Ea' as <-. rewrite Eb. reflexivity.
  - intros k. specialize (Rp k). specialize (Rp' k). rewrite Ip in Rp'. destruct (assoc k (en_pools e)) as [x|]; [|congruence].
    destruct Rp as (a & Ea & Eb). destruct Rp' as (a' & Ea' & Eb'). rewrite Eb'. rewrite Eb in Ea'. injection Ea' as <-. rewrite Eb. reflexivity.
Qed.

(** *** A case *)
Definition half : pf := SpecFloat.S754_finite false 4503599627370496 (-53).
Definition model_doc : config unit :=
  Config _ doc1
    [("tree", CellAst (TRecord "Tree") (Text tree) false true "embedded");
     ("count", CellAst (TUnion [TNull; TInt]) (Text VNull) true false "embedded");
     ("rate", CellAst TDouble (Text (VInt 2)) false false "embedded")]
    [("scores", PoolAst (TArray TDouble) [("a", VArr [VFlt half])] false true "embedded")]
    (Some (TInt, VInt 0)) tt.
(** the engine after some work: a counter, an integer among the floats, another pool item, and fields in another order *)
Definition worked : engine unit :=
  Engine _
    [("count", Item _ (VDict [("int", VInt 7)]) true false "embedded");
     ("tree", Item _ (VDict [("right", VNull); ("left", VNull); ("value", VDict [("double", VInt 12)])]) false true "embedded");
     ("rate", Item _ (VInt 5) false false "embedded")]
    [("scores", Item _ [("a", VArr []); ("b", VArr [VFlt half; VInt 1])] false true "embedded")]
    (Some (VInt 3)) model_doc.
Ltac in_cases := repeat match goal with
  | H : _ \/ _ |- _ => destruct H
  | H : False |- _ => destruct H
  | H : (_, _) = (_, _) |- _ => injection H as <- <-
  end.
Lemma model_sound : sound no_parse 6 model_doc.
Proof.
  split; [exact doc1_good|]. split; [|split].
  - intros k a H. apply assoc_In in H. cbn [model_doc cf_cells In] in H. in_cases; (split; [cbn; tauto|]; split; cbn; repeat split; try discriminate; repeat constructor; cbn; intuition discriminate).
  - intros k a H. apply assoc_In in H. cbn [model_doc cf_pools In] in H. in_cases; (split; [cbn; tauto|]; split; cbn; repeat split; try discriminate; repeat constructor; cbn; intuition discriminate).
  - intros t z H. cbn in H. injection H as <- <-. eexists. reflexivity.
Qed.
Ltac no_dup := repeat constructor; cbn; intuition discriminate.
Lemma worked_own : own worked.
Proof.
  split; [no_dup|]. split; [no_dup|]. cbn [worked en_cells en_pools en_config model_doc cf_cells cf_pools map fst In].
  split; [intros k; tauto|]. split; [intros k; tauto|]. split; intros k x H; in_cases; cbn; auto.
Qed.
Example C58_example :
  sound no_parse 6 model_doc /\ own worked /\ holds (stored 6 doc1) worked /\ embedded worked /\ unmarked worked /\
  exists c s e', snapshot worked = Ok c /\ reread no_fetch c = Ok c /\ from_ast no_parse no_fetch 6 empty c = Ok (s, e') /\
    assoc "count" (en_cells e') = Some (Item _ (VDict [("int", VInt 7)]) true false "embedded") /\ en_cells e' <> en_cells worked.
Proof.
  split; [exact model_sound|]. split; [exact worked_own|]. split; [|split; [|split]].
  - split.
    + intros k x a H E. cbn [worked en_cells In] in H. in_cases; cbn in E; injection E as <-.
      * exists TInt. cbn. auto.
      * split; [no_dup|]. split; [intros k; cbn; tauto|]. intros f x Hf Ex. cbn in Hf. in_cases; subst; cbn in Ex; injection Ex as <-.
        -- exists TDouble. cbn. split; [auto|]. split; [reflexivity|]. lia.
        -- now left.
        -- now left.
      * cbn. lia.
    + intros k x a i v H E Hi. cbn [worked en_pools In] in H. in_cases. cbn in E. injection E as <-. cbn [it_value In] in Hi. in_cases; intros y Hy; cbn in Hy; in_cases; subst; cbn; lia.
  - split; intros k x H; cbn [worked en_cells en_pools In] in H; in_cases; reflexivity.
  - split; intros k x H; cbn [worked en_cells en_pools In] in H; in_cases; cbn; repeat split; discriminate.
  - do 3 eexists. split; [reflexivity|]. split; [reflexivity|]. split; [reflexivity|]. split; [reflexivity|]. discriminate.
Qed.
Example C58_example_loaded : exists s e, accepted model_doc /\ from_ast no_parse no_fetch 6 empty model_doc = Ok (s, e) /\ holds (canonical 7 doc1) e.
Proof.
  assert (A : accepted model_doc).
  { split; [no_dup|]. split; [no_dup|]. split; intros k a H; apply assoc_In in H; cbn [model_doc cf_cells cf_pools In] in H; in_cases; cbn; auto. }
  assert (L : exists s e, from_ast no_parse no_fetch 6 empty model_doc = Ok (s, e)) by (do 2 eexists; reflexivity). destruct L as (s & e & L).
  exists s, e. split; [exact A|]. split; [exact L|]. destruct (C58_loaded no_parse no_fetch 6 model_doc s e model_sound A L) as (_ & _ & H).
  injection L as _ <-. exact H.
Qed.

(** *** Where the property fails *)
(** An engine in the middle of its work, as the snapshot sees it. *)
Definition running {R} (s : st) (c : config R) : engine R :=
  Engine _ (map (fun kx => (fst kx, Item _ (c_value (snd kx)) (c_shared (snd kx)) (c_rollback (snd kx)) "embedded")) (s_cells s)) []
    (match cf_fold c with Some _ => Some (s_tally s) | None => None end) c.
Definition simple_doc (c : string) (v : val) (body : list expr) : doc :=
  {| d_method := MMap; d_begin := []; d_action := body; d_end := []; d_merge := None; d_zero := VNull;
     d_cells := [(c, CellDecl v false true)]; d_pools := []; d_name := VNull; d_instance := VNull; d_metadata := VNull; d_version := None;
     d_check := fun v => Ok v; d_options := no_limit |}.
Definition simple_config (t : ty) (c : string) (v : val) : config unit := Config _ [] [(c, CellAst t (Text v) false true "embedded")] [] None tt.

(** cell-to puts a value of a member type into a cell of a union type as it is (pfaast.py:3524): the snapshot holds 3
    where the reader wants {"int": 3}, and cannot be loaded. *)
Theorem C58_union_refuted :
  let D := simple_doc "c" VNull [ECellTo "c" [] (AExpr (ERef "input"))] in
  let c := simple_config (TUnion [TNull; TInt]) "c" VNull in
  exists s r, action (demo_env [] (fun _ => 0)) D 9 (VInt 3) (load D) = Done (Ok r) s /\
    sound no_parse 2 c /\ own (running s c) /\
    exists c', snapshot (running s c) = Ok c' /\ forall n fetch e, from_ast no_parse fetch n empty c' <> Ok e.
Proof.
  do 2 eexists. split; [vm_compute; reflexivity|]. split; [|split].
  - split; [split; [intros m; split; [constructor|intros f []]|split; intros m f []]|]. split; [|split; [|discriminate]].
    + intros k a H. apply assoc_In in H. cbn in H. in_cases. split; [cbn; tauto|]. split; cbn; repeat split; try discriminate; repeat constructor; cbn; intuition discriminate.
    + intros k a H. discriminate.
  - split; [no_dup|]. split; [no_dup|]. cbn. split; [intros k; tauto|]. split; [intros k; tauto|]. split; intros k x H; cbn in H; in_cases; cbn; auto.
  - eexists. split; [reflexivity|]. intros n fetch e. destruct n; discriminate.
Qed.
(** Bytes of the input are Python bytes; json.dumps refuses them. *)
Theorem C58_bytes_refuted :
  let D := simple_doc "c" (VStr "") [ECellTo "c" [] (AExpr (ERef "input"))] in
  let c := simple_config TBytes "c" (VStr "") in
  exists s r, check 2 no_parse [] (VBytes [97]) TBytes = Ok (VBytes [97]) /\
    action (demo_env [] (fun _ => 0)) D 9 (VBytes [97]) (load D) = Done (Ok r) s /\ snapshot (running s c) = Raise (PyErr "TypeError").
Proof. do 2 eexists. split; [reflexivity|]. split; [vm_compute; reflexivity|]. reflexivity. Qed.
(** An engine given a shared state also has the cells of the other documents, and has no snapshot. *)
Definition other_state : shared_state := Shared [("theirs", Item _ (VInt 1) true false "embedded")] [].
Theorem C58_foreign_refuted :
  exists s e, from_ast no_parse no_fetch 6 other_state model_doc = Ok (s, e) /\ snapshot e = Raise (PyErr "KeyError").
Proof. do 2 eexists. split; reflexivity. Qed.
(** A cell fetched from a file keeps the source "json" while its init becomes the data. The snapshot can be loaded as it
    is, but not as a document. *)
Theorem C58_source_refuted :
  let fetch := fun source url => if String.eqb url "model.json" then Ok (VInt 12) else Raise (PyErr "FileNotFoundError") in
  let c := Config unit [] [("c", CellAst TInt (Fetch "json" "model.json") false true "json")] [] None tt in
  exists s e c', from_ast no_parse fetch 2 empty c = Ok (s, e) /\ snapshot e = Ok c' /\
    (exists x, from_ast no_parse fetch 2 empty c' = Ok x) /\ reread fetch c' = syntax_error.
Proof. do 3 eexists. split; [reflexivity|]. split; [reflexivity|]. split; [eexists; reflexivity|reflexivity]. Qed.
(** What is called "@" is taken for a locator mark and left out when the document is read. *)
Definition marked : engine unit :=
  Engine _ [] [("p", Item _ [("@", VInt 1); ("a", VInt 2)] false true "embedded")] None
    (Config _ [] [] [("p", PoolAst TInt [] false true "embedded")] None tt).
Theorem C58_mark_refuted :
  own marked /\ embedded marked /\ holds (canonical 2 []) marked /\
  exists c c' s e, snapshot marked = Ok c /\ reread no_fetch c = Ok c' /\ from_ast no_parse no_fetch 2 empty c' = Ok (s, e) /\
    en_pools e = [("p", Item _ [("a", VInt 2)] false true "embedded")].
Proof.
  split; [|split; [|split]].
  - split; [no_dup|]. split; [no_dup|]. cbn. split; [intros k; tauto|]. split; [intros k; tauto|]. split; intros k x H; cbn in H; in_cases; cbn; auto.
  - split; intros k x H; cbn in H; in_cases; reflexivity.
  - split; intros k x a; [intros []|]. intros i v H E Hi. cbn in H. in_cases. cbn in E. injection E as <-. cbn in Hi. in_cases; cbn; lia.
  - do 4 eexists. repeat (split; [reflexivity|]). reflexivity.
Qed.
(** A cell of type double can hold a Python integer (cell-to does not convert); one that is no double is rounded. *)
Theorem C58_double_refuted :
  let D := simple_doc "c" (VInt 0) [ECellTo "c" [] (AExpr (ERef "input"))] in
  let c := simple_config TDouble "c" (VInt 0) in
  exists s r c' s' e, action (demo_env [] (fun _ => 0)) D 9 (VInt 9007199254740993) (load D) = Done (Ok r) s /\
    snapshot (running s c) = Ok c' /\ from_ast no_parse no_fetch 2 empty c' = Ok (s', e) /\
    en_cells e = [("c", Item _ (VFlt (SpecFloat.S754_finite false 4503599627370496 1)) false true "embedded")].
Proof. do 5 eexists. split; [vm_compute; reflexivity|]. split; [reflexivity|]. split; [reflexivity|]. vm_compute. reflexivity. Qed.
(** The tally of a fold engine is not in the snapshot: the engine starts again from the zero of the document. *)
Theorem C58_tally_refuted :
  en_tally worked = Some (VInt 3) /\
  exists c s e, snapshot worked = Ok c /\ from_ast no_parse no_fetch 6 empty c = Ok (s, e) /\ en_tally e = Some (VInt 0).
Proof. split; [reflexivity|]. do 3 eexists. repeat (split; [reflexivity|]). reflexivity. Qed.
Print Assumptions C58_restores.
Print Assumptions C58_exact.
Print Assumptions C58_loaded.
Print Assumptions C58_document.
Print Assumptions C58_again.
Print Assumptions C58_union_refuted.
Print Assumptions C58_bytes_refuted.
Print Assumptions C58_foreign_refuted.
Print Assumptions C58_source_refuted.
Print Assumptions C58_mark_refuted.
Print Assumptions C58_double_refuted.
Print Assumptions C58_tally_refuted.
