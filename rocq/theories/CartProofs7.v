(** The PFA document of a tree gives each record the score of its leaf. *)
From Coq Require Import SpecFloat.
From Verif Require Import Base PyNum Effects ScopeModel TypeModel JsonModel TreeModel CartModel CartSpec CartProofs CartProofs2.
Open Scope string_scope.
Open Scope list_scope.

Section Pfa.
  Variable N : arith.
  Notation A := (CartModel.num N).
  (** numbers as Python values, compared by the engine as the learner compares them *)
  Variable vnum : A -> val.
  Variable nv : A -> PyNum.num.
  Hypothesis vnum_num : forall x, num_of (vnum x) = Some (nv x).
  Hypothesis le_num : forall x y, le N x y = num_le (nv x) (nv y).

  Definition cell_val (x : cell N) : val := match x with XReal y => vnum y | XCat s => VStr s end.
  (** a record with the values x of the fields, and maybe more *)
  Definition record_of (fieldNames : list string) (x : list (cell N)) (r : list (string * val)) : Prop :=
    length x = length fieldNames /\ forall i, (i < length fieldNames)%nat -> assoc (nth i fieldNames "") r = Some (cell_val (nth i x (XCat ""))).
  Definition cell_kind (c : column N) (x : cell N) : Prop := match c, x with CReal _, XReal _ => True | CCat _ _, XCat _ => True | _, _ => False end.
  (** the types of the record and of the values of the tree suit the columns (pfaValueType, cart.py:670-709) *)
  Definition types_ok (D : defs) (dfields vfields : list field) (fieldNames : list string) (is_union : bool) (numType : nat -> string) (cs : list (column N)) : Prop :=
    exists vt, field_type vfields "value" = Ok vt /\ forall i, (i < length cs)%nat ->
      exists ft, field_type dfields (nth i fieldNames "") = Ok ft /\
        match nth i cs (CReal []) with
        | CReal _ => is_number ft = true /\ (is_number vt = true \/ accepts D D vt ft = true) /\ In (numType i) ["int"; "long"; "float"; "double"]
        | CCat _ _ => items_accept D vt ft = true
        end.

  Lemma as_num v x : num_of v = Some x -> as_number v = Some x.
  Proof. destruct v; cbn; try discriminate; auto. Qed.
  Lemma mem_tag (s : string) l : In s l -> mem s l = true.
  Proof.
    intros H. unfold mem. apply existsb_exists. exists s. split; auto. apply String.eqb_refl.
  Qed.
  Lemma tag_number is_union tag x : In tag ["int"; "long"; "float"; "double"] -> unwrap_number (tagged is_union tag (vnum x)) = vnum x.
  Proof.
    intros H. destruct is_union; cbn [tagged].
    - cbn [unwrap_number]. now rewrite (mem_tag _ _ H).
    - pose proof (vnum_num x) as V. unfold unwrap_number. destruct (vnum x); try reflexivity. discriminate V.
  Qed.

  Lemma node_test n D dfields vfields fieldNames is_union numType cs i c s (x : list (cell N)) r ov rest :
    types_ok D dfields vfields fieldNames is_union numType cs -> (i < length cs)%nat -> length cs = length fieldNames -> c = nth i cs (CReal []) ->
    record_of fieldNames x r -> cell_kind c (nth i x (XCat "")) ->
    pfa_test N vnum false is_union numType i c s = Ok ov ->
    simpleTest n D dfields vfields (VDict r) (VDict (("field", VStr (nth i fieldNames "")) :: ("operator", VStr (fst ov)) :: ("value", snd ov) :: rest)) =
    Ok (Some (test_of c s (nth i x (XCat "")))).
  Proof.
    intros (vt & Hv & Ht) Hi Hl Hc [Hx Hr] Hk Hp. destruct (Ht i Hi) as (ft & Hf & Hm). rewrite <- Hc in Hm. rewrite Hl in Hi.
    unfold simpleTest, simpleComparison. cbn [getitem assoc String.eqb Ascii.eqb Bool.eqb rbind]. rewrite (Hr i Hi). cbn [rbind]. rewrite Hf, Hv. cbn [rbind].
    destruct c as [l|names l], s as [y|codes]; cbn [pfa_test] in Hp; try discriminate Hp; injection Hp as <-; cbn [fst snd].
    - destruct Hm as (M1 & M2 & M3). destruct (nth i x (XCat "")) as [z|w]; cbn [cell_kind] in Hk; [|contradiction]. cbn [cell_val test_of].
      cbn [String.eqb Ascii.eqb Bool.eqb andb orb negb]. rewrite M1. 
      assert (E : (negb (accepts D D vt ft) && negb (is_number vt && true))%bool = false) by (destruct M2 as [M2|M2]; rewrite M2; cbn; [apply andb_false_r|reflexivity]).
      rewrite E. rewrite tag_number by auto. rewrite (as_num _ _ (vnum_num y)), (as_num _ _ (vnum_num z)). cbn. now rewrite le_num.
    - destruct (nth i x (XCat "")) as [z|w]; cbn [cell_kind] in Hk; [contradiction|]. cbn [cell_val test_of].
      cbn [String.eqb Ascii.eqb Bool.eqb andb orb negb]. rewrite Hm. cbn [negb].
      assert (E : unwrap_array (tagged is_union "array" (VArr (map (fun c => VStr (nth c names "")) codes))) = VArr (map (fun c => VStr (nth c names "")) codes)) by (destruct is_union; reflexivity).
      rewrite E. cbn [py_in rbind]. f_equal. f_equal. clear. induction codes as [|k codes IH]; cbn; auto. now rewrite IH.
  Qed.

  Fixpoint tree_depth (t : tree N) : nat := match t with Leaf _ => O | Node _ _ _ _ p f => S (Nat.max (tree_depth p) (tree_depth f)) end.
  (** the fields of all nodes are of the kinds of the first *)
  Definition same_kind (c1 c2 : column N) : Prop := match c1, c2 with CReal _, CReal _ => True | CCat n1 _, CCat n2 _ => n1 = n2 | _, _ => False end.
  Lemma same_kind_refl c : same_kind c c.
  Proof. destruct c; cbn; auto. Qed.
  Lemma same_kind_select m c : same_kind (select m c) c.
  Proof. destruct c; cbn; auto. Qed.

  Lemma types_select D dfields vfields fieldNames is_union numType m cs : types_ok D dfields vfields fieldNames is_union numType cs ->
    types_ok D dfields vfields fieldNames is_union numType (map (select m) cs).
  Proof.
    intros (vt & Hv & Ht). exists vt. split; auto. intros i Hi. rewrite map_length in Hi. destruct (Ht i Hi) as (ft & F1 & F2). exists ft. split; auto.
    rewrite (nth_indep _ (CReal []) (select m (CReal []))) by (now rewrite map_length). rewrite map_nth. destruct (nth i cs (CReal [])); cbn; auto.
  Qed.
  Lemma nth_select m (cs : list (column N)) i : (i < length cs)%nat -> nth i (map (select m) cs) (CReal []) = select m (nth i cs (CReal [])).
  Proof. intros H. rewrite (nth_indep _ (CReal []) (select m (CReal []))) by (now rewrite map_length). apply map_nth. Qed.
  Definition kinds (cs : list (column N)) (x : list (cell N)) : Prop := forall i, (i < length cs)%nat -> cell_kind (nth i cs (CReal [])) (nth i x (XCat "")).
  Lemma kinds_select m cs x : kinds cs x -> kinds (map (select m) cs) x.
  Proof.
    intros H i Hi. rewrite map_length in Hi. specialize (H i Hi). rewrite nth_select by auto. destruct (nth i cs (CReal [])); exact H.
  Qed.

  Definition leaf_value (d : data N) : res val := s <- score d ;; Ok (snd (score_val N vnum s)).

  Lemma pfa_walk {St} n D dfields vfields T fieldNames is_union numType (x : list (cell N)) r t : T <> "double" -> T <> "string" ->
    record_of fieldNames x r -> grown N t ->
    types_ok D dfields vfields fieldNames is_union numType (fields (tree_data t)) -> length (fields (tree_data t)) = length fieldNames ->
    kinds (fields (tree_data t)) x ->
    forall isrec v fuel (s : St), pfa_value N vnum T fieldNames false is_union numType t = Ok (isrec, v) -> (tree_depth t < fuel)%nat ->
    exists w, leaf_value (route t x) = Ok w /\
      (if isrec : bool
       then simpleWalk fuel T v (fun node => lift (b <- simpleTest n D dfields vfields (VDict r) node ;; match b with Some b => Ok b | None => Ok false end)) s = (Ok w, s)
       else exists tag, v = VDict [(tag, w)] /\ tag <> T).
  Proof.
    intros T1 T2 Hr. induction 1 as [d|d g i sp p f Hs Hp IHp Hf IHf]; intros Ht Hl Hk isrec v fuel s Hv Hd; cbn [pfa_value] in Hv.
    - destruct (score d) as [sc|e] eqn:E; [|discriminate Hv]. cbn [rbind] in Hv. injection Hv as <- <-. cbn [route]. unfold leaf_value. rewrite E. cbn [rbind].
      eexists. split; [reflexivity|]. cbv iota. destruct sc; cbn; eexists; split; try reflexivity; congruence.
    - cbn [tree_data] in *. destruct Hs as [S1 S2 S3 S4 S5].
      destruct (pfa_test N vnum false is_union numType i (nth i (fields d) (CReal [])) sp) as [ov|] eqn:Eo; [|discriminate Hv]. cbn [rbind] in Hv.
      destruct (pfa_value N vnum T fieldNames false is_union numType p) as [[bp vp]|] eqn:Ep; [|discriminate Hv]. cbn [rbind] in Hv.
      destruct (pfa_value N vnum T fieldNames false is_union numType f) as [[bf vf]|] eqn:Ef; [|discriminate Hv]. cbn [rbind] in Hv. injection Hv as <- <-.
      cbn [tree_depth] in Hd. destruct fuel as [|fuel]; [lia|].
      assert (NT : forall rest, simpleTest n D dfields vfields (VDict r) (VDict (("field", VStr (nth i fieldNames "")) :: ("operator", VStr (fst ov)) :: ("value", snd ov) :: rest)) =
                   Ok (Some (test_of (nth i (fields d) (CReal [])) sp (nth i x (XCat ""))))).
      { intros rest. eapply node_test; eauto. }
      pose proof (IHp ltac:(rewrite S3; now apply types_select) ltac:(rewrite S3; cbn; now rewrite map_length) ltac:(rewrite S3; now apply kinds_select)
                   bp vp fuel s ltac:(first [exact Ep|reflexivity]) ltac:(lia)) as Gp.
      pose proof (IHf ltac:(rewrite S4; now apply types_select) ltac:(rewrite S4; cbn; now rewrite map_length) ltac:(rewrite S4; now apply kinds_select)
                   bf vf fuel s ltac:(first [exact Ef|reflexivity]) ltac:(lia)) as Gf.
      cbn [route]. unfold simpleWalk. cbn [walk]. unfold bind at 1. unfold bind at 1. unfold lift at 1. rewrite NT. cbn [rbind]. 
      destruct (test_of (nth i (fields d) (CReal [])) sp (nth i x (XCat ""))).
      + destruct Gp as (w & G1 & G2). exists w. split; auto. destruct bp; cbn [fst snd] in *.
        * unfold bind, ret, lift. cbn [getitem assoc String.eqb Ascii.eqb Bool.eqb next_node fst snd]. rewrite String.eqb_refl. exact G2.
        * destruct G2 as (tag & -> & Hne). unfold bind, ret, lift. cbn [getitem assoc String.eqb Ascii.eqb Bool.eqb next_node fst snd].
          apply String.eqb_neq in Hne. now rewrite Hne.
      + destruct Gf as (w & G1 & G2). exists w. split; auto. destruct bf; cbn [fst snd] in *.
        * unfold bind, ret, lift. cbn [getitem assoc String.eqb Ascii.eqb Bool.eqb next_node fst snd]. rewrite String.eqb_refl. exact G2.
        * destruct G2 as (tag & -> & Hne). unfold bind, ret, lift. cbn [getitem assoc String.eqb Ascii.eqb Bool.eqb next_node fst snd].
          apply String.eqb_neq in Hne. now rewrite Hne.
  Qed.

  (** pfaValue does not fail *)
  Lemma score_ok (d : data N) : data_ok d -> (0 < size d)%nat -> exists s, score d = Ok s.
  Proof.
    intros [[H1 H2] _] Hs. unfold score. unfold size in Hs. destruct (pred d) as [l|names l]; [eauto|]. cbn in *. destruct H2 as [_ H2].
    destruct l as [|c l]; [cbn in Hs; lia|]. assert (Hn : (0 < length names)%nat) by (specialize (H2 c (or_introl eq_refl)); lia).
    unfold distribution. cbn [length Nat.eqb]. destruct names as [|a names]; [cbn in Hn; lia|]. cbn. eauto.
  Qed.
  Lemma pfa_value_ok T fieldNames is_union numType t : grown N t -> data_ok (tree_data t) -> (0 < size (tree_data t))%nat ->
    exists b v, pfa_value N vnum T fieldNames false is_union numType t = Ok (b, v) /\ (b = true <-> exists d g i s p f, t = Node d g i s p f).
  Proof.
    induction 1 as [d|d g i sp p f Hs Hp IHp Hf IHf]; intros Hd Hn; cbn [pfa_value tree_data] in *.
    - destruct (score_ok d Hd Hn) as [s ->]. cbn. eexists _, _. split; [reflexivity|]. split; [discriminate|]. now intros (? & ? & ? & ? & ? & ? & ?).
    - destruct (split_rows N d _ _ i sp Hd Hs) as (D1 & D2 & _). destruct Hs as [S1 S2 S3 S4 [S5 S6]].
      destruct (IHp D1 S5) as (bp & vp & -> & _). destruct (IHf D2 S6) as (bf & vf & -> & _).
      assert (Ho : exists ov, pfa_test N vnum false is_union numType i (nth i (fields d) (CReal [])) sp = Ok ov).
      { destruct (nth i (fields d) (CReal [])), sp; cbn in *; try contradiction; eauto. }
      destruct Ho as [ov ->]. cbn. eexists _, _. split; [reflexivity|]. split; [|auto]. intros _. eauto 10.
  Qed.
End Pfa.
