(** C94: decision trees learned by titus.producer.cart. *)
From Coq Require Import Permutation Reals Lra Sorted QArith SpecFloat.
From Verif Require Import Base PyNum Effects ScopeModel TypeModel JsonModel TreeModel CartModel CartSpec CartProofs CartProofs2 CartProofs3 CartProofs4 CartProofs5 CartProofs6 CartProofs7 CartProofs8.
Open Scope string_scope.
Open Scope list_scope.

(** *** Structure, for every kind of arithmetic *)
(** The leaves of a tree share the rows of the dataset out: every row is in exactly one leaf, as often as it was in the dataset. *)
Theorem C94_partition (N : arith) limit condition fuel depth (d : data N) t : data_ok d -> split_until fuel limit condition depth d = Ok t ->
  Permutation (flat_map rows (leaves t)) (rows d).
Proof.
  intros Hd H. destruct (split_until_grown N limit condition fuel depth d t Hd H) as [Hg E]. destruct (grown_rows N t Hg) as [_ P]; rewrite ?E in *; auto.
Qed.
(** No leaf is empty. *)
Theorem C94_nonempty (N : arith) limit condition fuel depth (d : data N) t : data_ok d -> (0 < size d)%nat -> split_until fuel limit condition depth d = Ok t ->
  forall x, In x (leaves t) -> (0 < size x)%nat.
Proof.
  intros Hd Hn H. destruct (split_until_grown N limit condition fuel depth d t Hd H) as [Hg E]. apply (grown_nonempty N t Hg). now rewrite E.
Qed.
(** Asking the questions of the tree about a row of the dataset leads to the leaf that the row was put in. *)
Theorem C94_routing (N : arith) limit condition fuel depth (d : data N) t x r : data_ok d -> split_until fuel limit condition depth d = Ok t ->
  In x (leaves t) -> In r (rows x) -> route t (fst r) = x.
Proof.
  intros Hd H. destruct (split_until_grown N limit condition fuel depth d t Hd H) as [Hg E]. apply grown_route; auto. now rewrite E.
Qed.
(** Growing ends, after no more levels than there are rows, and gives a tree unless there is no field or no subset allowed. *)
Theorem C94_grows (N : arith) limit condition depth (d : data N) : (forall l, length (argsort N l) = length l) -> data_ok d -> limit <> Some O -> fields d <> [] ->
  exists t, forall fuel, (size d < fuel)%nat -> split_until fuel limit condition depth d = Ok t.
Proof.
  intros Hs Hd Hl Hf. destruct (grows N Hs limit condition (S (size d)) depth d Hd Hl Hf ltac:(lia)) as [t Ht]. exists t. intros fuel Hu. rewrite <- Ht.
  apply (fuel_enough N limit condition (size d)); auto.
Qed.
(** splitMaxDepth(m) asks at most m questions about a row; one if m is 0. *)
Theorem C94_depth (N : arith) limit m fuel (d : data N) t : split_max_depth N fuel limit m d = Ok t -> (tree_depth N t <= Nat.max 1 m)%nat.
Proof. intros H. apply max_depth in H. lia. Qed.
(** Strings survive their encoding, and the encoded columns are well formed. *)
Theorem C94_codes (N : arith) l : exists names codes, to_numpy_str N l = CCat names codes /\ to_python_str names codes = l /\ col_ok (length l) (@CCat N names codes) /\
  forall k, (k < length names)%nat -> In k codes.
Proof.
  exists (uniques l), (map (fun s => position s (uniques l)) l). split; [reflexivity|]. split; [|split].
  - unfold to_python_str. rewrite map_map. transitivity (map (fun x => x) l); [|apply map_id]. apply map_ext_in. intros s Hs. apply position_nth. now apply uniques_in.
  - split; [cbn; now rewrite map_length|]. split; [apply uniques_nodup|]. intros x Hx. apply in_map_iff in Hx. destruct Hx as (s & <- & Hs). apply position_nth. now apply uniques_in.
  - intros k Hk. apply in_map_iff. exists (nth k (uniques l) ""). split.
    + destruct (position_nth (nth k (uniques l) "") (uniques l)) as [P1 P2]; [now apply nth_In|].
      exact (proj1 (NoDup_nth (uniques l) "") (uniques_nodup l) _ _ P1 Hk P2).
    + apply uniques_in. now apply nth_In.
Qed.

(** *** What the engine makes of the PFA document *)
(** If a tree has a node, model.tree.simpleWalk with model.tree.simpleTest on pfaValue gives any record whose fields are of the
    right kinds the score of the leaf that its values lead to: the tree in the document decides as the tree that was learned.
    [vnum] is the Python value of a number, [types_ok] says that the types of the record and of the values fit. *)
Theorem C94_pfa {St} (N : arith) vnum nv limit condition fuel depth (d : data N) t T fieldNames is_union numType n D dfields vfields x r fuel' (s : St) :
  (forall y, num_of (vnum y) = Some (nv y)) -> (forall y z, le N y z = num_le (nv y) (nv z)) ->
  data_ok d -> (0 < size d)%nat -> split_until fuel limit condition depth d = Ok t -> (exists d0 g i sp p f, t = Node d0 g i sp p f) ->
  T <> "double" -> T <> "string" -> length (fields d) = length fieldNames ->
  types_ok N D dfields vfields fieldNames is_union numType (fields d) -> record_of N vnum fieldNames x r -> kinds N (fields d) x ->
  (tree_depth N t < fuel')%nat ->
  exists v sc, pfa_value N vnum T fieldNames false is_union numType t = Ok (true, v) /\ score (route t x) = Ok sc /\
    simpleWalk fuel' T v (fun node => lift (b <- simpleTest n D dfields vfields (VDict r) node ;; match b with Some b => Ok b | None => Ok false end)) s =
    (Ok (match sc with SReal y => vnum y | SCat w => VStr w end), s).
Proof.
  intros V1 V2 Hd Hn H Hnode T1 T2 Hl Ht Hr Hk Hf. destruct (split_until_grown N limit condition fuel depth d t Hd H) as [Hg E].
  destruct (pfa_value_ok N vnum T fieldNames is_union numType t Hg) as (b & v & Hv & Hb); rewrite ?E; auto.
  assert (b = true) by now apply Hb. subst b.
  rewrite <- E in Hl, Ht, Hk.
  destruct (@pfa_walk N vnum nv V1 V2 St n D dfields vfields T fieldNames is_union numType x r t T1 T2 Hr Hg Ht Hl Hk true v fuel' s Hv Hf) as (w & W1 & W2).
  unfold leaf_value in W1. destruct (score (route t x)) as [sc|]; [|discriminate]. cbn [rbind] in W1. injection W1 as <-. exists v, sc. repeat split; auto.
  destruct sc; exact W2.
Qed.

(** *** Optimality, in exact arithmetic *)
Open Scope R_scope.
(** The split of a regression node, if the numbers in each column are different and each category occurs: the gain is the sum of
    the squared deviations from the mean before minus that after, and no split of any field that leaves both sides non-empty has a
    larger one. *)
Theorem C94_regression_partial srt (d : data (RA srt)) (l : list R) g i s p f : sorts srt ->
  data_ok d -> pred d = @CReal (RA srt) l -> (forall c, In c (fields d) -> clear_column c) -> split_once None d = Ok (Some (g, i, s, p, f)) ->
  (exists a b, pred p = @CReal (RA srt) a /\ pred f = @CReal (RA srt) b /\ Permutation (a ++ b) l /\ g = deviation l - (deviation a + deviation b)) /\
  forall c s', In c (fields d) -> split_fits (RA srt) c s' -> pick (passes c s') l <> [] -> pick (map negb (passes c s')) l <> [] ->
    deviation l - (deviation (pick (passes c s') l) + deviation (pick (map negb (passes c s')) l)) <= g.
Proof.
  intros Hs Hd Hp Hc H. pose proof (split_once_some _ _ _ _ _ _ _ _ Hd H) as Hsp.
  destruct (regression_best srt Hs d l g i s p f Hd Hp Hc H) as [(a & b & H1 & H2 & H3) H4]. split.
  - exists a, b. repeat split; auto. destruct Hsp as [S1 S2 S3 S4 _]. subst p f. cbn [select_data pred] in H1, H2. rewrite Hp in H1, H2. cbn [select] in H1, H2.
    injection H1 as <-. injection H2 as <-. apply pick_perm. eapply eq_trans; [apply passes_len|]. destruct Hd as [Hd1 Hd2]. destruct (Hd2 (nth i (fields d) (CReal []))) as [L _].
    { now apply nth_In. } eapply eq_trans; [exact L|]. unfold size. now rewrite Hp.
  - intros c s' F1 F2 F3 F4. apply (H4 c s' F1 F2). now split.
Qed.
(** The split of a classification node whose predictors are categories: the gain is the entropy before minus the weighted entropy
    after, and no set of categories of any field has a larger one. *)
Theorem C94_classification_partial srt (d : data (RA srt)) names (l : list nat) g i s p f :
  data_ok d -> pred d = CCat names l -> (forall c, In c (fields d) -> exists ns cs, c = CCat ns cs) ->
  split_once None d = Ok (Some (g, i, s, p, f)) ->
  let k := length names in
  (exists a b, pred p = CCat names a /\ pred f = CCat names b /\
     g = entropy k l - (INR (length a) / INR (length l) * entropy k a + INR (length b) / INR (length l) * entropy k b)) /\
  forall c s', In c (fields d) -> split_fits (RA srt) c s' ->
    let a := pick (passes c s') l in let b := pick (map negb (passes c s')) l in a <> [] -> b <> [] ->
    entropy k l - (INR (length a) / INR (length l) * entropy k a + INR (length b) / INR (length l) * entropy k b) <= g.
Proof.
  intros Hd Hp Hc H. cbv zeta. destruct (classification_best srt d names l g i s p f Hd Hp Hc H) as [H1 H2]. split; [exact H1|].
  intros c s' F1 F2 F3 F4. apply (H2 c s' F1 F2). now split.
Qed.
(** splitComplete on numbers: if the numbers in each column are different, all the rows of a leaf have the same predictand. *)
Theorem C94_complete_partial srt limit fuel (d : data (RA srt)) l t : sorts srt ->
  data_ok d -> fields d <> [] -> pred d = @CReal (RA srt) l -> (forall c, In c (fields d) -> exists v : list R, c = @CReal (RA srt) v /\ NoDup v) ->
  split_complete (RA srt) fuel limit d = Ok t ->
  forall x, In x (leaves t) -> exists m, pred x = @CReal (RA srt) m /\ forall a b, In a m -> In b m -> a = b.
Proof.
  intros Hs Hd Hf Hp Hc H x Hx. apply (complete_leaves srt Hs limit fuel 1 d t) with (x := x); auto. split; auto. split; auto. split; eauto.
Qed.
(** The score of a regression leaf is the mean, the number with the least squared deviations. *)
Theorem C94_mean srt (d : data (RA srt)) (l : list R) : pred d = @CReal (RA srt) l -> l <> [] ->
  exists m, score d = Ok (@SReal (RA srt) m) /\ m = rsum l / INR (length l) /\ forall c, rsum (map (fun x => (x - m) ^ 2) l) <= rsum (map (fun x => (x - c) ^ 2) l).
Proof.
  intros H Hl. exists (mean l). unfold score. rewrite H. split; [|split; [reflexivity|]].
  - f_equal. f_equal. unfold mean. rewrite sum_rsum. reflexivity.
  - intros c. now apply mean_best.
Qed.
(** The score of a classification leaf is a category that no other occurs more often than. *)
Theorem C94_class srt (d : data (RA srt)) names (l : list nat) s : pred d = CCat names l -> l <> [] -> score d = Ok (SCat s) ->
  exists c, (c < length names)%nat /\ s = nth c names "" /\ forall c', (c' < length names)%nat -> (count c' l <= count c l)%nat.
Proof. apply class_score. Qed.
Close Scope R_scope.

(** *** Examples *)
(** rational numbers, with x * (x - 1) for x * log2(x), and an insertion sort *)
Definition q_place (v : list Q) : nat -> list nat -> list nat :=
  fix go i l := match l with [] => [i] | j :: l' => if Qle_bool (nth i v 0%Q) (nth j v 0%Q) then i :: l else j :: go i l' end.
Definition QA : arith := {| num := Q; zero := 0%Q; ofn := fun n => inject_Z (Z.of_nat n); add := fun a b => Qred (a + b); sub := fun a b => Qred (a - b); mul := fun a b => Qred (a * b);
  div := fun a b => Qred (a / b); opp := fun a => Qred (- a); gt := fun a b => negb (Qle_bool a b); le := Qle_bool; eq := Qeq_bool; plog := fun x => Qred (x * (x - 1));
  argsort := fun v => fold_right (q_place v) [] (seq 0 (length v)) |}%Q.
Lemma QA_sorts l : length (argsort QA l) = length l.
Proof.
  cbn. assert (P : forall i r, length (q_place l i r) = S (length r)) by (induction r as [|j r IH]; cbn; auto; destruct Qle_bool; cbn; auto).
  assert (G : forall r, length (fold_right (q_place l) [] r) = length r) by (induction r as [|j r IH]; cbn; auto; rewrite P; auto). rewrite G. apply seq_length.
Qed.
Definition mixed : data QA := Data [@CReal QA [1; 2; 3; 4]%Q; CCat ["p"; "q"] [0; 1; 0; 1]%nat] (@CReal QA [0; 0; 7; 9]%Q).
Lemma mixed_ok : data_ok mixed.
Proof.
  split; [repeat split|]. intros c [<-|[<-|[]]]; repeat split; cbn; try lia; repeat constructor; cbn; intuition (try discriminate; subst; cbn; lia).
Qed.
Definition show (t : tree QA) : list (list (list (cell QA) * cell QA)) := map rows (leaves t).
Example C94_tree_example : match split_complete QA 5 None mixed with
  | Ok t => show t = [[([XReal (1 : num QA); XCat "p"], XReal (0 : num QA)); ([XReal (2 : num QA); XCat "q"], XReal (0 : num QA))]; [([XReal (3 : num QA); XCat "p"], XReal (7 : num QA))]; [([XReal (4 : num QA); XCat "q"], XReal (9 : num QA))]]%Q
            /\ tree_depth QA t = 2%nat
  | Raise _ => False end.
Proof. vm_compute. split; reflexivity. Qed.
Example C94_grows_example : exists t, forall fuel, (4 < fuel)%nat -> split_until fuel None (fun _ _ => true) 1 mixed = Ok t.
Proof. apply (C94_grows QA None (fun _ _ => true) 1 mixed); [apply QA_sorts|apply mixed_ok|discriminate|discriminate]. Qed.
Example C94_depth_example : match split_max_depth QA 5 None 1 mixed with Ok t => length (leaves t) = 2%nat | Raise _ => False end.
Proof. vm_compute. reflexivity. Qed.
Example C94_codes_example : to_numpy_str QA ["b"; "a"; "b"] = CCat ["a"; "b"] [1; 0; 1]%nat.
Proof. reflexivity. Qed.

(** binary64, as the program computes *)
Definition f_place (v : list pf) : nat -> list nat -> list nat :=
  fix go i l := match l with [] => [i] | j :: l' => if SFleb (nth i v S754_nan) (nth j v S754_nan) then i :: l else j :: go i l' end.
Definition FA : arith := {| num := pf; zero := S754_zero false; ofn := fun n => f_of_Z (Z.of_nat n); add := SFadd 53 1024; sub := SFsub 53 1024; mul := SFmul 53 1024; div := SFdiv 53 1024; opp := SFopp;
  gt := fun a b => num_gt (NF a) (NF b); le := fun a b => num_le (NF a) (NF b); eq := fun a b => num_eq (NF a) (NF b); plog := fun x => x;
  argsort := fun v => fold_right (f_place v) [] (seq 0 (length v)) |}.
Definition fl (l : list Z) : list pf := map f_of_Z l.
Definition plants : data FA := Data [@CReal FA (fl [1; 2; 3; 4]); CCat ["p"; "q"] [0; 1; 0; 1]%nat] (@CReal FA (fl [0; 0; 7; 9])).
Definition plant_types : list field := [Field "size" TDouble None None; Field "kind" TString None None].
Definition node_types : list field := [Field "value" (TUnion [TDouble; TArray TString]) None None].
Definition plant (z : Z) (k : string) : list (string * val) := [("size", VFlt (f_of_Z z)); ("kind", VStr k)].
Example C94_pfa_hyp : data_ok plants /\ types_ok FA [] plant_types node_types ["size"; "kind"] true (fun _ => "double") (fields plants) /\
  record_of FA VFlt ["size"; "kind"] [@XReal FA (f_of_Z 5); XCat "p"] (plant 5 "p") /\ kinds FA (fields plants) [@XReal FA (f_of_Z 5); XCat "p"].
Proof.
  split; [|split; [|split]].
  - split; [repeat split|]. intros c [<-|[<-|[]]]; repeat split; cbn; try lia; repeat constructor; cbn; intuition (try discriminate; subst; cbn; lia).
  - exists (TUnion [TDouble; TArray TString]). split; [reflexivity|]. intros [|[|i]] Hi; cbn in Hi; try lia; eexists; (split; [reflexivity|]); cbn; auto 10.
  - split; [reflexivity|]. intros [|[|i]] Hi; cbn in Hi; try lia; reflexivity.
  - intros [|[|i]] Hi; cbn in *; try lia; auto.
Qed.
Example C94_pfa_example : match split_complete FA 5 None plants with
  | Ok t => match pfa_value FA VFlt "Tree" ["size"; "kind"] false true (fun _ => "double") t with
            | Ok (b, v) => b = true /\ fst (simpleWalk 9 "Tree" v (fun node => lift (b <- simpleTest 3 [] plant_types node_types (VDict (plant 5 "p")) node ;;
                             match b with Some b => Ok b | None => Ok false end)) tt) = Ok (VFlt (f_of_Z 9))
            | _ => False end
  | Raise _ => False end.
Proof. vm_compute. split; reflexivity. Qed.

(** Sorting exists in exact arithmetic too. *)
Definition r_place (v : list R) : nat -> list nat -> list nat :=
  fix go i l := match l with [] => [i] | j :: l' => if Rle_dec (nth i v 0%R) (nth j v 0%R) then i :: l else j :: go i l' end.
Definition r_sort (v : list R) : list nat := fold_right (r_place v) [] (seq 0 (length v)).
Example r_sort_sorts : sorts r_sort.
Proof.
  intros v. assert (P : forall i l, Permutation (r_place v i l) (i :: l)).
  { induction l as [|j l IH]; cbn; auto. destruct Rle_dec; auto. rewrite IH. apply perm_swap. }
  split.
  - unfold r_sort. generalize (seq 0 (length v)) as l. induction l as [|i l IH]; cbn; auto. rewrite P. now constructor.
  - unfold r_sort. generalize (seq 0 (length v)) as l. induction l as [|i l IH]; cbn [fold_right]; [constructor|]. revert IH. generalize (fold_right (r_place v) [] l) as r. clear l.
    induction r as [|j r IHr]; intros Hs; cbn [r_place]; [repeat constructor|]. inversion Hs as [|? ? Hs' Hf]; subst. destruct (Rle_dec (nth i v 0%R) (nth j v 0%R)) as [L|L].
    + cbn [map]. constructor; auto. constructor; auto. rewrite Forall_forall in *. intros x Hx. specialize (Hf x Hx). lra.
    + cbn [map]. constructor; [now apply IHr|]. rewrite Forall_forall in *. intros x Hx. apply in_map_iff in Hx. destruct Hx as (k & <- & Hk).
      apply (Permutation_in _ (P i r)) in Hk. destruct Hk as [<-|Hk]; [lra|]. apply Hf. apply in_map_iff. eauto.
Qed.
Notation RR := (RA r_sort).
Definition three : data RR := Data [@CReal RR [1; 2; 3]%R] (@CReal RR [0; 0; 5]%R).
Lemma RR_len l : length (argsort RR l) = length l.
Proof. destruct (r_sort_sorts l) as [P _]. apply Permutation_length in P. now rewrite seq_length in P. Qed.
Lemma three_ok : data_ok three.
Proof. split; [repeat split|]. intros c [<-|[]]. repeat split. Qed.
Lemma three_nodup : NoDup [1; 2; 3]%R.
Proof. repeat constructor; cbn; intuition lra. Qed.
Lemma three_can : can_split three = true.
Proof. cbn. repeat (destruct Req_EM_T; cbn; try lra). Qed.
Example C94_regression_example : exists g i s p f, split_once None three = Ok (Some (g, i, s, p, f)) /\ (deviation [0; 0; 5]%R <= g)%R.
Proof.
  destruct (split_once_ok RR RR_len None three three_ok ltac:(discriminate) three_can ltac:(discriminate)) as [[[[[[g i] s] p] f]|] E].
  - exists g, i, s, p, f. split; auto.
    destruct (C94_regression_partial r_sort three [0; 0; 5]%R g i s p f r_sort_sorts three_ok eq_refl) as [_ H]; auto.
    { intros c [<-|[]]. exact three_nodup. }
    specialize (H (@CReal RR [1; 2; 3]%R) (@Cut RR 2.5%R) (or_introl eq_refl) I). cbn in H.
    destruct (Rle_dec 1 2.5) as [_|C]; [|lra]. destruct (Rle_dec 2 2.5) as [_|C]; [|lra]. destruct (Rle_dec 3 2.5) as [C|_]; [lra|]. cbn in H.
    specialize (H ltac:(discriminate) ltac:(discriminate)).
    assert (D : (deviation [0; 0] = 0 /\ deviation [5] = 0)%R) by (unfold deviation, mean; cbn; lra). destruct D as [D1 D2]. 
    change (deviation [0; 0; 5]%R - (deviation [0; 0]%R + deviation [5]%R) <= g)%R in H. lra.
  - exfalso. apply (numbers_split r_sort r_sort_sorts None three) in E; auto.
    + split; [apply three_ok|]. split; [discriminate|]. split; [now exists [0; 0; 5]%R|]. intros c [<-|[]]. exists [1; 2; 3]%R. split; [reflexivity|apply three_nodup].
    + apply three_can.
Qed.
Definition coins : data RR := Data [CCat ["p"; "q"] [0; 1; 1]%nat] (CCat ["x"; "y"] [0; 1; 1]%nat).
Example C94_classification_example : exists g i s p f, split_once None coins = Ok (Some (g, i, s, p, f)) /\ (0 <= entropy 2 [0; 1; 1]%nat <= g)%R.
Proof.
  assert (Hd : data_ok coins).
  { split; [|intros c [<-|[]]]; repeat split; cbn; try (repeat constructor; cbn; intuition discriminate); intros x Hx; intuition lia. }
  assert (E : exists g i s p f, split_once None coins = Ok (Some (g, i, s, p, f))).
  { unfold split_once. cbn [coins fields pred best_field field_term]. unfold categorical_entropy. 
    match goal with |- context [best_of ?n ?t None ?c] => remember t as term; change c with [[0%nat]; [1%nat]] end. cbn [best_of]. destruct (gt RR (term [1%nat]) (term [0%nat])); cbn; repeat eexists. }
  destruct E as (g & i & s & p & f & E). exists g, i, s, p, f. split; auto.
  destruct (C94_classification_partial r_sort coins ["x"; "y"] [0; 1; 1]%nat g i s p f Hd eq_refl) as [_ H]; auto.
  { intros c [<-|[]]. eauto. }
  specialize (H _ (@Among RR [0%nat]) (or_introl eq_refl)). cbn zeta in H. cbn [length] in H. 
  assert (F : split_fits RR (CCat ["p"; "q"] [0; 1; 1]%nat) (Among [0%nat])) by (intros k [<-|[]]; cbn; lia).
  specialize (H F ltac:(discriminate) ltac:(discriminate)). cbn [passes map in_set existsb Nat.eqb orb pick negb length] in H.
  assert (Z1 : entropy 2 [0%nat] = 0%R).
  { unfold entropy, plogp, count. cbn. repeat (destruct Req_EM_T; try lra). replace (1 / 1)%R with 1%R by lra. rewrite ln_1. lra. }
  assert (Z2 : entropy 2 [1%nat; 1%nat] = 0%R).
  { unfold entropy, plogp, count. cbn. repeat (destruct Req_EM_T; try lra). replace ((1 + 1) / (1 + 1))%R with 1%R by lra. rewrite ln_1. lra. }
  rewrite Z1, Z2 in H. split; [|change (num RR) with R in *; lra].
  unfold entropy, plogp, count. cbn. repeat (destruct Req_EM_T; try lra).
  assert (L2 : (0 < ln 2)%R) by (rewrite <- ln_1; apply ln_increasing; lra).
  assert (A1 : (ln (1 / (1 + 1 + 1)) < 0)%R) by (rewrite <- ln_1; apply ln_increasing; lra).
  assert (A2 : (ln ((1 + 1) / (1 + 1 + 1)) < 0)%R) by (rewrite <- ln_1; apply ln_increasing; lra).
  assert (I2 : (0 < / ln 2)%R) by now apply Rinv_0_lt_compat.
  assert (B1 : (ln (1 / (1 + 1 + 1)) / ln 2 < 0)%R) by (unfold Rdiv at 1; nra).
  assert (B2 : (ln ((1 + 1) / (1 + 1 + 1)) / ln 2 < 0)%R) by (unfold Rdiv at 1; nra). lra.
Qed.
Example C94_complete_example : exists t, split_complete RR 5 None three = Ok t /\ forall x, In x (leaves t) -> exists m, pred x = @CReal RR m /\ forall a b, In a m -> In b m -> a = b.
Proof.
  destruct (C94_grows RR None (fun _ _ => true) 1 three RR_len three_ok ltac:(discriminate) ltac:(discriminate)) as [t Ht]. exists t.
  assert (E : split_complete RR 5 None three = Ok t) by (apply Ht; cbn; lia). split; auto.
  apply (C94_complete_partial r_sort None 5 three [0; 0; 5]%R t r_sort_sorts three_ok ltac:(discriminate) eq_refl); auto.
  intros c [<-|[]]. exists [1; 2; 3]%R. split; [reflexivity|apply three_nodup].
Qed.

(** *** What goes wrong *)
(** splitComplete documents "until each leaf has only one unique value". A category that does not occur in a node shifts the codes
    of the chosen subset (cart.py:612 counts positions among the categories that occur, 359 takes them for codes of all
    categories), so a node is left whole although its field tells its rows apart. *)
Definition shifted : data QA := Data [CCat ["a"; "b"; "c"] [0; 0; 1; 1; 2; 2]%nat] (@CReal QA [100; 100; 0; 0; 5; 5]%Q).
Theorem C94_codes_refuted : exists (d : data QA) t x r1 r2, data_ok d /\ split_complete QA 9 None d = Ok t /\ In x (leaves t) /\
  In r1 (rows x) /\ In r2 (rows x) /\ fst r1 <> fst r2 /\ snd r1 <> snd r2.
Proof.
  assert (H : match split_complete QA 9 None shifted with
              | Ok t => map rows (leaves t) = [[([XCat "a"], XReal (100 : num QA)); ([XCat "a"], XReal (100 : num QA))];
                  [([XCat "b"], XReal (0 : num QA)); ([XCat "b"], XReal (0 : num QA)); ([XCat "c"], XReal (5 : num QA)); ([XCat "c"], XReal (5 : num QA))]]%Q
              | Raise _ => False end) by (vm_compute; reflexivity).
  exists shifted. destruct (split_complete QA 9 None shifted) as [t|]; [|contradiction]. destruct (leaves t) as [|x1 [|x2 l]] eqn:E; try discriminate H. injection H as _ H _.
  exists t, x2, ([XCat "b"], XReal (0 : num QA)%Q), ([XCat "c"], XReal (5 : num QA)%Q). split; [|split; [reflexivity|]].
  - split; [repeat split|]. intros c [<-|[]]. repeat split; cbn; try (repeat constructor; cbn; intuition discriminate); intros x Hx; intuition lia.
  - split; [rewrite E; right; now left|]. rewrite H. split; [now left|]. split; [right; right; now left|]. split; [discriminate|]. intros C. injection C as C. discriminate C.
Qed.
(** Equal numbers: the gain of a cut between equal numbers is computed as if it told them apart (cart.py:415-434, 545-564). A constant
    column hides a column that separates the rows perfectly. *)
Definition tied : data QA := Data [@CReal QA [1; 1]%Q; @CReal QA [0; 1]%Q] (@CReal QA [0; 8]%Q).
Theorem C94_ties_refuted : exists (d : data QA) c s l, data_ok d /\ can_split d = true /\ split_once None d = Ok None /\
  In c (fields d) /\ pred d = CReal l /\ pick (passes c s) l = [0 : num QA]%Q /\ pick (map negb (passes c s)) l = [8 : num QA]%Q.
Proof.
  exists tied, (@CReal QA [0; 1]%Q), (@Cut QA (1 # 2)%Q), [0; 8]%Q. split; [split; [repeat split|]; intros c [<-|[<-|[]]]; repeat split|].
  split; [vm_compute; reflexivity|]. split; [vm_compute; reflexivity|]. split; [right; now left|]. split; [reflexivity|]. split; vm_compute; reflexivity.
Qed.
(** numericalEntropyGainTerm divides by one too many (cart.py:390): a cut that separates two classes perfectly is left with half a bit. *)
Theorem C94_entropy_refuted : exists (values : list R) cats, nth 0 (entropy_gains RR 2 cats) 0%R = (- (1 / 2))%R /\
  sorted_by (argsort RR values) O cats = cats /\ entropy 2 (firstn 1 cats) = 0%R /\ entropy 2 (skipn 1 cats) = 0%R.
Proof.
  assert (Z1 : ln (1 / 1) = 0%R) by (replace (1 / 1)%R with 1%R by lra; apply ln_1).
  assert (L2 : (0 < ln 2)%R) by (rewrite <- ln_1; apply ln_increasing; lra).
  exists [1; 2]%R, [0; 1]%nat. split; [|split; [|split]].
  - cbn. unfold entropy_sum, count. cbn. repeat (destruct Req_EM_T; try lra).
    replace (1 / 1)%R with 1%R by lra. rewrite ln_1. replace (1 / (1 + 1))%R with (/ 2)%R by lra. rewrite ln_Rinv by lra. field. lra.
  - cbn. destruct (Rle_dec 1 2); [reflexivity|lra].
  - unfold entropy, plogp, count. cbn. repeat (destruct Req_EM_T; try lra). rewrite Z1. lra.
  - unfold entropy, plogp, count. cbn. repeat (destruct Req_EM_T; try lra). rewrite Z1. lra.
Qed.
(** canSplit asks for more than zero classes instead of more than one (cart.py:273): a node of one class is split. *)
Definition pure : data QA := Data [CCat ["p"; "q"] [0; 1]%nat] (CCat ["x"] [0; 0]%nat).
Theorem C94_pure_refuted : exists (d : data QA) names code l dd g i s p f, pred d = CCat names l /\ (forall c, In c l -> c = code) /\
  split_complete QA 9 None d = Ok (Node dd g i s p f).
Proof.
  assert (H : match split_complete QA 9 None pure with Ok (Node _ _ _ _ _ _) => True | _ => False end) by (vm_compute; exact I).
  exists pure, ["x"], O, [0; 0]%nat. destruct (split_complete QA 9 None pure) as [[|dd g i s p f]|]; try contradiction.
  exists dd, g, i, s, p, f. split; [reflexivity|]. split; [|reflexivity]. cbn. intuition.
Qed.
(** A tree that could not be split is written as its score alone, which is no tree: the engine's walk fails on it (cart.py:829, 940). *)
Definition single : data FA := Data [@CReal FA (fl [1; 2])] (@CReal FA (fl [4; 4])).
Theorem C94_leaf_refuted : exists t v e, split_complete FA 9 None single = Ok t /\ pfa_value FA VFlt "Tree" ["size"] false false (fun _ => "double") t = Ok (false, v) /\
  simpleWalk 9 "Tree" v (fun node => lift (b <- simpleTest 3 [] plant_types [Field "value" TDouble None None] (VDict (plant 1 "p")) node ;;
     match b with Some b => Ok b | None => Ok false end)) tt = (Raise e, tt).
Proof.
  assert (H : match split_complete FA 9 None single with
              | Ok t => match pfa_value FA VFlt "Tree" ["size"] false false (fun _ => "double") t with
                        | Ok (false, v) => match simpleWalk 9 "Tree" v (fun node => lift (b <- simpleTest 3 [] plant_types [Field "value" TDouble None None] (VDict (plant 1 "p")) node ;;
                             match b with Some b => Ok b | None => Ok false end)) tt with (Raise _, tt) => True | _ => False end
                        | _ => False end
              | Raise _ => False end) by (vm_compute; exact I).
  destruct (split_complete FA 9 None single) as [t|]; [|contradiction]. exists t.
  destruct (pfa_value FA VFlt "Tree" ["size"] false false (fun _ => "double") t) as [[[|] v]|]; try contradiction. exists v.
  destruct (simpleWalk 9 _ _ _ _) as [[|e] []]; [contradiction|]. exists e. auto.
Qed.

Print Assumptions C94_partition.
Print Assumptions C94_nonempty.
Print Assumptions C94_routing.
Print Assumptions C94_grows.
Print Assumptions C94_depth.
Print Assumptions C94_codes.
Print Assumptions C94_pfa.
Print Assumptions C94_regression_partial.
Print Assumptions C94_classification_partial.
Print Assumptions C94_complete_partial.
Print Assumptions C94_mean.
Print Assumptions C94_class.
Print Assumptions C94_codes_refuted.
Print Assumptions C94_ties_refuted.
Print Assumptions C94_entropy_refuted.
Print Assumptions C94_pure_refuted.
Print Assumptions C94_leaf_refuted.
