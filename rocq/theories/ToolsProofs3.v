(** Lemmas for C92, continued: the order of a search, indexes, replacing. *)
From Coq Require Import Permutation Sorting.Sorted.
From Verif Require Import Base PyNum ScopeModel MapModel MapSpec MapProofs ToolsModel ToolsSpec ToolsProofs ToolsProofs2.
Open Scope string_scope.
Open Scope list_scope.
Open Scope Z_scope.

(** *** Lists *)
Lemma Forall2_impl_in {A B} (R S : A -> B -> Prop) l m : (forall x y, In x l -> R x y -> S x y) -> Forall2 R l m -> Forall2 S l m.
Proof. intros H F. induction F; constructor; [apply H; [now left|assumption]|apply IHF; intros; apply H; [now right|assumption]]. Qed.

(** *** Sorting by keys *)
Lemma insert_perm {A} (x : string * A) l : Permutation (insert_key x l) (x :: l).
Proof. induction l as [|y l IH]; cbn; [reflexivity|]. destruct (str_lt _ _); [|reflexivity]. rewrite IH. apply perm_swap. Qed.
Lemma by_key_perm {A} (d : list (string * A)) : Permutation (by_key d) d.
Proof. induction d as [|x d IH]; cbn; [reflexivity|]. now rewrite insert_perm, IH. Qed.
Definition key_lt {A} (x y : string * A) : Prop := str_lt (fst x) (fst y) = true.
Lemma insert_sorted {A} (x : string * A) l : ~ In (fst x) (map fst l) -> StronglySorted key_lt l -> StronglySorted key_lt (insert_key x l).
Proof.
  induction l as [|y l IH]; cbn; intros N Hs; [repeat constructor|]. inversion Hs; subst. destruct (str_lt (fst y) (fst x)) eqn:E.
  - constructor; [apply IH; tauto|]. apply (Permutation_Forall (Permutation_sym (insert_perm x l))). constructor; assumption.
  - assert (L : str_lt (fst x) (fst y) = true). { destruct (str_total (fst x) (fst y)); [intros Eq; apply N; left; auto|assumption|congruence]. }
    constructor; [assumption|]. constructor; [exact L|]. eapply Forall_impl; [|eassumption]. intros z Hz. unfold key_lt in *. eapply str_trans; eauto.
Qed.
Lemma by_key_sorted {A} (d : list (string * A)) : NoDup (map fst d) -> StronglySorted key_lt (by_key d).
Proof.
  induction d as [|x d IH]; cbn; intros N; [constructor|]. inversion N; subst. apply insert_sorted; [|auto].
  intros H. apply H1. eapply Permutation_in; [|exact H]. apply Permutation_map, by_key_perm.
Qed.
Lemma ss_app {A} (R : A -> A -> Prop) l m : StronglySorted R l -> StronglySorted R m -> (forall x y, In x l -> In y m -> R x y) -> StronglySorted R (l ++ m).
Proof.
  induction 1 as [|x l Hl IH Hx]; intros Hm H; cbn; [exact Hm|]. constructor.
  - apply IH; [exact Hm|]. intros; apply H; cbn; auto.
  - apply Forall_app. split; [exact Hx|]. apply Forall_forall. intros y Hy. apply H; cbn; auto.
Qed.

(** *** The order *)
Fixpoint bef (p q : path) : Prop :=
  match p, q with
  | [], _ => False
  | _ :: _, [] => True
  | a :: p', b :: q' => step_before a b \/ (a = b /\ bef p' q')
  end.
Lemma before_bef p q : before p q <-> bef p q.
Proof.
  split.
  - intros [(i & r & ->)|(c & a & b & p' & q' & -> & -> & H)].
    + induction q; cbn; auto.
    + induction c; cbn; auto.
  - revert q. induction p as [|a p IH]; intros [|b q]; cbn; try tauto.
    + intros _. left. exists a, p. reflexivity.
    + intros [H|[-> H]]; [right; exists [], a, b, p, q; auto|]. destruct (IH _ H) as [(i & r & ->)|(c & x & y & p' & q' & -> & -> & Hx)].
      * left. exists i, r. reflexivity.
      * right. exists (b :: c), x, y, p', q'. auto.
Qed.
Lemma step_asym a b : step_before a b -> step_before b a -> False.
Proof.
  destruct a, b; cbn; try tauto; try lia. rewrite <- !str_lt_before. intros H1 H2. apply str_asym in H1. congruence.
Qed.
Lemma before_asym p q : before p q -> before q p -> False.
Proof.
  rewrite !before_bef. revert q. induction p as [|a p IH]; intros [|b q]; cbn; try tauto.
  intros [H|[-> H]] [K1|[E K1]]; subst; eauto using step_asym.
Qed.

(** *** The places of a search *)
Definition arr_places (a : path) : list val -> Z -> list (path * val) :=
  fix go (l : list val) (i : Z) : list (path * val) := match l with [] => [] | x :: l' => places x (a ++ [I i]) ++ go l' (i + 1) end.
Lemma places_dict d a : places (VDict d) a = flat_map snd (by_key (map (fun kv => (fst kv, places (snd kv) (a ++ [K (fst kv)]))) d)) ++ [(a, VDict d)].
Proof. reflexivity. Qed.
Lemma places_arr l a : places (VArr l) a = arr_places a l 0 ++ [(a, VArr l)].
Proof. reflexivity. Qed.
Lemma arr_cons a x l i : arr_places a (x :: l) i = places x (a ++ [I i]) ++ arr_places a l (i + 1).
Proof. reflexivity. Qed.
Lemma arr_in a l : forall i pv, In pv (arr_places a l i) <-> exists n x, nth_error l n = Some x /\ In pv (places x (a ++ [I (i + Z.of_nat n)])).
Proof.
  induction l as [|x l IH]; intros i pv.
  - split; [intros []|intros ([|n] & x & H & _); discriminate].
  - rewrite arr_cons, in_app_iff, IH. split.
    + intros [H|(n & y & Hn & H)].
      * exists 0%nat, x. split; [reflexivity|]. now rewrite Z.add_0_r.
      * exists (S n), y. split; [exact Hn|]. replace (i + Z.of_nat (S n)) with (i + 1 + Z.of_nat n) by lia. exact H.
    + intros ([|n] & y & Hn & H).
      * cbn in Hn. injection Hn as <-. left. now rewrite Z.add_0_r in H.
      * right. exists n, y. split; [exact Hn|]. replace (i + Z.of_nat (S n)) with (i + 1 + Z.of_nat n) in H by lia. exact H.
Qed.
Lemma places_in v : forall a p x, In (p, x) (places v a) <-> exists q, p = a ++ q /\ part v q x.
Proof.
  induction v as [d F|l F|v Hd Hl] using val_ind2; intros a p x.
  - rewrite places_dict, in_app_iff, in_flat_map. rewrite Forall_forall in F. split.
    + intros [(kl & Hk & H)|[[= <- <-]|[]]].
      * apply (Permutation_in _ (by_key_perm _)) in Hk. apply in_map_iff in Hk. destruct Hk as ([k y] & <- & Hk). cbn in H.
        apply (F (k, y) Hk) in H. destruct H as (q & -> & H). exists (K k :: q). rewrite <- app_assoc. split; [reflexivity|]. econstructor; eauto.
      * exists []. rewrite app_nil_r. split; [reflexivity|constructor].
    + intros (q & -> & H). inversion H; subst.
      * right. left. now rewrite app_nil_r.
      * left. eexists. split; [apply (Permutation_in _ (Permutation_sym (by_key_perm _))); apply in_map_iff; eexists; split; [reflexivity|eassumption]|].
        cbn. apply (F (k, y)); [assumption|]. eexists. rewrite <- app_assoc. split; [reflexivity|assumption].
  - rewrite places_arr, in_app_iff, arr_in. rewrite Forall_forall in F. split.
    + intros [(n & y & Hn & H)|[[= <- <-]|[]]].
      * apply (F y (nth_error_In _ _ Hn)) in H. destruct H as (q & -> & H). exists (I (Z.of_nat n) :: q). rewrite <- app_assoc. split; [reflexivity|]. econstructor; eauto.
      * exists []. rewrite app_nil_r. split; [reflexivity|constructor].
    + intros (q & -> & H). inversion H; subst.
      * right. left. now rewrite app_nil_r.
      * left. exists n, y. split; [assumption|]. apply F; [eapply nth_error_In; eassumption|]. eexists. rewrite <- app_assoc. split; [reflexivity|assumption].
  - assert (E : places v a = [(a, v)]) by (destruct v; try reflexivity; [now destruct (Hl l)|now destruct (Hd d)]). rewrite E. split.
    + intros [[= <- <-]|[]]. exists []. rewrite app_nil_r. split; [reflexivity|constructor].
    + intros (q & -> & H). inversion H; subst; [left; now rewrite app_nil_r|now destruct (Hd d)|now destruct (Hl l)].
Qed.
Definition place_lt (u w : path * val) : Prop := before (fst u) (fst w).
Lemma places_sorted v : tree v -> forall a, StronglySorted place_lt (places v a).
Proof.
  induction v as [d F|l F|v Hd Hl] using val_ind2; intros T a.
  - rewrite places_dict. apply tree_dict in T. destruct T as [N T]. rewrite Forall_forall in F, T. apply ss_app; [|repeat constructor|].
    + set (g := fun kv : string * val => (fst kv, places (snd kv) (a ++ [K (fst kv)]))).
      assert (Ns : NoDup (map fst (map g d))) by (rewrite map_map; exact N).
      assert (Hb : forall kl, In kl (by_key (map g d)) -> exists y, In (fst kl, y) d /\ snd kl = places y (a ++ [K (fst kl)])).
      { intros kl Hk. apply (Permutation_in _ (by_key_perm _)) in Hk. apply in_map_iff in Hk. destruct Hk as ([k y] & <- & Hk). exists y. split; [exact Hk|reflexivity]. }
      pose proof (by_key_sorted _ Ns) as Hs. clear Ns. induction Hs as [|kl r Hr IH Hlt]; [constructor|]. cbn [flat_map].
      destruct (Hb kl (or_introl eq_refl)) as (y & Hy & Ey). apply ss_app.
      * rewrite Ey. apply (F _ Hy), (T _ Hy).
      * apply IH. intros; apply Hb; now right.
      * intros [p x] [q z] Hp Hq. rewrite Ey in Hp. apply places_in in Hp. destruct Hp as (p' & -> & _).
        apply in_flat_map in Hq. destruct Hq as (kl2 & Hk2 & Hq). destruct (Hb kl2 (or_intror Hk2)) as (y2 & _ & Ey2). rewrite Ey2 in Hq.
        apply places_in in Hq. destruct Hq as (q' & -> & _). rewrite Forall_forall in Hlt. pose proof (Hlt kl2 Hk2) as Lt. unfold key_lt in Lt.
        right. exists a, (K (fst kl)), (K (fst kl2)), p', q'. cbn [fst]. rewrite <- !app_assoc. split; [reflexivity|]. split; [reflexivity|]. cbn. now apply str_lt_before.
    + intros [p x] [q z] Hp [[= <- <-]|[]]. left. cbn [fst]. apply in_flat_map in Hp. destruct Hp as (kl & Hk & Hp).
      apply (Permutation_in _ (by_key_perm _)) in Hk. apply in_map_iff in Hk. destruct Hk as ([k y] & <- & Hk). cbn in Hp. apply places_in in Hp.
      destruct Hp as (r & -> & _). exists (K k), r. now rewrite <- app_assoc.
  - rewrite places_arr. apply tree_arr in T. rewrite Forall_forall in F, T. apply ss_app; [|repeat constructor|].
    + generalize 0. induction l as [|x l IH]; intros i; [constructor|]. rewrite arr_cons. apply ss_app.
      * apply F; [now left|apply T; now left].
      * apply IH; intros; [apply F; [now right|assumption]|apply T; now right].
      * intros [p y] [q z] Hp Hq. apply places_in in Hp. destruct Hp as (p' & -> & _). apply arr_in in Hq. destruct Hq as (n & w & _ & Hq).
        apply places_in in Hq. destruct Hq as (q' & -> & _). right. exists a, (I i), (I (i + 1 + Z.of_nat n)), p', q'. cbn [fst]. rewrite <- !app_assoc.
        split; [reflexivity|]. split; [reflexivity|]. cbn. lia.
    + intros [p x] [q z] Hp [[= <- <-]|[]]. left. cbn [fst]. apply arr_in in Hp. destruct Hp as (n & y & _ & Hp). apply places_in in Hp.
      destruct Hp as (r & -> & _). eexists _, r. now rewrite <- app_assoc.
  - assert (E : places v a = [(a, v)]) by (destruct v; try reflexivity; [now destruct (Hl l)|now destruct (Hd d)]). rewrite E. repeat constructor.
Qed.
Lemma sorted_nodup (l : list (path * val)) : StronglySorted place_lt l -> NoDup (map fst l).
Proof.
  induction 1 as [|u l Hl IH Hu]; cbn; constructor; [|exact IH]. intros H. apply in_map_iff in H. destruct H as (w & E & Hw).
  rewrite Forall_forall in Hu. pose proof (Hu w Hw) as B. unfold place_lt in B. rewrite E in B. eapply before_asym; eauto.
Qed.

Lemma yields_in p l : snd (yields p l) = None -> forall i m, In (i, m) (fst (yields p l)) <-> exists x, In (i, x) l /\ getmatch p x = Ok (Some m).
Proof.
  induction l as [|[j y] l IH]; cbn [yields]; intros H i m; [split; [intros []|intros (x & [] & _)]|].
  destruct (getmatch p y) as [[m0|]|] eqn:G; [| |discriminate].
  - destruct (yields p l) as [out e]. cbn in *. rewrite (IH H). split.
    + intros [[= <- <-]|(x & Hx & Gx)]; [exists y; auto|exists x; auto].
    + intros (x & [[= <- <-]|Hx] & Gx); [left; congruence|right; eauto].
  - rewrite (IH H). split; [intros (x & Hx & Gx); exists x; split; [now right|exact Gx]|].
    intros (x & [[= <- <-]|Hx] & Gx); [congruence|eauto].
Qed.
Lemma yields_total p l : snd (yields p l) = None -> forall i x, In (i, x) l -> exists r, getmatch p x = Ok r.
Proof.
  induction l as [|[j y] l IH]; cbn [yields]; intros H i x; [intros []|].
  destruct (getmatch p y) as [[m0|]|] eqn:G; [| |discriminate].
  - destruct (yields p l) as [out e]. intros [[= <- <-]|Hx]; [eauto|]. eapply IH; eauto.
  - intros [[= <- <-]|Hx]; [eauto|]. eapply IH; eauto.
Qed.
Lemma yields_sorted p l : StronglySorted place_lt l -> StronglySorted before (map fst (fst (yields p l))).
Proof.
  induction 1 as [|[j y] l Hl IH Hu]; cbn [yields]; [constructor|].
  assert (Sub : forall i, In i (map fst (fst (yields p l))) -> exists x, In (i, x) l).
  { clear. induction l as [|[j y] l IH]; cbn [yields]; [intros i []|]. intros i. destruct (getmatch p y) as [[m0|]|].
    - destruct (yields p l) as [out e]. cbn in *. intros [<-|H]; [exists y; auto|]. destruct (IH _ H) as (x & Hx). exists x. auto.
    - intros H. destruct (IH _ H) as (x & Hx). exists x. cbn. auto.
    - intros []. }
  destruct (getmatch p y) as [[m0|]|]; [|exact IH|constructor].
  destruct (yields p l) as [out e]. cbn in *. constructor; [exact IH|]. apply Forall_forall. intros i Hi. destruct (Sub i Hi) as (x & Hx).
  rewrite Forall_forall in Hu. apply (Hu (i, x) Hx).
Qed.
Lemma yields_first p l : match yields p l with
  | ((i, m) :: _, _) => exists l1 x l2, l = l1 ++ (i, x) :: l2 /\ getmatch p x = Ok (Some m) /\ forall jy, In jy l1 -> getmatch p (snd jy) = Ok None
  | ([], None) => forall jy, In jy l -> getmatch p (snd jy) = Ok None
  | ([], Some e) => exists l1 jx l2, l = l1 ++ jx :: l2 /\ getmatch p (snd jx) = Raise e /\ forall jy, In jy l1 -> getmatch p (snd jy) = Ok None
  end.
Proof.
  induction l as [|[j y] l IH]; cbn [yields]; [intros jy []|]. destruct (getmatch p y) as [[m0|]|] eqn:G.
  - destruct (yields p l) as [out e]. exists [], y, l. split; [reflexivity|]. split; [exact G|]. intros jy [].
  - destruct (yields p l) as [[|[i m] out] [e|]].
    + destruct IH as (l1 & jx & l2 & -> & Gx & H). exists ((j, y) :: l1), jx, l2. split; [reflexivity|]. split; [exact Gx|]. intros jy [<-|Hj]; auto.
    + intros jy [<-|Hj]; auto.
    + destruct IH as (l1 & jx & l2 & -> & Gx & H). exists ((j, y) :: l1), jx, l2. split; [reflexivity|]. split; [exact Gx|]. intros jy [<-|Hj]; auto.
    + destruct IH as (l1 & jx & l2 & -> & Gx & H). exists ((j, y) :: l1), jx, l2. split; [reflexivity|]. split; [exact Gx|]. intros jy [<-|Hj]; auto.
  - exists [], (j, y), l. split; [reflexivity|]. split; [exact G|]. intros jy [].
Qed.

Lemma part_tree v p x : part v p x -> tree v -> tree x.
Proof.
  induction 1 as [|d k y p x Hk H IH|l n y p x Hn H IH]; auto; intros T.
  - apply tree_dict in T. destruct T as [_ T]. rewrite Forall_forall in T. apply IH, (T (k, y) Hk).
  - apply tree_arr in T. rewrite Forall_forall in T. apply IH, T. eapply nth_error_In; eauto.
Qed.

(** *** Indexes *)
Inductive reach : val -> path -> val -> Prop :=
| reach_whole v : reach v [] v
| reach_key d k y p x : assoc k d = Some y -> reach y p x -> reach (VDict d) (K k :: p) x
| reach_item l n y p x : nth_error l n = Some y -> reach y p x -> reach (VArr l) (I (Z.of_nat n) :: p) x.
Lemma part_reach v p x : tree v -> part v p x -> reach v p x.
Proof.
  intros T H. induction H as [|d k y p x Hk H IH|l n y p x Hn H IH]; [constructor| |].
  - apply tree_dict in T. destruct T as [N T]. eapply reach_key; [eapply in_assoc; eassumption|]. rewrite Forall_forall in T. apply IH, (T _ Hk).
  - apply tree_arr in T. rewrite Forall_forall in T. econstructor; [eassumption|]. apply IH, T. eapply nth_error_In; eauto.
Qed.
Lemma offset_nat {A} (l : list A) n y : nth_error l n = Some y -> offset l (Z.of_nat n) = Some n.
Proof.
  intros H. assert (n < length l)%nat by (apply nth_error_Some; congruence). unfold offset.
  replace (Z.of_nat n <? 0) with false by (symmetry; apply Z.ltb_ge; lia).
  replace (0 <=? Z.of_nat n) with true by (symmetry; apply Z.leb_le; lia).
  replace (Z.of_nat n <? Z.of_nat (length l)) with true by (symmetry; apply Z.ltb_lt; lia). cbn. now rewrite Nat2Z.id.
Qed.
Lemma item_nat l n y : nth_error l n = Some y -> item (VArr l) (I (Z.of_nat n)) = Ok y.
Proof. intros H. cbn. now rewrite (offset_nat _ _ _ H), H. Qed.
Lemma reach_get v p x : reach v p x -> get v p = Ok x.
Proof. induction 1 as [|d k y p x Hk H IH|l n y p x Hn H IH]; [reflexivity| |]; cbn [get]; [cbn [item]; rewrite Hk|rewrite (item_nat _ _ _ Hn)]; exact IH. Qed.

Fixpoint write (v : val) (p : path) (w : val) : val :=
  match p with
  | [] => w
  | K k :: p' => match v with VDict d => match assoc k d with Some y => VDict (dict_set k (write y p' w) d) | None => v end | _ => v end
  | I i :: p' => match v with
                 | VArr l => match nth_error l (Z.to_nat i) with Some y => VArr (set_nth (Z.to_nat i) (write y p' w) l) | None => v end
                 | _ => v
                 end
  end.
Lemma nth_set {A} (l : list A) : forall n x y, nth_error l n = Some y -> nth_error (set_nth n x l) n = Some x.
Proof. induction l as [|z l IH]; intros [|n] x y; cbn; try discriminate; auto. apply IH. Qed.
Lemma nth_set_other {A} (l : list A) : forall n j x, n <> j -> nth_error (set_nth n x l) j = nth_error l j.
Proof. induction l as [|z l IH]; intros [|n] [|j] x N; cbn; auto; try congruence. Qed.
Lemma set_length {A} (l : list A) : forall n x, length (set_nth n x l) = length l.
Proof. induction l as [|z l IH]; intros [|n] x; cbn; auto. Qed.
Lemma set_set {A} (l : list A) : forall n x y, set_nth n y (set_nth n x l) = set_nth n y l.
Proof. induction l as [|z l IH]; intros [|n] x y; cbn; auto. now rewrite IH. Qed.
Lemma set_same {A} (l : list A) : forall n x, nth_error l n = Some x -> set_nth n x l = l.
Proof. induction l as [|z l IH]; intros [|n] x; cbn; try discriminate; [now intros [= ->]|]. intros H. now rewrite IH. Qed.
Lemma dset_set {A} k (x y : A) d : dict_set k y (dict_set k x d) = dict_set k y d.
Proof. induction d as [|[j z] d IH]; cbn; [now rewrite String.eqb_refl|]. destruct (String.eqb k j) eqn:E; cbn; rewrite E; [reflexivity|]. now rewrite IH. Qed.
Lemma dset_same {A} k (x : A) d : assoc k d = Some x -> dict_set k x d = d.
Proof. induction d as [|[j z] d IH]; cbn; [discriminate|]. destruct (String.eqb k j) eqn:E; [now intros [= ->]|]. intros H. now rewrite IH. Qed.
Lemma write_item l n y p w : nth_error l n = Some y -> write (VArr l) (I (Z.of_nat n) :: p) w = VArr (set_nth n (write y p w) l).
Proof. intros H. cbn [write]. now rewrite Nat2Z.id, H. Qed.
Lemma write_key d k y p w : assoc k d = Some y -> write (VDict d) (K k :: p) w = VDict (dict_set k (write y p w) d).
Proof. intros H. cbn [write]. now rewrite H. Qed.
Lemma reach_write v p x w : reach v p x -> reach (write v p w) p w.
Proof.
  induction 1 as [|d k y p x Hk H IH|l n y p x Hn H IH]; [constructor| |].
  - rewrite (write_key _ _ _ _ _ Hk). econstructor; [apply assoc_set_eq|exact IH].
  - rewrite (write_item _ _ _ _ _ Hn). econstructor; [eapply nth_set; eassumption|exact IH].
Qed.
Lemma write_write v p x w w' : reach v p x -> write (write v p w) p w' = write v p w'.
Proof.
  induction 1 as [|d k y p x Hk H IH|l n y p x Hn H IH]; [reflexivity| |].
  - rewrite !(write_key _ _ _ _ _ Hk), (write_key _ _ _ _ _ (assoc_set_eq _ _ _)). now rewrite dset_set, IH.
  - rewrite !(write_item _ _ _ _ _ Hn), (write_item _ _ _ _ _ (nth_set _ _ _ _ Hn)). now rewrite set_set, IH.
Qed.
Lemma write_same v p x : reach v p x -> write v p x = v.
Proof.
  induction 1 as [|d k y p x Hk H IH|l n y p x Hn H IH]; [reflexivity| |].
  - rewrite (write_key _ _ _ _ _ Hk), IH. now rewrite dset_same.
  - rewrite (write_item _ _ _ _ _ Hn), IH. now rewrite set_same.
Qed.
Lemma write_app v p x q w : reach v p x -> write v (p ++ q) w = write v p (write x q w).
Proof.
  induction 1 as [|d k y p x Hk H IH|l n y p x Hn H IH]; [reflexivity| |]; cbn [app].
  - rewrite !(write_key _ _ _ _ _ Hk). now rewrite IH.
  - rewrite !(write_item _ _ _ _ _ Hn). now rewrite IH.
Qed.
Lemma reach_app v p x q y : reach v p x -> reach x q y -> reach v (p ++ q) y.
Proof. induction 1 as [|d k z p x Hk H IH|l n z p x Hn H IH]; intros Hq; [exact Hq| |]; cbn [app]; econstructor; eauto. Qed.
Lemma put_key d k y w : assoc k d = Some y -> put (VDict d) (K k) w = Ok (write (VDict d) [K k] w).
Proof. intros H. now rewrite (write_key _ _ _ _ _ H). Qed.
Lemma put_item l n y w : nth_error l n = Some y -> put (VArr l) (I (Z.of_nat n)) w = Ok (write (VArr l) [I (Z.of_nat n)] w).
Proof. intros H. rewrite (write_item _ _ _ _ _ H). cbn. now rewrite (offset_nat _ _ _ H). Qed.
Lemma change_spec f v p x i : reach v p x -> change f v (p ++ [i]) = (y <- f x i ;; Ok (write v p y)).
Proof.
  induction 1 as [v|d k y p x Hk H IH|l n y p x Hn H IH].
  - cbn. now destruct (f v i).
  - replace (change f (VDict d) ((K k :: p) ++ [i])) with (z <- item (VDict d) (K k) ;; r <- change f z (p ++ [i]) ;; put (VDict d) (K k) r) by (destruct p; reflexivity).
    cbn [item]. rewrite Hk. cbn [rbind]. rewrite IH. destruct (f x i); cbn [rbind]; [|reflexivity].
    rewrite (put_key _ _ _ _ Hk), !(write_key _ _ _ _ _ Hk). reflexivity.
  - replace (change f (VArr l) ((I (Z.of_nat n) :: p) ++ [i])) with
      (z <- item (VArr l) (I (Z.of_nat n)) ;; r <- change f z (p ++ [i]) ;; put (VArr l) (I (Z.of_nat n)) r) by (destruct p; reflexivity).
    rewrite (item_nat _ _ _ Hn). cbn [rbind]. rewrite IH. destruct (f x i); cbn [rbind]; [|reflexivity].
    rewrite (put_item _ _ _ _ Hn), !(write_item _ _ _ _ _ Hn). reflexivity.
Qed.
Lemma reach_last v p x : reach v p x -> p <> [] -> exists q i y, p = q ++ [i] /\ reach v q y /\ reach y [i] x.
Proof.
  induction 1 as [|d k y p x Hk H IH|l n y p x Hn H IH]; intros N; [congruence| |].
  - destruct p as [|j p]; [inversion H; subst; exists [], (K k), (VDict d); split; [reflexivity|]; split; [constructor|econstructor; [eassumption|constructor]]|].
    destruct (IH ltac:(discriminate)) as (q & i & z & E & H1 & H2). exists (K k :: q), i, z. rewrite E. split; [reflexivity|]. split; [econstructor; eauto|exact H2].
  - destruct p as [|j p]; [inversion H; subst; exists [], (I (Z.of_nat n)), (VArr l); split; [reflexivity|]; split; [constructor|econstructor; [eassumption|constructor]]|].
    destruct (IH ltac:(discriminate)) as (q & i & z & E & H1 & H2). exists (I (Z.of_nat n) :: q), i, z. rewrite E. split; [reflexivity|]. split; [econstructor; eauto|exact H2].
Qed.
Lemma assigned_write v p x w : reach v p x -> p <> [] -> assigned v p w = Ok (write v p w).
Proof.
  intros H N. destruct (reach_last _ _ _ H N) as (q & i & y & -> & Hq & Hi). unfold assigned. rewrite (change_spec _ _ _ _ _ Hq), (write_app _ _ _ _ _ Hq).
  inversion Hi; subst; [erewrite put_key by eassumption|erewrite put_item by eassumption]; reflexivity.
Qed.
Lemma item_plain l i : 0 <= i -> item (VArr l) (I i) = match nth_error l (Z.to_nat i) with Some x => Ok x | None => Raise (PyErr "IndexError") end.
Proof.
  intros H. cbn. unfold offset. replace (i <? 0) with false by (symmetry; apply Z.ltb_ge; lia). replace (0 <=? i) with true by (symmetry; apply Z.leb_le; lia). cbn [andb].
  destruct (Z.ltb_spec i (Z.of_nat (length l))) as [L|L]; [reflexivity|]. rewrite (proj2 (nth_error_None l (Z.to_nat i))); [reflexivity|lia].
Qed.
Lemma get_write_apart v p x w q : reach v p x -> apart p q -> plain q -> get (write v p w) q = get v q.
Proof.
  intros H (c & a & b & p' & q' & Ep & Eq & N). revert p x q p' q' v H Ep Eq. induction c as [|s c IH]; intros p x q p' q' v H Ep Eq Pq; subst.
  - cbn [app] in *. inversion H as [|d0 k0 y0 r0 x0 H3 H4 E1 E2 E3|l0 n0 y0 r0 x0 H3 H4 E1 E2 E3]; subst; cbn [get].
    + rewrite (write_key _ _ _ _ _ H3). destruct b as [j|j]; [|reflexivity]. cbn [item]. rewrite assoc_set_neq by congruence. reflexivity.
    + rewrite (write_item _ _ _ _ _ H3). destruct b as [j|j]; [reflexivity|]. assert (0 <= j) by (apply Pq; now left).
      rewrite !item_plain by assumption. rewrite nth_set_other; [reflexivity|]. intros E. apply N. f_equal. lia.
  - cbn [app] in *. assert (Pq' : plain (c ++ b :: q')) by (intros i Hi; apply Pq; now right). inversion H as [|d0 k0 y0 r0 x0 H3 H4 E1 E2 E3|l0 n0 y0 r0 x0 H3 H4 E1 E2 E3]; subst; cbn [get].
    + rewrite (write_key _ _ _ _ _ H3). cbn [item]. rewrite assoc_set_eq, H3. cbn [rbind]. eapply IH; eauto.
    + rewrite (write_item _ _ _ _ _ H3). rewrite (item_nat _ _ _ (nth_set _ _ _ _ H3)), (item_nat _ _ _ H3). cbn [rbind]. eapply IH; eauto.
Qed.

(** *** Replacing *)
Section Walk.
  Variables (p : pat) (to : val) (f : val -> val).
  Hypothesis T : forall x, exists r, getmatch p x = Ok r.
  Hypothesis Ff : forall x, (getmatch p x = Ok None -> f x = x) /\ (forall m, getmatch p x = Ok (Some m) -> f x = to).
  Definition run : list (val -> res val) -> val -> res val :=
    fix run (l : list (val -> res val)) (root : val) : res val := match l with [] => Ok root | g :: l' => r <- g root ;; run l' r end.
  Definition arr_walk (a : path) : list val -> Z -> list (val -> res val) :=
    fix go (l : list val) (i : Z) : list (val -> res val) := match l with [] => [] | x :: l' => walk p to x (a ++ [I i]) :: go l' (i + 1) end.
  Definition test (a : path) (root : val) : res val :=
    x <- get root a ;; r <- getmatch p x ;; match r with Some _ => assigned root a to | None => Ok root end.
  Lemma walk_dict d a root : walk p to (VDict d) a root =
    (root' <- run (map snd (by_key (map (fun kv => (fst kv, walk p to (snd kv) (a ++ [K (fst kv)]))) d))) root ;; test a root').
  Proof. reflexivity. Qed.
  Lemma walk_arr l a root : walk p to (VArr l) a root = (root' <- run (arr_walk a l 0) root ;; test a root').
  Proof. reflexivity. Qed.
  Lemma run_cons g l root : run (g :: l) root = (r <- g root ;; run l r).
  Proof. reflexivity. Qed.
  Lemma arr_walk_cons a x l i : arr_walk a (x :: l) i = walk p to x (a ++ [I i]) :: arr_walk a l (i + 1).
  Proof. reflexivity. Qed.

  (** what walk does below the root *)
  Definition walks (v : val) : Prop := forall root a, reach root a v -> a <> [] -> exists w, replaced f v w /\ walk p to v a root = Ok (write root a w).
  Definition partly (done : list string) (d e : list (string * val)) : Prop :=
    Forall2 (fun kx ky => fst kx = fst ky /\ (In (fst kx) done -> replaced f (snd kx) (snd ky)) /\ (~ In (fst kx) done -> snd ky = snd kx)) d e.
  Lemma partly_assoc done d e k x : NoDup (map fst d) -> partly done d e -> ~ In k done -> In (k, x) d -> assoc k e = Some x.
  Proof using Type.
    intros N H Nk. revert N. induction H as [|[j y] [j' z] d e (Ej & _ & H2) H IH]; cbn in *; intros N; [intros []|]. subst j'. inversion N; subst.
    intros [[= -> ->]|Hk]; [rewrite String.eqb_refl; now rewrite H2|]. destruct (String.eqb_spec k j) as [->|Ne]; [|auto].
    exfalso. apply H3. apply in_map_fst. eauto.
  Qed.
  Lemma partly_more done d e k : ~ In k (map fst d) -> partly done d e -> partly (k :: done) d e.
  Proof using Type.
    intros N H. eapply Forall2_impl_in; [|exact H]. intros [j x] [j' y] Hj (Ej & H1 & H2). cbn in *. split; [exact Ej|].
    split; [intros [->|C]; [exfalso; apply N, in_map_fst; eauto|auto]|]. intros C. apply H2. tauto.
  Qed.
  Lemma partly_set done d e k x w : NoDup (map fst d) -> partly done d e -> ~ In k done -> In (k, x) d -> replaced f x w -> partly (k :: done) d (dict_set k w e).
  Proof using Type.
    intros N H Nk. revert N. induction H as [|[j y] [j' z] d e (Ej & H1 & H2) H IH]; cbn in *; intros N; [intros []|]. subst j'. inversion N as [|? ? N1 N2]; subst.
    intros [[= -> ->]|Hk] R.
    - rewrite String.eqb_refl. constructor; cbn.
      + split; [reflexivity|]. split; [auto|]. intros C. exfalso. apply C. now left.
      + now apply partly_more.
    - destruct (String.eqb_spec k j) as [->|Ne]; [exfalso; apply N1; apply in_map_fst; eauto|]. constructor; cbn.
      + split; [reflexivity|]. split; [intros [->|Hj]; [congruence|auto]|]. intros C. apply H2. tauto.
      + now apply IH.
  Qed.
  Lemma run_dict d a root : NoDup (map fst d) -> Forall (fun kx => walks (snd kx)) d -> reach root a (VDict d) ->
    forall l done e, partly done d e -> NoDup (map fst l) -> (forall k g, In (k, g) l -> ~ In k done /\ exists x, In (k, x) d /\ g = walk p to x (a ++ [K k])) ->
    exists e', run (map snd l) (write root a (VDict e)) = Ok (write root a (VDict e')) /\ forall done', (forall k, In k done' <-> In k done \/ In k (map fst l)) -> partly done' d e'.
  Proof using T Ff.
    intros Nd F R. rewrite Forall_forall in F. induction l as [|[k g] l IH]; intros done e He Nl Hl.
    - exists e. split; [reflexivity|]. intros done' E. eapply Forall2_impl_in; [|exact He]. intros [j x] [j' y] _ (Ej & H1 & H2). cbn in *. split; [exact Ej|].
      split; intros H; [apply H1; apply E in H; tauto|apply H2; intros C; apply H, E; auto].
    - inversion Nl; subst. destruct (Hl k g (or_introl eq_refl)) as (Nk & x & Hx & ->). cbn [map snd]. rewrite run_cons.
      pose proof (partly_assoc _ _ _ _ _ Nd He Nk Hx) as Ex.
      assert (R0 : reach (write root a (VDict e)) (a ++ [K k]) x).
      { eapply reach_app; [eapply reach_write; eassumption|]. econstructor; [exact Ex|constructor]. }
      destruct (F (k, x) Hx _ _ R0) as (w & Hw & Ew); [destruct a; discriminate|]. cbn [snd] in Ew. rewrite Ew. cbn [rbind].
      rewrite (write_app _ _ _ _ _ (reach_write _ _ _ (VDict e) R)), (write_write _ _ _ _ _ R), (write_key _ _ _ _ _ Ex). cbn [write].
      destruct (IH (k :: done) (dict_set k w e)) as (e' & E' & P').
      + eapply partly_set; eauto.
      + assumption.
      + intros j g Hj. destruct (Hl j g (or_intror Hj)) as (Nj & y & Hy & Eg). split; [|eauto]. intros [->|C]; [|auto]. apply H1. apply in_map_fst. eauto.
      + exists e'. split; [exact E'|]. intros done' E. apply P'. intros j. rewrite E. cbn. tauto.
  Qed.
  Lemma run_arr a root l0 : reach root a (VArr l0) ->
    forall l done ws, Forall walks l -> Forall2 (replaced f) done ws ->
    exists m, run (arr_walk a l (Z.of_nat (length done))) (write root a (VArr (ws ++ l))) = Ok (write root a (VArr m)) /\ Forall2 (replaced f) (done ++ l) m.
  Proof using T Ff.
    intros R. induction l as [|x l IH]; intros done ws F H.
    - exists ws. rewrite !app_nil_r. split; [reflexivity|exact H].
    - inversion F; subst. rewrite arr_walk_cons, run_cons. assert (L : length done = length ws) by (clear - H; induction H; cbn; congruence).
      assert (Ex : nth_error (ws ++ x :: l) (length done) = Some x) by (rewrite L, nth_error_app2, Nat.sub_diag by lia; reflexivity).
      assert (R0 : reach (write root a (VArr (ws ++ x :: l))) (a ++ [I (Z.of_nat (length done))]) x).
      { eapply reach_app; [eapply reach_write; eassumption|]. econstructor; [exact Ex|constructor]. }
      destruct (H2 _ _ R0) as (w & Hw & Ew); [destruct a; discriminate|]. rewrite Ew. cbn [rbind].
      rewrite (write_app _ _ _ _ _ (reach_write _ _ _ (VArr (ws ++ x :: l)) R)), (write_write _ _ _ _ _ R), (write_item _ _ _ _ _ Ex). cbn [write].
      assert (Es : set_nth (length done) w (ws ++ x :: l) = (ws ++ [w]) ++ l).
      { rewrite L, <- app_assoc. clear. induction ws as [|y ws IH]; [reflexivity|]. cbn. now rewrite IH. }
      rewrite Es. destruct (IH (done ++ [x]) (ws ++ [w]) H3) as (m & Em & Hm); [apply Forall2_app; auto|].
      exists m. rewrite <- app_assoc in Hm. split; [|exact Hm]. rewrite app_length in Em. cbn [length] in Em.
      replace (Z.of_nat (length done + 1)) with (Z.of_nat (length done) + 1) in Em by lia. exact Em.
  Qed.
  Lemma test_below v root a w : reach root a v -> a <> [] -> test a (write root a w) = Ok (write root a (f w)).
  Proof using T Ff.
    intros R Na. unfold test. rewrite (reach_get _ _ _ (reach_write _ _ _ w R)). cbn [rbind]. destruct (T w) as [r Er]. rewrite Er. cbn [rbind]. destruct r as [m|].
    - rewrite (assigned_write _ _ _ _ (reach_write _ _ _ w R) Na), (write_write _ _ _ _ _ R). now rewrite (proj2 (Ff w) m Er).
    - now rewrite (proj1 (Ff w) Er).
  Qed.
  Lemma children v : tree v -> forall root a, reach root a v -> (forall kx d, v = VDict d -> In kx d -> walks (snd kx)) -> (forall x l, v = VArr l -> In x l -> walks x) ->
    exists w, inside f v w /\ walk p to v a root = test a (write root a w).
  Proof using T Ff.
    intros Tv root a R Hd Hl. assert (E0 : root = write root a v) by (symmetry; now apply write_same). destruct v as [| | | | | |l|d];
      try (eexists; split; [reflexivity|]; rewrite (write_same _ _ _ R); reflexivity).
    - rewrite walk_arr. destruct (run_arr a root l R l [] []) as (m & Em & Hm); [apply Forall_forall; eauto|constructor|].
      cbn [length app] in *. exists (VArr m). split; [exists m; auto|]. rewrite (write_same _ _ _ R) in Em. change (Z.of_nat 0) with 0 in Em. rewrite Em. reflexivity.
    - rewrite walk_dict. apply tree_dict in Tv. destruct Tv as [N _]. set (g := fun kv : string * val => (fst kv, walk p to (snd kv) (a ++ [K (fst kv)]))).
      assert (Pm : Permutation (map fst (by_key (map g d))) (map fst d)).
      { rewrite (Permutation_map fst (by_key_perm (map g d))), map_map. reflexivity. }
      destruct (run_dict d a root N) with (l := by_key (map g d)) (done := @nil string) (e := d) as (e & Ee & He).
      + apply Forall_forall. intros kx Hk. eapply Hd; eauto.
      + exact R.
      + clear. induction d as [|kx d IH]; constructor; [|exact IH]. split; [reflexivity|]. split; [intros []|reflexivity].
      + eapply Permutation_NoDup; [apply Permutation_sym, Pm|exact N].
      + intros k h Hk. split; [intros []|]. apply (Permutation_in _ (by_key_perm _)) in Hk. apply in_map_iff in Hk. destruct Hk as ([j x] & [= <- <-] & Hk). eauto.
      + exists (VDict e). rewrite (write_same _ _ _ R) in Ee. rewrite Ee. split; [|reflexivity]. exists e. split; [reflexivity|].
        specialize (He (map fst d)). eapply Forall2_impl_in; [|apply He].
        * intros [j x] [j' y] Hin (Ej & H1 & _). split; [exact Ej|]. apply H1. now apply (in_map fst) in Hin.
        * intros k. split; [intros Hk; right; eapply Permutation_in; [apply Permutation_sym, Pm|exact Hk]|]. intros [[]|Hk]. eapply Permutation_in; [exact Pm|exact Hk].
  Qed.
  Lemma inside_replaced v w : inside f v w -> replaced f v (f w).
  Proof using Type.
    destruct v; cbn; try (intros ->; apply rep_leaf; discriminate).
    - intros (m & -> & H). now constructor.
    - intros (e & -> & H). now constructor.
  Qed.
  Lemma walk_below v : tree v -> walks v.
  Proof using T Ff.
    induction v as [d F|l F|v Hd Hl] using val_ind2; intros Tv root a R Na.
    - rewrite Forall_forall in F. pose proof Tv as Tv'. apply tree_dict in Tv'. destruct Tv' as [_ Td]. rewrite Forall_forall in Td.
      destruct (children (VDict d) Tv root a R) as (w & Hw & Ew); [intros kx d' [= <-] Hk; apply F; auto|discriminate|].
      exists (f w). split; [now apply inside_replaced|]. rewrite Ew. now apply test_below with (VDict d).
    - rewrite Forall_forall in F. pose proof Tv as Tv'. apply tree_arr in Tv'. rewrite Forall_forall in Tv'.
      destruct (children (VArr l) Tv root a R) as (w & Hw & Ew); [discriminate|intros x l' [= <-] Hx; apply F; auto|].
      exists (f w). split; [now apply inside_replaced|]. rewrite Ew. now apply test_below with (VArr l).
    - destruct (children v Tv root a R) as (w & Hw & Ew); [intros kx d -> ; now destruct (Hd d)|intros x l ->; now destruct (Hl l)|].
      exists (f w). split; [now apply inside_replaced|]. rewrite Ew. now apply test_below with v.
  Qed.
  Lemma walk_root v : tree v -> exists w, inside f v w /\ assignedAt p v to = test [] w.
  Proof using T Ff.
    intros Tv. destruct (children v Tv v [] (reach_whole v)) as (w & Hw & Ew).
    - intros kx d -> Hk. apply walk_below. apply tree_dict in Tv. destruct Tv as [_ Td]. rewrite Forall_forall in Td. auto.
    - intros x l -> Hx. apply walk_below. apply tree_arr in Tv. rewrite Forall_forall in Tv. auto.
    - exists w. split; [exact Hw|exact Ew].
  Qed.
End Walk.
