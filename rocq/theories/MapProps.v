(** Theorems about the map library: C30, C31. *)
From Verif Require Import Base Effects ArrayModel ArraySpec ArrayProofs SortProofs ArrayProofs2 MapModel MapSpec MapProofs.
From Coq Require Import Permutation Sorting.Sorted.
Open Scope string_scope.
Open Scope list_scope.
Open Scope Z_scope.

Lemma filter_is {A} (p : string * A -> bool) (m : list (string * A)) (P : string -> A -> Prop) : proper m ->
  (forall k v, p (k, v) = true <-> P k v) -> is_map (dict_of (filter p m)) (fun k v => entry m k v /\ P k v).
Proof.
  intros H E. split; [apply of_proper|]. intros k v. rewrite of_entry_proper by (apply filter_proper; auto).
  unfold entry. rewrite filter_In, E. tauto.
Qed.
Lemma over_is {A} (a b : list (string * A)) : proper a -> proper b ->
  is_map (dict_of (a ++ b)) (fun k v => entry b k v \/ (entry a k v /\ ~ domain b k)).
Proof.
  intros Pa Pb. split; [apply of_proper|]. intros k v. unfold dict_of. rewrite fold_left_app.
  fold (@dict_of A a). rewrite (of_id a) by auto. rewrite into_entry by auto. rewrite domain_keys.
  rewrite <- of_entry, of_entry_proper by auto. tauto.
Qed.
Lemma join_entry {A} (l : list (list (string * A))) m k v : proper m -> Forall proper l ->
  (entry (fold_left (fun d kv => dict_set (fst kv) (snd kv) d) (concat l) m) k v <->
   decides l k v \/ (entry m k v /\ forall m', In m' l -> ~ domain m' k)).
Proof.
  revert m. induction l as [|x l IH]; cbn [concat]; intros m P F.
  - cbn. split; [right; split; auto|]. intros [(p & y & q & E & _)|[H _]]; auto. destruct p; discriminate.
  - inversion F as [|? ? Px F']; subst. rewrite fold_left_app. rewrite IH by (auto; apply into_proper; auto).
    rewrite into_entry by auto. rewrite <- of_entry, of_entry_proper by auto. split.
    + intros [(p & y & q & -> & E & N)|[[E|[E N]] N']].
      * left. exists (x :: p), y, q. auto.
      * left. exists [], x, l. auto.
      * right. split; auto. intros m' [<-|H]; auto. rewrite domain_keys. auto.
    + intros [(p & y & q & E & E2 & N)|[E N]].
      * destruct p as [|z p]; cbn in E; injection E as -> ->; [auto|]. left. exists p, y, q. auto.
      * right. split; [|intros; apply N; right; auto]. right. split; auto. rewrite <- domain_keys. apply N. left; auto.
Qed.

(** * C30: map operations are finite map operations *)
Theorem C30_add : forall A (m : list (string * A)) k v, proper m ->
  is_map (m_add m k v) (fun k' v' => (k' = k /\ v' = v) \/ (k' <> k /\ entry m k' v')).
Proof. intros A m k v P. split; [apply set_proper; auto|]. intros. apply set_entry; auto. Qed.
Theorem C30_remove : forall A (m : list (string * A)) k, proper m ->
  is_map (m_remove m k) (fun k' v' => k' <> k /\ entry m k' v').
Proof. intros. apply del_is; auto. Qed.
Theorem C30_only_except : forall A (m : list (string * A)) ks, proper m ->
  is_map (m_only m ks) (fun k v => entry m k v /\ In k ks) /\
  is_map (m_except m ks) (fun k v => entry m k v /\ ~ In k ks).
Proof.
  intros A m ks P. split; apply filter_is; auto; intros k v; cbn.
  - apply str_in_In.
  - rewrite Bool.negb_true_iff, <- str_in_In. destruct (str_in k ks); intuition congruence.
Qed.
Theorem C30_update_union : forall A (a b : list (string * A)), proper a -> proper b ->
  is_map (m_update a b) (fun k v => entry b k v \/ (entry a k v /\ ~ domain b k)) /\ m_union a b = m_update a b.
Proof. intros. split; [apply over_is; auto|reflexivity]. Qed.
Theorem C30_split_join : forall A (m : list (string * A)), proper m ->
  m_join (m_split m) = m /\ Forall (fun x => length x = 1%nat) (m_split m) /\ length (m_split m) = length m /\
  forall k v, In [(k, v)] (m_split m) <-> entry m k v.
Proof.
  intros A m P. unfold m_join, m_split. split; [|split; [|split]].
  - replace (concat (map (fun kv => [kv]) m)) with m; [apply of_id; auto|]. clear P. induction m; cbn; congruence.
  - apply Forall_forall. intros x H. apply in_map_iff in H as (y & <- & _). reflexivity.
  - apply map_length.
  - intros k v. rewrite in_map_iff. unfold entry. split; [intros (x & E & H); congruence|]. intros. exists (k, v). auto.
Qed.
Theorem C30_join : forall A (l : list (list (string * A))), Forall proper l -> is_map (m_join l) (decides l).
Proof.
  intros A l F. split; [apply of_proper|]. intros k v. unfold m_join, dict_of. rewrite join_entry; auto; [|constructor].
  split; [intros [|[[] _]]|]; auto.
Qed.
Theorem C30_access : forall A (m : list (string * A)), proper m ->
  m_len m = Z.of_nat (length m) /\ NoDup (m_keys m) /\ (forall k, In k (m_keys m) <-> domain m k) /\
  (forall v, In v (m_values m) <-> exists k, entry m k v) /\ (forall k, m_containsKey m k = true <-> domain m k) /\
  (forall eqb v, m_containsValue eqb m v = true <-> exists k x, entry m k x /\ eqb x v = true).
Proof.
  intros A m P. split; [reflexivity|]. split; [exact P|]. split; [intros; symmetry; apply domain_keys|]. split; [|split].
  - intros v. unfold m_values, entry. rewrite in_map_iff. split; [intros ([k x] & <- & H); eauto|intros [k H]; exists (k, v); auto].
  - intros. apply has_domain.
  - intros eqb v. unfold m_containsValue, entry. rewrite existsb_exists. split.
    + intros (x & H & E). apply in_map_iff in H as ([k y] & <- & H). eauto.
    + intros (k & x & H & E). exists x. split; auto. apply in_map_iff. exists (k, x). auto.
Qed.
Theorem C30_sets : forall A (a b : list (string * A)), proper a -> proper b ->
  is_map (m_intersection a b) (fun k v => entry a k v /\ domain b k) /\
  is_map (m_diff a b) (fun k v => entry a k v /\ ~ domain b k) /\
  is_map (m_symdiff a b) (fun k v => (entry a k v /\ ~ domain b k) \/ (entry b k v /\ ~ domain a k)) /\
  (m_subset a b = true <-> forall k, domain a k -> domain b k) /\
  (m_disjoint a b = true <-> forall k, domain a k -> domain b k -> False).
Proof.
  intros A a b Pa Pb. split; [|split; [|split; [|split]]].
  - apply filter_is; auto. intros. apply has_domain.
  - apply filter_is; auto. intros. cbn. rewrite Bool.negb_true_iff. apply has_domain_not.
  - split; [apply of_proper|]. intros k v. unfold m_symdiff. rewrite filter_app.
    set (p := fun kv : string * A => xorb (has_key (fst kv) a) (has_key (fst kv) b)).
    destruct (over_is (filter p a) (filter p b)) as [_ ->]; try (apply filter_proper; auto).
    rewrite domain_keys, in_map_iff. unfold entry. rewrite !filter_In. unfold p at 1 2. cbn [fst].
    assert (forall m : list (string * A), In (k, v) m -> has_key k m = true) as D by (intros m H; apply has_domain; exists v; auto).
    rewrite <- !has_domain. split.
    + intros [[H E]|[[H E] _]]; rewrite (D _ H) in E; [right|left]; split; auto; destruct (has_key k a), (has_key k b); discriminate.
    + intros [[H E]|[H E]].
      * right. rewrite (D _ H). apply Bool.not_true_is_false in E. rewrite E. split; auto.
        intros ([k' v'] & <- & H'). apply filter_In in H' as [H' _]. cbn [fst] in E. apply has_domain_not in E. apply E. exists v'. auto.
      * left. rewrite (D _ H). apply Bool.not_true_is_false in E. rewrite E. auto.
  - unfold m_subset. rewrite forallb_forall. split; intros H k.
    + rewrite domain_keys. intros Hk. apply has_domain, H. auto.
    + rewrite <- domain_keys. intros Hk. apply has_domain, H. auto.
  - unfold m_disjoint. rewrite Bool.negb_true_iff. split.
    + intros H k Ha Hb. assert (existsb (fun k => has_key k b) (map fst a) = true); [|congruence].
      apply existsb_exists. exists k. rewrite <- domain_keys, has_domain. auto.
    + intros H. apply Bool.not_true_is_false. rewrite existsb_exists. intros (k & Hk & Hb).
      apply has_domain in Hb. apply domain_keys in Hk. eauto.
Qed.

(** Sets of items: maps whose keys are the encodings of their values *)
Definition set_of {A} (to_key : A -> string) (s : list (string * A)) : Prop := proper s /\ forall k x, entry s k x -> k = to_key x.
Definition member {A} (s : list (string * A)) (x : A) : Prop := exists k, entry s k x.
Theorem C30_toset : forall A (to_key : A -> string), (forall x y, to_key x = to_key y -> x = y) ->
  (forall a, set_of to_key (m_toset to_key a) /\ forall x, member (m_toset to_key a) x <-> In x a) /\
  (forall s, set_of to_key s ->
     (forall x, m_in to_key s x = true <-> member s x) /\ NoDup (m_fromset s) /\ (forall x, In x (m_fromset s) <-> member s x) /\
     (forall x, set_of to_key (m_add_item to_key s x) /\ forall y, member (m_add_item to_key s x) y <-> y = x \/ member s y)) /\
  (forall s t, set_of to_key s -> set_of to_key t ->
     set_of to_key (m_union s t) /\ set_of to_key (m_intersection s t) /\ set_of to_key (m_diff s t) /\ set_of to_key (m_symdiff s t) /\
     forall x, (member (m_union s t) x <-> member s x \/ member t x) /\
               (member (m_intersection s t) x <-> member s x /\ member t x) /\
               (member (m_diff s t) x <-> member s x /\ ~ member t x) /\
               (member (m_symdiff s t) x <-> (member s x /\ ~ member t x) \/ (member t x /\ ~ member s x))).
Proof.
  intros A key Inj.
  assert (forall s, set_of key s -> forall x, member s x <-> entry s (key x) x) as Mem.
  { intros s [P E] x. split; [intros [k H]; rewrite <- (E _ _ H); auto|intros H; exists (key x); auto]. }
  assert (forall s, set_of key s -> forall x, member s x <-> domain s (key x)) as Dom.
  { intros s H x. rewrite Mem by auto. split; [intros E; exists x; auto|]. intros [y E]. destruct H as [P H].
    pose proof (H _ _ E) as K. apply Inj in K. subst. auto. }
  split; [|split].
  - intros a. assert (set_of key (m_toset key a)) as S.
    { split; [apply of_proper|]. intros k x H. apply of_entry in H as (p & q & H & _).
      assert (In (k, x) (map (fun x => (key x, x)) a)) as HI by (rewrite H; apply in_elt).
      apply in_map_iff in HI as (y & E & _). congruence. }
    split; auto. intros x. rewrite Dom by auto. unfold m_toset. split.
    + intros [y H]. apply of_entry in H as (p & q & H & _).
      assert (In (key x, y) (map (fun x => (key x, x)) a)) as HI by (rewrite H; apply in_elt).
      apply in_map_iff in HI as (z & E & HI). injection E as E ->. apply Inj in E. subst. auto.
    + intros H. assert (In (key x) (map fst (map (fun x => (key x, x)) a))) as HI.
      { rewrite map_map. cbn. apply in_map. auto. }
      revert HI. clear. generalize (map (fun x => (key x, x)) a) as l. intros l HI.
      assert (exists p v q, l = p ++ (key x, v) :: q /\ ~ In (key x) (map fst q)) as (p & v & q & E & N).
      { induction l as [|[k v] l IH]; [destruct HI|]. destruct (in_dec string_dec (key x) (map fst l)) as [H|H].
        - destruct (IH H) as (p & v' & q & -> & N). exists ((k, v) :: p), v', q. auto.
        - exists [], v, l. destruct HI as [HI|HI]; [cbn in HI; subst; auto|contradiction]. }
      exists v. apply of_entry. eauto.
  - intros s S. split; [|split; [|split]].
    + intros x. rewrite Dom by auto. apply has_domain.
    + destruct S as [P E]. unfold m_fromset, proper in *. clear Mem Dom Inj. induction s as [|[k x] s IH]; cbn in *; [constructor|].
      inversion P; subst. constructor.
      * intros H. apply in_map_iff in H as ([k' x'] & Ex & H). cbn in Ex. subst x'. apply H1.
        rewrite (E k x (or_introl eq_refl)), <- (E k' x (or_intror H)). apply in_map_iff. exists (k', x). auto.
      * apply IH; auto; intros; apply E; right; auto.
    + intros x. unfold m_fromset, member, entry. rewrite in_map_iff. split; [intros ([k y] & <- & H); eauto|intros [k H]; exists (k, x); auto].
    + intros x. assert (set_of key (m_add_item key s x)) as S'.
      { split; [apply set_proper, S|]. intros k y H. unfold m_add_item in H. apply set_entry in H; [|apply S].
        destruct H as [[-> ->]|[_ H]]; auto. apply S. auto. }
      split; auto. intros y. rewrite (Mem _ S'), (Mem _ S). unfold m_add_item. rewrite set_entry by apply S. split.
      * intros [[_ ->]|[_ H]]; auto.
      * intros [->|H]; auto. destruct (string_dec (key y) (key x)) as [E|N]; [apply Inj in E|]; subst; auto.
  - intros s t S T. destruct (C30_sets A s t (proj1 S) (proj1 T)) as (I & D & Y & _).
    pose proof (over_is s t (proj1 S) (proj1 T)) as U.
    assert (forall m P, is_map m P -> (forall k v, P k v -> entry s k v \/ entry t k v) -> set_of key m) as G.
    { intros m P [H1 H2] H3. split; auto. intros k x H. apply H2, H3 in H as [H|H]; [apply S|apply T]; auto. }
    assert (set_of key (m_union s t)) as SU by (eapply G; [exact U|]; cbn; intros; tauto).
    assert (set_of key (m_intersection s t)) as SI by (eapply G; [exact I|]; cbn; intros; tauto).
    assert (set_of key (m_diff s t)) as SD by (eapply G; [exact D|]; cbn; intros; tauto).
    assert (set_of key (m_symdiff s t)) as SY by (eapply G; [exact Y|]; cbn; intros; tauto).
    repeat (split; [assumption|]). intros x.
    rewrite (Mem _ SU), (Mem _ SI), (Mem _ SD), (Mem _ SY).
    change (m_union s t) with (dict_of (s ++ t)). destruct U as [_ ->], I as [_ ->], D as [_ ->], Y as [_ ->].
    rewrite <- !(Dom _ S), <- !(Dom _ T), (Mem _ S), (Mem _ T). split; [|tauto].
    assert (entry s (key x) x \/ ~ entry s (key x) x) as C1; [|assert (entry t (key x) x \/ ~ entry t (key x) x) as C2].
    + rewrite entry_assoc by apply S. destruct (assoc (key x) s) as [y|] eqn:E; [|right; discriminate].
      apply assoc_In in E. apply S in E as E'. apply Inj in E'. subst. auto.
    + rewrite entry_assoc by apply T. destruct (assoc (key x) t) as [y|] eqn:E; [|right; discriminate].
      apply assoc_In in E. apply T in E as E'. apply Inj in E'. subst. auto.
    + tauto.
Qed.

(** Higher-order functions: one call per entry, in insertion order; the first failing call decides *)
Section HO.
  Context {S : Type}.
  Definition on_entries {A B} (f : string -> A -> M S B) : string * A -> M S B := fun kv => f (fst kv) (snd kv).
  Definition fails {A B} (f : A -> M S B) (s : S) (l : list A) (e : exn) (s' : S) : Prop :=
    exists p x q s1 ys, l = p ++ x :: q /\ calls f s p s1 ys /\ f x s1 = (Raise e, s').
  (** F makes the calls of f on the entries of m, and then returns a map with the entries given by P *)
  Definition runs {A B C} (F : M S (list (string * C))) (f : string * A -> M S B) (m : list (string * A)) (P : list B -> string -> C -> Prop) : Prop :=
    forall s, (forall s' ys, calls f s m s' ys -> exists r, F s = (Ok r, s') /\ is_map r (P ys)) /\
              (forall e s', fails f s m e s' -> F s = (Raise e, s')).
  Lemma foldM_mapM {A B C} (f : A -> M S B) (h : C -> A -> B -> C) z l s :
    foldM (fun out x => y <~ f x ;; ret (h out x y)) z l s =
    bind (mapM f l) (fun ys => ret (fold_left (fun out xy => h out (fst xy) (snd xy)) (combine l ys) z)) s.
  Proof.
    revert z s. induction l as [|x l IH]; intros; auto. cbn [foldM mapM]. unfold bind, ret in *.
    destruct (f x s) as [[y|e] s1]; auto. rewrite IH. destruct (mapM f l s1) as [[ys|e] s2]; auto.
  Qed.
  Lemma runs_mapM {A B C} (F : M S (list (string * C))) (f : string * A -> M S B) m (h : list B -> list (string * C)) P :
    (forall s, F s = bind (mapM f m) (fun ys => ret (h ys)) s) ->
    (forall ys, length ys = length m -> is_map (h ys) (P ys)) -> runs F f m P.
  Proof.
    intros E H s. split.
    - intros s' ys CC. rewrite E. unfold bind. pose proof (calls_length _ _ _ _ _ CC) as L. apply mapM_ok in CC. rewrite CC. eexists. split; [reflexivity|auto].
    - intros e s' R. apply mapM_raise in R. rewrite E. unfold bind. rewrite R. reflexivity.
  Qed.
  Lemma combine_keys {A B} (m : list (string * A)) (ys : list B) : length ys = length m ->
    map fst (map (fun xy => (fst (fst xy), snd xy)) (combine m ys)) = map fst m.
  Proof.
    revert ys. induction m as [|[k v] m IH]; destruct ys as [|y ys]; cbn; intros H; try discriminate; auto. f_equal. auto.
  Qed.
  Theorem C30_map : forall A B (m : list (string * A)) (f : string -> A -> M S B), proper m ->
    runs (m_mapWithKey m f) (on_entries f) m (fun ys k w => exists v, In ((k, v), w) (combine m ys)).
  Proof.
    intros A B m f P. apply runs_mapM with (h := fun ys => dict_of (map (fun xy => (fst (fst xy), snd xy)) (combine m ys))).
    - intros s. unfold m_mapWithKey, on_entries.
      assert (forall s, mapM (fun kv => v <~ f (fst kv) (snd kv) ;; ret (fst kv, v)) m s =
              bind (mapM (fun kv => f (fst kv) (snd kv)) m) (fun ys => ret (map (fun xy => (fst (fst xy), snd xy)) (combine m ys))) s) as E.
      { clear. induction m as [|x m IH]; intros; auto. cbn [mapM]. unfold bind, ret in *. destruct (f (fst x) (snd x) s) as [[y|e] s1]; auto.
        rewrite IH. destruct (mapM _ m s1) as [[ys|e] s2]; auto. }
      unfold bind at 1. rewrite E. unfold bind. destruct (mapM _ m s) as [[ys|e] s1]; auto.
    - intros ys L. split; [apply of_proper|]. intros k w. rewrite of_entry_proper.
      + unfold entry. rewrite in_map_iff. split; [intros ([[k' v] w'] & E & H); injection E as -> ->; eauto|].
        intros [v H]. exists ((k, v), w). auto.
      + unfold proper. rewrite combine_keys by auto. exact P.
  Qed.
  Theorem C30_filter : forall A (m : list (string * A)) (f : string -> A -> M S bool), proper m ->
    runs (m_filterWithKey m f) (on_entries f) m (fun bs k v => In ((k, v), true) (combine m bs)).
  Proof.
    intros A m f P. apply runs_mapM with (h := fun bs => dict_of (flagged m bs)).
    - intros s. unfold m_filterWithKey, on_entries. unfold bind at 1. rewrite filter_mapM. unfold bind. destruct (mapM _ m s) as [[ys|e] s1]; auto.
    - intros bs L. split; [apply of_proper|]. intros k v.
      assert (forall k v, In (k, v) (flagged m bs) <-> In ((k, v), true) (combine m bs)) as E.
      { intros. unfold flagged. rewrite in_map_iff. split.
        - intros ([kv b] & Ek & H). cbn in Ek. subst kv. apply filter_In in H as [H Hb]. cbn in Hb. subst b. auto.
        - intros H. exists ((k0, v0), true). rewrite filter_In. auto. }
      rewrite of_entry_proper; [apply E|]. unfold proper in *. clear E k v. unfold flagged.
      revert bs L P. induction m as [|[k v] m IH]; destruct bs as [|b bs]; cbn; intros L P; try discriminate; try constructor.
      inversion P; subst. injection L as L. destruct b; cbn; auto. constructor; auto. intros H. apply H1.
      apply in_map_iff in H as (x & <- & H). apply in_map_iff in H as ([y b] & <- & H). apply filter_In in H as [H _].
      apply in_map. cbn. apply in_combine_l in H. auto.
  Qed.
  Theorem C30_filterMap : forall A B (m : list (string * A)) (f : string -> A -> M S (option B)), proper m ->
    runs (m_filterMapWithKey m f) (on_entries f) m (fun ys k w => exists v, In ((k, v), Some w) (combine m ys)).
  Proof.
    intros A B m f P. apply runs_mapM with
      (h := fun ys => dict_of (flat_map (fun xy => match snd xy with Some w => [(fst (fst xy), w)] | None => [] end) (combine m ys))).
    - intros s. unfold m_filterMapWithKey, on_entries.
      rewrite (foldM_mapM (fun kv => f (fst kv) (snd kv)) (fun out kv y => match y with Some v => dict_set (fst kv) v out | None => out end)).
      unfold bind. destruct (mapM _ m s) as [[ys|e] s1]; auto. unfold ret. do 2 f_equal. unfold dict_of.
      match goal with |- fold_left ?g ?l [] = fold_left ?h ?l' [] => enough (forall acc, fold_left g l acc = fold_left h l' acc) by auto end.
      induction (combine m ys) as [|[kv [w|]] l IH]; cbn; intros; auto.
    - intros ys L. split; [apply of_proper|]. intros k w. rewrite of_entry_proper.
      + unfold entry. rewrite in_flat_map. split.
        * intros ([[k' v] [w'|]] & H & E); cbn in E; [destruct E as [E|[]]; injection E as -> ->; eauto|destruct E].
        * intros [v H]. exists ((k, v), Some w). split; auto. left; auto.
      + unfold proper in *. revert ys L. induction m as [|[k0 v] m IH]; destruct ys as [|y ys]; cbn; intros L; try discriminate; try constructor.
        inversion P; subst. injection L as L. destruct y; cbn; auto. constructor; auto. intros H. apply H1.
        apply in_map_iff in H as (x & <- & H). apply in_flat_map in H as ([kv [w'|]] & H & E); cbn in E; [|destruct E].
        destruct E as [<-|[]]. cbn. apply in_map. apply in_combine_l in H. auto.
  Qed.
  (** the last result with the key wins *)
  Theorem C30_flatMap : forall A B (m : list (string * A)) (f : string -> A -> M S (list (string * B))),
    (forall k v s r s', f k v s = (Ok r, s') -> proper r) ->
    forall s, (forall s' ys, calls (on_entries f) s m s' ys -> exists r, m_flatMapWithKey m f s = (Ok r, s') /\ is_map r (decides ys)) /\
              (forall e s', fails (on_entries f) s m e s' -> m_flatMapWithKey m f s = (Raise e, s')).
  Proof.
    intros A B m f Pr s. assert (m_flatMapWithKey m f s = bind (mapM (on_entries f) m) (fun ys => ret (dict_of (concat ys))) s) as E.
    { unfold m_flatMapWithKey, on_entries.
      rewrite (foldM_mapM (fun kv => f (fst kv) (snd kv)) (fun out kv y => fold_left (fun d e => dict_set (fst e) (snd e) d) y out)).
      unfold bind. destruct (mapM _ m s) as [[ys|e] s1] eqn:E; auto. apply mapM_ok, calls_length in E. unfold ret. do 2 f_equal. unfold dict_of.
      generalize (@nil (string * B)) as acc. revert ys E. induction m; destruct ys; cbn; intros; try discriminate; auto.
      rewrite fold_left_app. auto. }
    split.
    - intros s' ys C. assert (Forall proper ys) as F. { clear E. induction C; constructor; auto. eapply Pr; eauto. }
      apply mapM_ok in C. rewrite E. unfold bind. rewrite C. eexists. split; [reflexivity|]. apply C30_join; auto.
    - intros e s' R. apply mapM_raise in R. rewrite E. unfold bind. rewrite R. reflexivity.
  Qed.
  Theorem C30_contains_fcn : forall A (m : list (string * A)) (f : string -> M S bool) (g : A -> M S bool) s,
    m_anyKey m f s = a_any (map fst m) f s /\ m_anyValue m g s = a_any (map snd m) g s.
  Proof.
    intros A m f g. induction m as [|[k v] m IH]; cbn; intros s; auto. unfold bind. split.
    - destruct (f k s) as [[[|]|e] s1]; auto. apply IH.
    - destruct (g v s) as [[[|]|e] s1]; auto. apply IH.
  Qed.
  (** functions without effects *)
  Theorem C30_pure : forall A B (m : list (string * A)) s, proper m ->
    (forall (f : string -> A -> M S B) g, (forall k v s, f k v s = (Ok (g k v), s)) ->
       exists r, m_mapWithKey m f s = (Ok r, s) /\ is_map r (fun k w => exists v, entry m k v /\ w = g k v)) /\
    (forall (f : string -> A -> M S bool) g, (forall k v s, f k v s = (Ok (g k v), s)) ->
       exists r, m_filterWithKey m f s = (Ok r, s) /\ is_map r (fun k v => entry m k v /\ g k v = true)).
  Proof.
    intros A B m s P.
    assert (forall C (g : string * A -> C) kv w, In (kv, w) (combine m (map g m)) <-> In kv m /\ w = g kv) as G.
    { intros C g kv w. clear P. induction m as [|x m IH]; cbn; [tauto|]. rewrite IH. split.
      - intros [E|[H ->]]; [injection E as <- <-|]; auto.
      - intros [[->|H] ->]; auto. }
    split; intros f g H.
    - destruct (proj1 (C30_map A B m f P s) s (map (fun kv => g (fst kv) (snd kv)) m)) as (r & E & I).
      { apply calls_pure. intros [k v] s0. apply H. }
      exists r. split; auto. destruct I as [I1 I2]. split; auto. intros k w. rewrite I2. unfold entry.
      split; intros [v Hv]; exists v; apply (G _ (fun kv => g (fst kv) (snd kv))); auto.
    - destruct (proj1 (C30_filter A m f P s) s (map (fun kv => g (fst kv) (snd kv)) m)) as (r & E & I).
      { apply calls_pure. intros [k v] s0. apply H. }
      exists r. split; auto. destruct I as [I1 I2]. split; auto. intros k v. rewrite I2, (G _ (fun kv => g (fst kv) (snd kv))).
      unfold entry. cbn. intuition.
  Qed.
End HO.

(** zipmap: the maps must have the same keys in the same order *)
Definition row {A} (maps : list (list (string * A))) (k : string) (vs : list A) : Prop := Forall2 (fun m v => entry m k v) maps vs.
Lemma keys_eq_iff l l' : keys_eq l l' = true <-> l = l'.
Proof.
  revert l'. induction l as [|x l IH]; destruct l' as [|y l']; cbn; try intuition congruence.
  rewrite Bool.andb_true_iff, IH, String.eqb_eq. intuition congruence.
Qed.
Lemma look_row {A} k (maps : list (list (string * A))) vs : Forall proper maps -> (look_all k maps = Ok vs <-> row maps k vs).
Proof.
  unfold row. revert vs. induction maps as [|m maps IH]; cbn; intros vs F.
  - split; [intros E; injection E as <-; constructor|intros H; inversion H; auto].
  - inversion F; subst. destruct (assoc k m) as [v|] eqn:E.
    + apply entry_assoc in E; auto. destruct (look_all k maps) as [r|e] eqn:R; cbn.
      * split; [intros X; injection X as <-; constructor; auto; apply IH; auto|].
        intros X. inversion X; subst. apply IH in H5; auto. injection H5 as ->. f_equal. f_equal. eapply entry_fun; eauto.
      * split; [discriminate|]. intros X. inversion X; subst. apply IH in H5; auto. discriminate.
    + split; [discriminate|]. intros X. inversion X; subst. apply entry_assoc in H3; auto. congruence.
Qed.
Lemma row_ex {A} k (maps : list (list (string * A))) : (forall m, In m maps -> domain m k) -> exists vs, row maps k vs.
Proof.
  unfold row. induction maps as [|m maps IH]; intros H; [eexists; constructor|].
  destruct (H m (or_introl eq_refl)) as [v Hv]. destruct IH as [vs Hvs]; [intros; apply H; right; auto|]. exists (v :: vs). constructor; auto.
Qed.
Section Zip.
  Context {S : Type}.
  Theorem C30_zipmap_partial : forall A B (m0 : list (string * A)) ms code (f : string -> list A -> M S B), Forall proper (m0 :: ms) ->
    let maps := m0 :: ms in
    ((forall m, In m ms -> map fst m = map fst m0) ->
       exists rows, Forall2 (row maps) (map fst m0) rows /\
         runs (m_zipmapWithKey code maps f) (on_entries f) (combine (map fst m0) rows) (fun ys k w => In (k, w) (combine (map fst m0) ys))) /\
    (~ (forall m, In m ms -> map fst m = map fst m0) -> forall s, m_zipmapWithKey code maps f s = (Raise (PFAErr code), s)).
  Proof.
    intros A B m0 ms code f F maps. assert (forallb (fun x => keys_eq (map fst m0) (map fst x)) maps = true <-> forall m, In m ms -> map fst m = map fst m0) as K.
    { rewrite forallb_forall. split.
      - intros H m Hm. symmetry. apply keys_eq_iff, H. right. auto.
      - intros H x [<-|Hx]; apply keys_eq_iff; auto. symmetry. auto. }
    split.
    - intros Al. pose proof (proj2 K Al) as K'.
      assert (exists rows, Forall2 (row maps) (map fst m0) rows) as [rows R].
      { assert (forall k, In k (map fst m0) -> exists vs, row maps k vs) as X.
        { intros k Hk. apply row_ex. intros m [<-|Hm]; apply domain_keys; auto. rewrite Al; auto. }
        clear K K' Al. induction (map fst m0) as [|k l IH]; [eexists; constructor|].
        destruct (X k (or_introl eq_refl)) as [vs Hv]. destruct IH as [rows Hr]; [intros; apply X; right; auto|]. eexists. constructor; eauto. }
      exists rows. split; auto.
      assert (length rows = length (map fst m0)) as L. { clear - R. induction R; cbn; auto. }
      apply runs_mapM with (h := fun ys => combine (map fst m0) ys).
      + intros s. unfold m_zipmapWithKey. fold maps. unfold maps at 1. rewrite K'.
        assert (forall ks rs acc s, Forall2 (row maps) ks rs -> NoDup (map fst acc ++ ks) ->
          foldM (fun out k => vs <~ lift (look_all k maps) ;; v <~ f k vs ;; ret (dict_set k v out)) acc ks s =
          bind (mapM (on_entries f) (combine ks rs)) (fun ys => ret (acc ++ combine ks ys)) s) as X.
        { clear - F. intros ks rs acc s H. revert acc s. induction H as [|k vs ks rs Hk H IH]; intros acc s N.
          - cbn. unfold bind, ret. rewrite app_nil_r. reflexivity.
          - cbn [foldM combine mapM]. apply look_row in Hk; auto. unfold maps in *. unfold bind, ret, lift, on_entries in *. rewrite Hk.
            cbn [fst snd]. destruct (f k vs s) as [[y|e] s1]; auto.
            pose proof (NoDup_remove_2 _ _ _ N) as N2. rewrite in_app_iff in N2.
            rewrite IH.
            + rewrite set_new by tauto. destruct (mapM _ (combine ks rs) s1) as [[ys|e] s2]; auto.
              cbn [combine]. rewrite <- app_assoc. reflexivity.
            + rewrite set_new by tauto. rewrite map_app, <- app_assoc. exact N. }
        rewrite (X _ rows); auto. inversion F; auto.
      + intros ys Ly. split; [|intros; reflexivity]. rewrite combine_length, L, Nat.min_id in Ly.
        unfold proper. replace (map fst (combine (map fst m0) ys)) with (map fst m0); [inversion F; auto|].
        clear - Ly. revert ys Ly. induction (map fst m0); destruct ys; cbn; intros; try discriminate; auto. f_equal; auto.
    - intros N s. unfold m_zipmapWithKey. unfold maps at 1. destruct (forallb _ maps); auto. destruct N. apply K. reflexivity.
  Qed.
End Zip.

(** * C31: equal maps give equal results *)
Theorem C31_congruence_partial : forall A (a a' b b' : list (string * A)), proper a -> proper a' -> proper b -> proper b' ->
  same_map a a' -> same_map b b' ->
  m_len a = m_len a' /\ Permutation (m_keys a) (m_keys a') /\ Permutation (m_values a) (m_values a') /\
  (forall k, m_containsKey a k = m_containsKey a' k) /\ (forall eqb v, m_containsValue eqb a v = m_containsValue eqb a' v) /\
  (forall k v, same_map (m_add a k v) (m_add a' k v)) /\ (forall k, same_map (m_remove a k) (m_remove a' k)) /\
  (forall ks ks', (forall k, In k ks <-> In k ks') -> same_map (m_only a ks) (m_only a' ks') /\ same_map (m_except a ks) (m_except a' ks')) /\
  Permutation (m_split a) (m_split a') /\
  same_map (m_update a b) (m_update a' b') /\ same_map (m_intersection a b) (m_intersection a' b') /\
  same_map (m_diff a b) (m_diff a' b') /\ same_map (m_symdiff a b) (m_symdiff a' b') /\
  m_subset a b = m_subset a' b' /\ m_disjoint a b = m_disjoint a' b'.
Proof.
  intros A a a' b b' Pa Pa' Pb Pb' Ea Eb.
  pose proof (proj1 (same_perm a a' Pa Pa') Ea) as Ra.
  assert (forall k, domain a k <-> domain a' k) as Da by (intros; apply same_domain; auto).
  assert (forall k, domain b k <-> domain b' k) as Db by (intros; apply same_domain; auto).
  assert (forall x y : bool, (x = true <-> y = true) -> x = y) as BB by (intros [|] [|]; intuition congruence).
  split; [unfold m_len, zlen; rewrite (Permutation_length Ra); auto|].
  split; [apply Permutation_map; auto|]. split; [apply Permutation_map; auto|].
  split; [intros; apply same_has; auto|].
  split. { intros eqb v. apply BB. rewrite (proj2 (proj2 (proj2 (proj2 (proj2 (C30_access _ a Pa)))))), (proj2 (proj2 (proj2 (proj2 (proj2 (C30_access _ a' Pa')))))).
           split; intros (k & x & H & E); exists k, x; split; auto; apply Ea; auto. }
  split. { intros k v. eapply is_map_same; [apply C30_add; auto|apply C30_add; auto|]. intros k' v'. cbv beta. rewrite (Ea k' v'). tauto. }
  split. { intros k. eapply is_map_same; [apply C30_remove; auto|apply C30_remove; auto|]. intros k' v'. cbv beta. rewrite (Ea k' v'). tauto. }
  split. { intros ks ks' K. destruct (C30_only_except _ a ks Pa) as [O X], (C30_only_except _ a' ks' Pa') as [O' X'].
           split; (eapply is_map_same; [eassumption|eassumption|]); intros k v; cbv beta; rewrite (Ea k v), K; tauto. }
  split; [apply Permutation_map; auto|].
  split. { destruct (C30_update_union _ a b Pa Pb) as [U _], (C30_update_union _ a' b' Pa' Pb') as [U' _].
           eapply is_map_same; [exact U|exact U'|]. intros k v. cbv beta. rewrite (Ea k v), (Eb k v), Db. tauto. }
  destruct (C30_sets _ a b Pa Pb) as (I & D & Y & Su & Di), (C30_sets _ a' b' Pa' Pb') as (I' & D' & Y' & Su' & Di').
  split; [eapply is_map_same; [exact I|exact I'|]; intros k v; cbv beta; rewrite (Ea k v), Db; tauto|].
  split; [eapply is_map_same; [exact D|exact D'|]; intros k v; cbv beta; rewrite (Ea k v), Db; tauto|].
  split; [eapply is_map_same; [exact Y|exact Y'|]; intros k v; cbv beta; rewrite (Ea k v), (Eb k v), Da, Db; tauto|].
  split; apply BB.
  - rewrite Su, Su'. split; intros H k; [rewrite <- Da, <- Db|rewrite Da, Db]; auto.
  - rewrite Di, Di'. split; intros H k; [rewrite <- Da, <- Db|rewrite Da, Db]; eauto.
Qed.
(** The selections do not depend on the order of insertion: best first, equal values in the order of their keys. *)
Theorem C31_argN : forall A (lt : A -> A -> bool) (m : list (string * A)) n code, weak_order lt -> proper m -> m <> [] -> 0 <= n ->
  (exists ks, m_argminN lt code m n = Ok ks /\ best_keys lt m n ks) /\
  (exists ks, m_argmaxN lt code m n = Ok ks /\ best_keys (fun x y => lt y x) m n ks).
Proof.
  intros A lt m n code W P NE Hn. unfold m_argminN, m_argmaxN, guard_n. destruct m as [|x m]; [congruence|].
  destruct (Z.ltb_spec n 0); [lia|]. split; (eexists; split; [reflexivity|]).
  - rewrite lower_bet, arg_n_eq by auto. apply ranked_best; auto.
  - rewrite higher_bet, arg_n_eq by auto using weak_order_flip. apply ranked_best; auto using weak_order_flip.
Qed.
Theorem C31_best_unique : forall A (lt : A -> A -> bool) (m : list (string * A)) n ks ks', weak_order lt -> proper m ->
  best_keys lt m n ks -> best_keys lt m n ks' -> ks = ks'.
Proof. intros. eapply best_unique; eauto. Qed.
Theorem C31_arg : forall A (lt : A -> A -> bool) (m : list (string * A)) code, weak_order lt -> proper m -> m <> [] ->
  (exists k v, m_argmin lt code m = Ok k /\ entry m k v /\
     forall k' v', entry m k' v' -> k' = k \/ lt v v' = true \/ (lt v v' = false /\ lt v' v = false /\ str_before k k')) /\
  (exists k v, m_argmax lt code m = Ok k /\ entry m k v /\
     forall k' v', entry m k' v' -> k' = k \/ lt v' v = true \/ (lt v' v = false /\ lt v v' = false /\ str_before k k')).
Proof.
  assert (forall A (lt : A -> A -> bool) (m : list (string * A)) ks, m <> [] -> best_keys lt m 1 ks ->
    exists k v, ks = [k] /\ entry m k v /\ forall k' v', entry m k' v' -> k' = k \/ better lt (k, v) (k', v')) as G.
  { intros A lt m ks NE (es & rest & R & <- & L & S & B). destruct m as [|x m]; [congruence|].
    destruct es as [|[k v] [|]]; try (cbn [length] in L; lia). exists k, v. split; [reflexivity|].
    unfold entry. split; [eapply Permutation_in; [symmetry; exact R|left; auto]|].
    intros k' v' H. eapply Permutation_in in H; [|exact R]. destruct H as [H|H]; [injection H as <- <-; auto|].
    right. apply B; auto. left; auto. }
  intros A lt m code W P NE. destruct (C31_argN A lt m 1 code W P NE ltac:(lia)) as [(l & E & B) (h & E' & B')].
  unfold m_argminN, m_argmaxN, guard_n in E, E'. unfold m_argmin, m_argmax, guard. destruct m as [|x m]; [congruence|]. cbn [Z.ltb Z.compare] in E, E'.
  injection E as E. injection E' as E'. split.
  - destruct (G _ _ _ _ NE B) as (k & v & -> & H1 & H2). exists k, v. rewrite E. split; [reflexivity|]. split; auto.
  - destruct (G _ _ _ _ NE B') as (k & v & -> & H1 & H2). exists k, v. rewrite E'. split; [reflexivity|]. split; auto.
Qed.
Theorem C31_arg_congruence : forall A (lt : A -> A -> bool) (m m' : list (string * A)) n code, weak_order lt -> proper m -> proper m' -> same_map m m' ->
  m_argmin lt code m = m_argmin lt code m' /\ m_argmax lt code m = m_argmax lt code m' /\
  m_argminN lt code m n = m_argminN lt code m' n /\ m_argmaxN lt code m n = m_argmaxN lt code m' n.
Proof.
  intros A lt m m' n code W P P' E.
  assert (forall n, 0 <= n -> arg_lowest_n lt m n = arg_lowest_n lt m' n /\ arg_highest_n lt m n = arg_highest_n lt m' n) as G.
  { intros k Hk. rewrite !lower_bet, !higher_bet, !arg_n_eq by auto using weak_order_flip.
    rewrite (ranked_same lt W m m'), (ranked_same _ (weak_order_flip lt W) m m') by auto. auto. }
  pose proof (proj1 (same_perm m m' P P') E) as R.
  destruct m as [|x m], m' as [|y m']; [auto| | |]; try (apply Permutation_length in R; discriminate).
  unfold m_argmin, m_argmax, m_argminN, m_argmaxN, guard, guard_n. destruct (G 1) as [-> ->]; [lia|].
  repeat (split; [reflexivity|]). destruct (Z.ltb_spec n 0); auto. destruct (G n) as [-> ->]; auto.
Qed.
Theorem C31_arg_errors : forall A (lt : A -> A -> bool) (m : list (string * A)) n code,
  (m = [] -> m_argmin lt code m = Raise (PFAErr code) /\ m_argmax lt code m = Raise (PFAErr code) /\
             m_argminN lt code m n = Raise (PFAErr code) /\ m_argmaxN lt code m n = Raise (PFAErr code)) /\
  (m <> [] -> n < 0 -> m_argminN lt code m n = Raise (PFAErr (code + 1)) /\ m_argmaxN lt code m n = Raise (PFAErr (code + 1))).
Proof.
  intros. split; [intros ->; repeat split|]. intros NE N. destruct m; [congruence|]. unfold m_argminN, m_argmaxN, guard_n.
  destruct (Z.ltb_spec n 0); [auto|lia].
Qed.
(** corresponds, for functions without effects: whatever the order in which the keys are visited *)
Theorem C31_corresponds : forall S A B (a : list (string * A)) (b : list (string * B)) (f : string -> A -> B -> M S bool) g order s,
  proper a -> proper b -> (forall k x y s, f k x y s = (Ok (g k x y), s)) -> Permutation order (map fst a) ->
  exists r, m_correspondsWithKey order a b f s = (Ok r, s) /\
    (r = true <-> (forall k, domain a k <-> domain b k) /\ forall k x y, entry a k x -> entry b k y -> g k x y = true).
Proof.
  intros S A B a b f g order s Pa Pb H R. unfold m_correspondsWithKey.
  destruct (forallb _ (map fst a) && forallb _ (map fst b))%bool eqn:E.
  - apply Bool.andb_true_iff in E as [E1 E2]. rewrite forallb_forall in E1, E2.
    assert (forall k, domain a k <-> domain b k) as D.
    { intros k. split; intros X; [apply has_domain, E1|apply has_domain, E2]; apply domain_keys; auto. }
    assert (forall k, In k order -> exists x y, assoc k a = Some x /\ assoc k b = Some y) as L.
    { intros k Hk. apply (Permutation_in _ R) in Hk. apply domain_keys in Hk as Hk'. apply D in Hk' as Hb. destruct Hk' as [x Hx], Hb as [y Hy].
      apply entry_assoc in Hx, Hy; eauto. }
    assert (forall l, (forall k, In k l -> In k order) -> exists r,
      a_all l (fun k => match assoc k a, assoc k b with Some x, Some y => f k x y | _, _ => raise (PyErr "KeyError") end) s = (Ok r, s) /\
      (r = true <-> forall k x y, In k l -> entry a k x -> entry b k y -> g k x y = true)) as X.
    { induction l as [|k l IH]; intros I; cbn.
      - exists true. split; [reflexivity|]. split; [intros _ k x y []|auto].
      - destruct (L k) as (x & y & Hx & Hy); [apply I; left; auto|]. rewrite Hx, Hy. unfold bind. rewrite H.
        destruct IH as (r & Er & Hr); [intros; apply I; right; auto|]. destruct (g k x y) eqn:G.
        + exists r. split; auto. rewrite Hr. split; intros Z k' x' y'; [intros [<-|Hk] Ex Ey|]; eauto.
          apply entry_assoc in Ex, Ey; auto. congruence.
        + exists false. split; [reflexivity|]. split; [discriminate|]. intros Z. rewrite <- G. apply Z; auto; apply assoc_In; auto. }
    destruct (X order) as (r & Er & Hr); auto. exists r. split; [exact Er|]. rewrite Hr. split.
    + intros Z. split; [exact D|]. intros k x y Hx Hy. apply (Z k x y); auto. apply (Permutation_in _ (Permutation_sym R)). apply domain_keys. exists x. auto.
    + intros [_ Z] k x y _. apply Z.
  - exists false. split; [reflexivity|]. split; [discriminate|]. intros [D _]. exfalso. apply Bool.andb_false_iff in E as [E|E].
    + assert (forallb (fun k => has_key k b) (map fst a) = true); [|congruence]. apply forallb_forall. intros k Hk. apply has_domain, D, domain_keys. auto.
    + assert (forallb (fun k => has_key k a) (map fst b) = true); [|congruence]. apply forallb_forall. intros k Hk. apply has_domain, D, domain_keys. auto.
Qed.

(** zipmap tells equal maps apart: {"x": 1, "y": 2} and {"y": 4, "x": 3} are zipped or refused according to the order of insertion. *)
Theorem C30_zipmap_refuted : exists (a b b' : list (string * Z)) (f : list Z -> M unit Z),
  proper a /\ proper b /\ proper b' /\ same_map b b' /\
  m_zipmap [a; b] f tt = (Ok [("x", 4); ("y", 6)], tt) /\ m_zipmap [a; b'] f tt = (Raise (PFAErr 26370), tt).
Proof.
  exists [("x", 1); ("y", 2)], [("x", 3); ("y", 4)], [("y", 4); ("x", 3)], (fun vs => ret (zsum vs)).
  unfold proper. repeat (split; [repeat constructor; cbn; intuition congruence|]). split.
  - intros k v. unfold entry. cbn. tauto.
  - split; reflexivity.
Qed.
(** corresponds with a function that may fail: the order of a Python set of strings decides between false and the failure *)
Theorem C31_corresponds_refuted : exists (a b : list (string * Z)) (f : Z -> Z -> M unit bool) o o',
  proper a /\ proper b /\ Permutation o (map fst a) /\ Permutation o' (map fst a) /\
  m_corresponds o a b f tt = (Ok false, tt) /\ m_corresponds o' a b f tt = (Raise (PFAErr 18010), tt).
Proof.
  exists [("x", 1); ("y", 0)], [("x", 2); ("y", 0)], (fun x y => if y =? 0 then raise (PFAErr 18010) else ret (x / y =? 1)), ["x"; "y"], ["y"; "x"].
  unfold proper. repeat (split; [repeat constructor; cbn; intuition congruence|]). split; reflexivity.
Qed.

Example C30_example :
  m_add [("a", 1); ("b", 2)] "a" 5 = [("a", 5); ("b", 2)] /\ m_remove [("a", 1); ("b", 2)] "a" = [("b", 2)] /\
  m_only [("a", 1); ("b", 2); ("c", 3)] ["c"; "a"; "z"] = [("a", 1); ("c", 3)] /\ m_except [("a", 1); ("b", 2)] ["a"] = [("b", 2)] /\
  m_update [("a", 1); ("b", 2)] [("b", 3); ("c", 4)] = [("a", 1); ("b", 3); ("c", 4)] /\
  m_join [[("a", 1)]; [("b", 2)]; [("a", 3)]] = [("a", 3); ("b", 2)] /\
  m_symdiff [("a", 1); ("b", 2)] [("b", 3); ("c", 4)] = [("a", 1); ("c", 4)] /\
  m_flatMap [("a", 1); ("b", 2)] (fun x => ret [("k", x); (if x =? 1 then "one" else "two", 0)]) tt = (Ok [("k", 2); ("one", 0); ("two", 0)], tt) /\
  m_zipmap [[("a", 1); ("b", 2)]; [("a", 10); ("b", 20)]; [("a", 100); ("b", 200)]] (fun vs => ret (zsum vs)) tt = (Ok [("a", 111); ("b", 222)], tt) /\
  m_mapWithKey [("a", 1); ("b", 2)] (fun k v s => (if v =? 2 then Raise (PFAErr 7) else Ok v, s ++ [k])) [] = (Raise (PFAErr 7), ["a"; "b"]).
Proof. repeat split. Qed.
Example C31_example : weak_order Z.ltb /\ m_argmax Z.ltb 26120 [("z", 3); ("y", 7); ("b", 7); ("a", 1)] = Ok "b" /\
  m_argmaxN Z.ltb 26160 [("z", 3); ("y", 7); ("b", 7); ("a", 1)] 3 = Ok ["b"; "y"; "z"] /\
  m_argminN Z.ltb 26170 [("z", 1); ("y", 7); ("b", 7); ("a", 1)] 3 = Ok ["a"; "z"; "b"].
Proof.
  split; [constructor; intros; rewrite ?Z.ltb_lt, ?Z.ltb_irrefl in *; auto; lia|]. repeat split.
Qed.
(** to_key is injective for example when keys of different items are spelled differently *)
Definition unary (x : nat) : string := Nat.iter x (fun s => append "1" s) "".
Lemma unary_inj x y : unary x = unary y -> x = y.
Proof. revert y. induction x; destruct y; cbn; intros H; try discriminate; auto. injection H as H. f_equal. apply IHx. exact H. Qed.
Example C30_toset_example : m_fromset (m_union (m_toset unary [3; 1; 3]%nat) (m_toset unary [1; 2]%nat)) = [3; 1; 2]%nat /\
  m_in unary (m_toset unary [3; 1; 3]%nat) 3%nat = true /\ m_in unary (m_toset unary [3; 1; 3]%nat) 2%nat = false.
Proof. repeat split. Qed.

Print Assumptions C30_add.
Print Assumptions C30_remove.
Print Assumptions C30_only_except.
Print Assumptions C30_update_union.
Print Assumptions C30_split_join.
Print Assumptions C30_join.
Print Assumptions C30_access.
Print Assumptions C30_sets.
Print Assumptions C30_toset.
Print Assumptions C30_map.
Print Assumptions C30_filter.
Print Assumptions C30_filterMap.
Print Assumptions C30_flatMap.
Print Assumptions C30_contains_fcn.
Print Assumptions C30_pure.
Print Assumptions C30_zipmap_partial.
Print Assumptions C30_zipmap_refuted.
Print Assumptions C31_congruence_partial.
Print Assumptions C31_argN.
Print Assumptions C31_best_unique.
Print Assumptions C31_arg.
Print Assumptions C31_arg_congruence.
Print Assumptions C31_arg_errors.
Print Assumptions C31_corresponds.
Print Assumptions C31_corresponds_refuted.
