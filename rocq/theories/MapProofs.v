From Verif Require Import Base Effects ArrayModel ArraySpec ArrayProofs SortProofs ArrayProofs2 MapModel MapSpec.
From Coq Require Import Permutation Sorting.Sorted Ascii.
Open Scope string_scope.
Open Scope list_scope.
Open Scope Z_scope.

(** ** strings *)
Lemma code_inj c d : N_of_ascii c = N_of_ascii d -> c = d.
Proof. intros H. rewrite <- (ascii_N_embedding c), <- (ascii_N_embedding d), H. reflexivity. Qed.
Lemma str_irrefl s : str_lt s s = false.
Proof. induction s as [|c s IH]; cbn; auto. rewrite N.ltb_irrefl. exact IH. Qed.
Lemma str_asym s r : str_lt s r = true -> str_lt r s = false.
Proof.
  revert r. induction s as [|c s IH]; destruct r as [|d r]; cbn; auto; try discriminate.
  destruct (N.ltb_spec (N_of_ascii c) (N_of_ascii d)), (N.ltb_spec (N_of_ascii d) (N_of_ascii c)); auto; try lia; discriminate.
Qed.
Lemma str_trans a b c : str_lt a b = true -> str_lt b c = true -> str_lt a c = true.
Proof.
  revert b c. induction a as [|x a IH]; destruct b as [|y b], c as [|z c]; cbn; auto; try discriminate.
  destruct (N.ltb_spec (N_of_ascii x) (N_of_ascii y)), (N.ltb_spec (N_of_ascii y) (N_of_ascii z)), (N.ltb_spec (N_of_ascii x) (N_of_ascii z)),
    (N.ltb_spec (N_of_ascii y) (N_of_ascii x)), (N.ltb_spec (N_of_ascii z) (N_of_ascii y)), (N.ltb_spec (N_of_ascii z) (N_of_ascii x));
    auto; try lia; try discriminate; eauto.
Qed.
Lemma str_total s r : s <> r -> str_lt s r = true \/ str_lt r s = true.
Proof.
  revert r. induction s as [|c s IH]; destruct r as [|d r]; cbn; intros H; auto; try congruence.
  destruct (N.ltb_spec (N_of_ascii c) (N_of_ascii d)), (N.ltb_spec (N_of_ascii d) (N_of_ascii c)); auto.
  apply IH. intros ->. apply H. f_equal. apply code_inj. lia.
Qed.
Lemma str_lt_before s r : str_lt s r = true <-> str_before s r.
Proof.
  revert r. induction s as [|c s IH]; intros r; split.
  - destruct r as [|d r]; [discriminate|]. intros _. exists "". left. exists d, r. auto.
  - intros (p & [(x & t & <- & ->) | (x & y & t & u & H & _)]); [reflexivity|]. destruct p; discriminate.
  - destruct r as [|d r]; cbn; [discriminate|].
    destruct (N.ltb_spec (N_of_ascii c) (N_of_ascii d)).
    + intros _. exists "". right. exists c, d, s, r. auto.
    + destruct (N.ltb_spec (N_of_ascii d) (N_of_ascii c)); [discriminate|].
      assert (c = d) as -> by (apply code_inj; lia).
      intros H1. apply IH in H1 as (p & [(x & t & -> & ->) | (x & y & t & u & -> & -> & L)]);
        exists (String d p); [left | right]; cbn; repeat eexists; auto.
  - intros (p & [(x & t & <- & ->) | (x & y & t & u & H & -> & L)]).
    + cbn. rewrite N.ltb_irrefl. apply IH. exists s. left. eauto.
    + destruct p as [|p0 p]; cbn in *; injection H as -> ->.
      * apply N.ltb_lt in L. rewrite L. reflexivity.
      * rewrite N.ltb_irrefl. apply IH. exists p. right. repeat eexists; auto.
Qed.

(** ** dicts *)
Section Dict.
  Context {A : Type}.
  Implicit Types (m : list (string * A)) (l : list (string * A)).
  Lemma entry_assoc m k v : proper m -> (entry m k v <-> assoc k m = Some v).
  Proof. intros P. split; [apply assoc_In_NoDup; auto|apply assoc_In]. Qed.
  Lemma domain_keys m k : domain m k <-> In k (map fst m).
  Proof.
    unfold domain, entry. rewrite in_map_iff. split.
    - intros [v H]. exists (k, v). auto.
    - intros ([k' v] & <- & H). eauto.
  Qed.
  Lemma has_domain m k : has_key k m = true <-> domain m k.
  Proof.
    rewrite domain_keys. unfold has_key. destruct (assoc k m) eqn:E.
    - apply assoc_In in E. split; auto. intros _. apply in_map_iff. exists (k, a). auto.
    - apply assoc_None in E. split; [discriminate|contradiction].
  Qed.
  Lemma has_domain_not m k : has_key k m = false <-> ~ domain m k.
  Proof. rewrite <- has_domain. destruct (has_key k m); intuition congruence. Qed.
  Lemma str_in_In k ks : str_in k ks = true <-> In k ks.
  Proof. unfold str_in. rewrite existsb_exists. split; [intros (x & H & E); apply String.eqb_eq in E as ->; auto|]. intros. exists k. rewrite String.eqb_refl. auto. Qed.
  Lemma entry_fun m k v w : proper m -> entry m k v -> entry m k w -> v = w.
  Proof. intros P. rewrite !entry_assoc by auto. congruence. Qed.

  Lemma set_proper k v m : proper m -> proper (dict_set k v m).
  Proof. apply keys_set_NoDup. Qed.
  Lemma set_entry k v m k' v' : proper m ->
    (entry (dict_set k v m) k' v' <-> (k' = k /\ v' = v) \/ (k' <> k /\ entry m k' v')).
  Proof.
    intros P. rewrite !entry_assoc by auto using set_proper. destruct (String.eqb_spec k' k) as [->|N].
    - rewrite assoc_set_eq. split; [intros H; injection H; auto|]. intros [[_ ->]|[H _]]; congruence.
    - rewrite assoc_set_neq by auto. split; auto. intros [[H _]|[_ H]]; congruence.
  Qed.
  Lemma into_proper l m : proper m -> proper (fold_left (fun d kv => dict_set (fst kv) (snd kv) d) l m).
  Proof. revert m. induction l; cbn; intros; auto. apply IHl. apply set_proper; auto. Qed.
  (** the last pair with the key wins *)
  Lemma into_entry l m k v : proper m ->
    (entry (fold_left (fun d kv => dict_set (fst kv) (snd kv) d) l m) k v <->
     (exists p q, l = p ++ (k, v) :: q /\ ~ In k (map fst q)) \/ (entry m k v /\ ~ In k (map fst l))).
  Proof.
    revert m. induction l as [|[k0 v0] l IH]; cbn [fold_left map fst snd In]; intros m P.
    - split; [auto|]. intros [(p & q & H & _)|[H _]]; auto. destruct p; discriminate.
    - rewrite IH by (apply set_proper; auto). rewrite set_entry by auto. split.
      + intros [(p & q & -> & H)|[[[-> ->]|[N H]] H2]].
        * left. exists ((k0, v0) :: p), q. auto.
        * left. exists [], l. auto.
        * right. split; auto. intros [->|]; auto.
      + intros [(p & q & E & H)|[H H2]].
        * destruct p as [|x p]; cbn in E.
          -- injection E as -> -> ->. auto.
          -- injection E as <- ->. left. exists p, q. auto.
        * right. split; [|tauto]. right. split; [intros ->; tauto|auto].
  Qed.
  Lemma of_proper l : proper (dict_of l).
  Proof. apply into_proper. constructor. Qed.
  Lemma of_entry l k v : entry (dict_of l) k v <-> exists p q, l = p ++ (k, v) :: q /\ ~ In k (map fst q).
  Proof. unfold dict_of. rewrite into_entry by constructor. split; [intros [|[[] _]]|]; auto. Qed.
  Lemma of_entry_proper l k v : proper l -> (entry (dict_of l) k v <-> entry l k v).
  Proof.
    intros P. rewrite of_entry. unfold entry. split.
    - intros (p & q & -> & _). apply in_elt.
    - intros H. apply in_split in H as (p & q & ->). exists p, q. split; auto.
      unfold proper in P. rewrite map_app in P. cbn in P. apply NoDup_remove_2 in P. rewrite in_app_iff in P. tauto.
  Qed.
  Lemma set_new k v m : ~ In k (map fst m) -> dict_set k v m = m ++ [(k, v)].
  Proof.
    induction m as [|[k' v'] m IH]; cbn; intros H; auto.
    destruct (String.eqb_spec k k') as [->|]; [tauto|]. rewrite IH by tauto. reflexivity.
  Qed.
  Lemma into_proper_app l m : proper (m ++ l) -> fold_left (fun d kv => dict_set (fst kv) (snd kv) d) l m = m ++ l.
  Proof.
    revert m. induction l as [|[k v] l IH]; cbn; intros m P; [rewrite app_nil_r; auto|].
    unfold proper in P. rewrite map_app in P. cbn in P. pose proof (NoDup_remove_2 _ _ _ P) as H. rewrite in_app_iff in H.
    rewrite set_new by tauto. rewrite IH; rewrite <- app_assoc; auto. unfold proper. rewrite map_app. exact P.
  Qed.
  Lemma of_id l : proper l -> dict_of l = l.
  Proof. intros. apply (into_proper_app l []). auto. Qed.
  Lemma filter_proper p l : proper l -> proper (filter p l).
  Proof.
    unfold proper. induction l as [|[k v] l IH]; cbn; auto. intros H. inversion H; subst.
    destruct (p (k, v)); cbn; auto. constructor; auto. intros HI. apply H2.
    apply in_map_iff in HI as (x & <- & HI). apply filter_In in HI as [HI _]. apply in_map. auto.
  Qed.
  Lemma del_is k m : proper m -> is_map (dict_del k m) (fun k' v' => k' <> k /\ entry m k' v').
  Proof.
    intros P. pose proof (keys_del_NoDup k m P) as P'. split; auto. intros k' v'. rewrite !entry_assoc by auto.
    destruct (String.eqb_spec k' k) as [->|N].
    - rewrite assoc_del_eq by auto. split; [discriminate|tauto].
    - rewrite assoc_del_neq by auto. tauto.
  Qed.
  (** two maps given by their entries *)
  Lemma is_map_same (m m' : list (string * A)) P P' : is_map m P -> is_map m' P' -> (forall k v, P k v <-> P' k v) -> same_map m m'.
  Proof. intros [_ H] [_ H'] E k v. rewrite H, H', E. tauto. Qed.
  Lemma same_perm m m' : proper m -> proper m' -> (same_map m m' <-> Permutation m m').
  Proof.
    intros P P'. split.
    - intros H. apply NoDup_Permutation; eauto using NoDup_map_inv. intros [k v]. apply H.
    - intros H k v. split; apply Permutation_in; auto using Permutation_sym.
  Qed.
  Lemma same_domain m m' k : same_map m m' -> (domain m k <-> domain m' k).
  Proof. intros H. unfold domain. split; intros [v E]; exists v; apply H; auto. Qed.
  Lemma same_has m m' k : same_map m m' -> has_key k m = has_key k m'.
  Proof.
    intros H. pose proof (same_domain m m' k H) as E. rewrite <- !has_domain in E.
    destruct (has_key k m), (has_key k m'); intuition congruence.
  Qed.
  Lemma same_assoc m m' k : proper m -> proper m' -> same_map m m' -> assoc k m = assoc k m'.
  Proof.
    intros P P' H. destruct (assoc k m) as [v|] eqn:E, (assoc k m') as [w|] eqn:E'; auto.
    - apply entry_assoc in E; auto. apply H, entry_assoc in E; auto. congruence.
    - apply entry_assoc in E; auto. apply H, entry_assoc in E; auto. congruence.
    - apply entry_assoc in E'; auto. apply H, entry_assoc in E'; auto. congruence.
  Qed.
End Dict.

(** ** argmax and the like *)
Section Arg.
  Context {A : Type} (lt : A -> A -> bool) (W : weak_order lt).
  Notation en := (string * A)%type.
  Definition bet (e e' : en) : bool := lt (snd e) (snd e') || (negb (lt (snd e') (snd e)) && str_lt (fst e) (fst e')).
  Lemma bet_better e e' : bet e e' = true <-> better lt e e'.
  Proof.
    unfold bet, better. rewrite <- str_lt_before. destruct (lt (snd e) (snd e')), (lt (snd e') (snd e)), (str_lt (fst e) (fst e')); cbn; intuition congruence.
  Qed.
  Lemma better_trans x y z : better lt x y -> better lt y z -> better lt x z.
  Proof.
    unfold better. rewrite <- !str_lt_before. intros H1 H2. destruct W as [I T N].
    destruct H1 as [H1|(H1 & H1' & H1'')], H2 as [H2|(H2 & H2' & H2'')].
    - left. eauto.
    - left. destruct (N _ (snd z) _ H1); auto. congruence.
    - left. destruct (N _ (snd x) _ H2); auto. congruence.
    - right. split; [|split].
      + destruct (lt (snd x) (snd z)) eqn:E; auto. destruct (N _ (snd y) _ E); congruence.
      + destruct (lt (snd z) (snd x)) eqn:E; auto. destruct (N _ (snd y) _ E); congruence.
      + eapply str_trans; eauto.
  Qed.
  Lemma better_irrefl x : ~ better lt x x.
  Proof. unfold better. rewrite <- str_lt_before, str_irrefl, (wo_irrefl _ W). intuition congruence. Qed.
  Lemma better_asym x y : better lt x y -> better lt y x -> False.
  Proof. intros H1 H2. apply (better_irrefl x). eapply better_trans; eauto. Qed.
  Lemma better_total x y : fst x <> fst y -> better lt x y \/ better lt y x.
  Proof.
    intros H. unfold better. rewrite <- !str_lt_before. destruct (lt (snd x) (snd y)) eqn:E1, (lt (snd y) (snd x)) eqn:E2; auto.
    destruct (str_total _ _ H); auto 6.
  Qed.
  Lemma insert_ins kx out : insert_arg lt bet kx out = ins bet kx out.
  Proof.
    induction out as [|y out IH]; cbn; auto. destruct (bet kx y) eqn:E; [|rewrite IH; auto].
    apply bet_better in E. unfold better in E. rewrite <- str_lt_before in E.
    destruct E as [E|(E & E' & E'')].
    - rewrite E. cbn. rewrite Bool.andb_false_r. reflexivity.
    - rewrite (str_asym _ _ E''), Bool.andb_false_r. reflexivity.
  Qed.
  Definition ranked (m : list en) : list en := fold_left (fun out x => ins bet x out) m [].
  Lemma ranked_perm m : Permutation (ranked m) m.
  Proof. apply (insert_all_perm bet m []). Qed.
  Lemma ins_sorted x l : ~ In (fst x) (map fst l) -> StronglySorted (better lt) l -> StronglySorted (better lt) (ins bet x l).
  Proof.
    induction l as [|y l IH]; cbn; intros NI S; [constructor; constructor|].
    inversion S as [|? ? S' F]; subst. destruct (bet x y) eqn:E.
    - apply bet_better in E. constructor; auto. constructor; auto.
      rewrite Forall_forall in *. intros z Hz. eapply better_trans; eauto.
    - constructor; [apply IH; tauto|]. rewrite Forall_forall in *. intros z Hz. apply ins_In in Hz as [->|Hz]; auto.
      destruct (better_total x y) as [B|B]; auto. apply bet_better in B. congruence.
  Qed.
  Lemma ranked_sorted m : proper m -> StronglySorted (better lt) (ranked m).
  Proof.
    unfold ranked, proper. intros P. assert (StronglySorted (better lt) (@nil en)) as S by constructor.
    assert (NoDup (map fst (@nil en ++ m))) as P' by exact P. clear P. revert S P'. generalize (@nil en) as acc.
    induction m as [|x m IH]; cbn; intros acc S P; auto. apply IH.
    - apply ins_sorted; auto. rewrite map_app in P. cbn in P. apply NoDup_remove_2 in P. rewrite in_app_iff in P. tauto.
    - eapply Permutation_NoDup; [|exact P]. apply Permutation_map. rewrite (ins_perm bet x acc).
      symmetry. apply (Permutation_middle acc m x).
  Qed.
  Lemma arg_n_eq m n : 0 <= n -> arg_n lt bet m n = map fst (firstn (Z.to_nat n) (ranked m)).
  Proof.
    intros Hn. unfold arg_n, ranked. f_equal. rewrite <- (fold_trunc bet n m [] Hn), firstn_nil.
    generalize (@nil en) as acc. induction m as [|x m IH]; cbn; intros; auto. rewrite insert_ins. apply IH.
  Qed.
  Lemma ranked_best m n : proper m -> 0 <= n -> best_keys lt m n (map fst (firstn (Z.to_nat n) (ranked m))).
  Proof.
    intros P Hn. pose proof (ranked_sorted m P) as S. pose proof (ranked_perm m) as R.
    exists (firstn (Z.to_nat n) (ranked m)), (skipn (Z.to_nat n) (ranked m)).
    rewrite firstn_skipn. split; [symmetry; auto|]. split; auto.
    rewrite <- (firstn_skipn (Z.to_nat n) (ranked m)) in S. split; [|split].
    - rewrite firstn_length, (Permutation_length R). lia.
    - induction (firstn (Z.to_nat n) (ranked m)); [constructor|]. cbn in S. inversion S; subst. constructor; auto.
      rewrite Forall_app in H2. tauto.
    - induction (firstn (Z.to_nat n) (ranked m)); [intros ? ? []|]. cbn in S. inversion S; subst.
      intros e e' [->|He] He'; auto. rewrite Forall_app in H2. destruct H2 as [_ H2]. rewrite Forall_forall in H2. auto.
  Qed.
  Lemma ranked_same m m' : proper m -> proper m' -> same_map m m' -> ranked m = ranked m'.
  Proof.
    intros P P' E. assert (NoDup m /\ NoDup m') as [N N'] by (split; eapply NoDup_map_inv; eauto).
    apply (SS_unique (better lt)); auto using ranked_sorted; [exact better_asym| | | |..].
    - eapply Permutation_NoDup; [symmetry; apply ranked_perm|auto].
    - eapply Permutation_NoDup; [symmetry; apply ranked_perm|auto].
    - intros [k v]. rewrite (ranked_perm m), (ranked_perm m'). apply E.
  Qed.
  Lemma best_unique m n ks ks' : proper m -> best_keys lt m n ks -> best_keys lt m n ks' -> ks = ks'.
  Proof.
    assert (forall ks, proper m -> best_keys lt m n ks -> exists k, ks = map fst (firstn k (ranked m)) /\ Z.of_nat k = Z.min n (Z.of_nat (length m))) as G.
    { intros l P (es & rest & R & <- & L & S & B). exists (length es). split; auto. f_equal.
      assert (ranked m = es ++ ranked rest) as ->.
      2: { rewrite firstn_app, firstn_all, Nat.sub_diag. cbn. rewrite app_nil_r. auto. }
      assert (proper rest) as PR.
      { unfold proper in *. eapply Permutation_NoDup in P; [|apply Permutation_map; exact R]. rewrite map_app in P.
        clear - P. induction (map fst es); auto. inversion P; auto. }
      assert (NoDup m) as N by (eapply NoDup_map_inv; eauto).
      assert (Permutation (ranked m) (es ++ ranked rest)) as RR.
      { rewrite ranked_perm, (ranked_perm rest). exact R. }
      apply (SS_unique (better lt)); auto using ranked_sorted; [exact better_asym| | | |..].
      - eapply Permutation_NoDup; [symmetry; apply ranked_perm|auto].
      - eapply Permutation_NoDup; [exact RR|]. eapply Permutation_NoDup; [symmetry; apply ranked_perm|auto].
      - intros e. split; apply Permutation_in; auto using Permutation_sym.
      - clear - S B PR W. induction S; cbn; [apply ranked_sorted; auto|]. constructor.
        + apply IHS. intros; apply B; auto. right; auto.
        + apply Forall_app. split; auto. apply Forall_forall. intros y Hy. apply B; [left; auto|].
          eapply Permutation_in; [apply ranked_perm|]; auto. }
    intros P H1 H2. destruct (G _ P H1) as (k & -> & K), (G _ P H2) as (k' & -> & K'). do 2 f_equal. lia.
  Qed.
End Arg.
Lemma lower_bet {A} (lt : A -> A -> bool) m n : arg_lowest_n lt m n = arg_n lt (bet lt) m n.
Proof. reflexivity. Qed.
Lemma skip_flip {A} (lt : A -> A -> bool) x m : skip lt x m = skip (fun x y => lt y x) x m.
Proof. induction m as [|y m IH]; cbn; auto. rewrite IH. rewrite (Bool.andb_comm (negb (lt (snd y) (snd x)))). reflexivity. Qed.
Lemma arg_flip {A} (lt : A -> A -> bool) bf x m : insert_arg lt bf x m = insert_arg (fun x y => lt y x) bf x m.
Proof. induction m as [|y m IH]; cbn [insert_arg]; auto. rewrite IH, skip_flip. reflexivity. Qed.
Lemma higher_bet {A} (lt : A -> A -> bool) m n : arg_highest_n lt m n = arg_n (fun x y => lt y x) (bet (fun x y => lt y x)) m n.
Proof.
  unfold arg_highest_n, arg_n. f_equal. generalize (@nil (string * A)) as acc.
  induction m as [|x m IH]; cbn [fold_left]; intros acc; auto. rewrite arg_flip. apply IH.
Qed.
