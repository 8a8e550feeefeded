From Verif Require Import Base Effects PyNum ArithModel ArrayModel ArraySpec ArrayProofs.
From Coq Require Import Permutation Sorting.Sorted.
Open Scope Z_scope.

Lemma weak_order_flip {A} (lt : A -> A -> bool) : weak_order lt -> weak_order (fun x y => lt y x).
Proof.
  intros [I T N]. constructor; intros; auto.
  - eapply T; eauto.
  - destruct (N z y x H); auto.
Qed.

Section S.
  Context {A : Type} (bf : A -> A -> bool) (W : weak_order bf).
  Let pbf (p q : Z * A) := bf (snd p) (snd q).
  Definition pb (p q : Z * A) : Prop :=
    bf (snd p) (snd q) = true \/ (bf (snd p) (snd q) = false /\ bf (snd q) (snd p) = false /\ fst p < fst q).

  Lemma wo_asym x y : bf x y = true -> bf y x = false.
  Proof.
    intros H. destruct (bf y x) eqn:E; auto. pose proof (wo_trans _ W _ _ _ H E) as F.
    rewrite (wo_irrefl _ W) in F. discriminate.
  Qed.

  Lemma ins_perm {B} (f : B -> B -> bool) x l : Permutation (ins f x l) (x :: l).
  Proof.
    induction l; cbn; auto. destruct (f x a); auto.
    rewrite IHl. apply perm_swap.
  Qed.
  Lemma ins_In {B} (f : B -> B -> bool) x l y : In y (ins f x l) <-> y = x \/ In y l.
  Proof.
    split; intros H.
    - apply (Permutation_in _ (ins_perm f x l)) in H. destruct H; auto.
    - apply (Permutation_in _ (Permutation_sym (ins_perm f x l))). destruct H; [left|right]; auto.
  Qed.
  Lemma insert_all_perm {B} (f : B -> B -> bool) l acc :
    Permutation (fold_left (fun out x => ins f x out) l acc) (acc ++ l).
  Proof.
    revert acc. induction l; cbn; intros. { rewrite app_nil_r. auto. }
    rewrite IHl, ins_perm. cbn. apply Permutation_middle.
  Qed.

  Lemma pins_sorted p l :
    StronglySorted pb l -> (forall q, In q l -> fst q < fst p) -> StronglySorted pb (ins pbf p l).
  Proof.
    induction 1 as [|q l HS IH HF]; intros HI; cbn.
    - constructor; constructor.
    - unfold pbf at 1. destruct (bf (snd p) (snd q)) eqn:E.
      + constructor. { constructor; auto. }
        constructor. { left; auto. }
        rewrite Forall_forall in *. intros r Hr. left.
        destruct (HF r Hr) as [G|(G & G2 & _)].
        * eapply (wo_trans _ W); eauto.
        * destruct (wo_neg _ W _ (snd r) _ E); auto. congruence.
      + constructor. { apply IH. intros. apply HI. right; auto. }
        rewrite Forall_forall in *. intros r Hr. apply ins_In in Hr as [->|Hr]; auto.
        destruct (bf (snd q) (snd p)) eqn:E2. { left; auto. }
        right. split; auto. split; auto. apply HI. left; auto.
  Qed.

  Lemma pinsert_all_sorted l acc :
    StronglySorted pb acc -> StronglySorted Z.lt (map fst l) ->
    (forall p q, In p acc -> In q l -> fst p < fst q) ->
    StronglySorted pb (fold_left (fun out x => ins pbf x out) l acc).
  Proof.
    revert acc. induction l as [|x l IH]; cbn; intros acc HS HL HA; auto.
    inversion HL; subst. apply IH; auto.
    - apply pins_sorted; auto.
    - intros p q Hp Hq. apply ins_In in Hp as [->|Hp]; auto.
      rewrite Forall_forall in H2. apply H2. apply in_map; auto.
  Qed.

  Lemma map_ins (f : A -> A -> bool) p l :
    map snd (ins (fun p q : Z * A => f (snd p) (snd q)) p l) = ins f (snd p) (map snd l).
  Proof. induction l; cbn; auto. destruct (f (snd p) (snd a)); cbn; congruence. Qed.
  Lemma map_insert_all (f : A -> A -> bool) l acc :
    map snd (fold_left (fun out x => ins (fun p q : Z * A => f (snd p) (snd q)) x out) l acc)
    = fold_left (fun out x => ins f x out) (map snd l) (map snd acc).
  Proof. revert acc. induction l; cbn; intros; auto. rewrite IHl, map_ins. reflexivity. Qed.
End S.

(** ** enumeration *)
Lemma map_fst_combine {A B} (l : list A) (l' : list B) : length l = length l' -> map fst (combine l l') = l.
Proof. revert l'. induction l; destruct l'; cbn; intros; try discriminate; auto. f_equal; auto. Qed.
Lemma map_snd_combine {A B} (l : list A) (l' : list B) : length l = length l' -> map snd (combine l l') = l'.
Proof. revert l'. induction l; destruct l'; cbn; intros; try discriminate; auto. f_equal; auto. Qed.
Lemma zrange_length lo hi : length (zrange lo hi) = Z.to_nat (hi - lo).
Proof. unfold zrange. rewrite map_length, seq_length. reflexivity. Qed.
Lemma enum_lengths {A} (a : list A) : length (zrange 0 (zlen a)) = length a.
Proof. rewrite zrange_length. unfold zlen. lia. Qed.
Lemma enum_fst {A} (a : list A) : map fst (enum a) = zrange 0 (len a).
Proof. unfold enum. rewrite map_fst_combine; auto using enum_lengths. Qed.
Lemma enum_snd {A} (a : list A) : map snd (enum a) = a.
Proof. unfold enum. rewrite map_snd_combine; auto using enum_lengths. Qed.
Lemma enum_length {A} (a : list A) : length (enum a) = length a.
Proof. rewrite <- (map_length snd), enum_snd. reflexivity. Qed.
Lemma enum_In {A} (a : list A) i x : In (i, x) (enum a) -> at_ a i = Some x.
Proof.
  unfold enum. intros H. apply In_nth_error in H as [k Hk].
  assert (nth_error (map fst (combine (zrange 0 (zlen a)) a)) k = Some i) by (rewrite nth_error_map, Hk; auto).
  assert (nth_error (map snd (combine (zrange 0 (zlen a)) a)) k = Some x) by (rewrite nth_error_map, Hk; auto).
  rewrite map_fst_combine in H by apply enum_lengths. rewrite map_snd_combine in H0 by apply enum_lengths.
  unfold zrange in H. rewrite nth_error_map in H.
  destruct (nth_error (seq 0 (Z.to_nat (zlen a - 0))) k) eqn:E; [|discriminate].
  injection H as <-.
  assert (n = k).
  { assert (k < length (seq 0 (Z.to_nat (zlen a - 0))))%nat by (apply nth_error_Some; congruence).
    rewrite seq_length in H. apply nth_error_nth with (d := 0%nat) in E. rewrite seq_nth in E by lia. lia. }
  subst. unfold at_. change (0 + Z.of_nat k) with (Z.of_nat k).
  destruct (Z.ltb_spec (Z.of_nat k) 0); [lia|]. rewrite Nat2Z.id. exact H0.
Qed.
Lemma zrange_sorted lo hi : StronglySorted Z.lt (zrange lo hi).
Proof.
  unfold zrange. generalize (Z.to_nat (hi - lo)) as n. intros n. generalize 0%nat as s. revert lo.
  induction n; intros; cbn; constructor; auto.
  rewrite Forall_map. apply Forall_forall. intros k Hk. apply in_seq in Hk. lia.
Qed.
Lemma SS_map {A B} (f : A -> B) (R : A -> A -> Prop) (R' : B -> B -> Prop) l :
  (forall x y, In x l -> In y l -> R x y -> R' (f x) (f y)) -> StronglySorted R l -> StronglySorted R' (map f l).
Proof.
  intros H HS. induction HS; cbn; constructor.
  - apply IHHS. intros; apply H; auto; right; auto.
  - rewrite Forall_map. rewrite Forall_forall in *. intros. apply H; auto; [left|right]; auto.
Qed.

Section Main.
  Context {A : Type} (bf : A -> A -> bool) (W : weak_order bf) (a : list A).
  Definition sorted_pairs : list (Z * A) :=
    fold_left (fun out x => ins (fun p q => bf (snd p) (snd q)) x out) (enum a) [].
  Lemma sp_perm : Permutation sorted_pairs (enum a).
  Proof. apply (insert_all_perm _ (enum a) []). Qed.
  Lemma sp_sorted : StronglySorted (pb bf) sorted_pairs.
  Proof.
    apply pinsert_all_sorted; auto. constructor. rewrite enum_fst. apply zrange_sorted. intros ? ? [].
  Qed.
  Lemma sp_at i x : In (i, x) sorted_pairs -> at_ a i = Some x.
  Proof. intros. apply enum_In. eapply Permutation_in; eauto using sp_perm. Qed.
  Lemma sp_pb_before p q : In p sorted_pairs -> In q sorted_pairs -> pb bf p q -> goes_before bf a (fst p) (fst q).
  Proof.
    destruct p as [i x], q as [j y]. intros Hp Hq H. exists x, y. split; [|split]; auto using sp_at.
  Qed.
  Lemma sp_snd : map snd sorted_pairs = stable_insert_all bf a.
  Proof. unfold sorted_pairs, stable_insert_all. rewrite map_insert_all, enum_snd. reflexivity. Qed.
  Lemma sp_positions : all_positions a (map fst sorted_pairs).
  Proof.
    assert (Permutation (map fst sorted_pairs) (zrange 0 (len a))) as P.
    { rewrite <- enum_fst. apply Permutation_map, sp_perm. }
    split. { eapply Permutation_NoDup; [apply Permutation_sym; eauto | apply zrange_NoDup]. }
    intros i. rewrite <- zrange_In. split; apply Permutation_in; auto using Permutation_sym.
  Qed.
  Lemma sort_stable : stable_sorting bf a (stable_insert_all bf a).
  Proof.
    exists (map fst sorted_pairs). split; [apply sp_positions|]. split.
    - rewrite <- sp_snd. unfold items_at.
      assert (forall l, (forall p, In p l -> In p sorted_pairs) ->
              Forall2 (fun i x => at_ a i = Some x) (map fst l) (map snd l)) as G.
      { induction l as [|[i x] l IH]; cbn; intros; constructor; auto. apply sp_at; auto. }
      apply G; auto.
    - eapply SS_map; [|apply sp_sorted]. apply sp_pb_before.
  Qed.

  (** truncated insertion *)
  Lemma ins_length {B} (f : B -> B -> bool) x l : length (ins f x l) = S (length l).
  Proof. apply (Permutation_length (ins_perm f x l)). Qed.
  Lemma firstn_ins {B} (f : B -> B -> bool) x l n : firstn n (ins f x l) = firstn n (ins f x (firstn n l)).
  Proof.
    revert n. induction l; intros; cbn. { destruct n; reflexivity. }
    destruct n; cbn [ins firstn]. { reflexivity. }
    destruct (f x a0); rewrite ?firstn_cons; f_equal; auto.
    destruct n; [reflexivity|]. rewrite !firstn_cons. f_equal. rewrite firstn_firstn. f_equal. lia.
  Qed.
  Lemma removelast_firstn_len' {B} (l : list B) : removelast l = firstn (length l - 1) l.
  Proof. rewrite removelast_firstn_len. f_equal. lia. Qed.
  Lemma trunc_firstn {B} n (l : list B) : 0 <= n -> (length l <= S (Z.to_nat n))%nat ->
    trunc_n n l = firstn (Z.to_nat n) l.
  Proof.
    intros Hn Hl. unfold trunc_n, zlen. destruct (Z.ltb_spec n (Z.of_nat (length l))).
    - rewrite removelast_firstn_len'. f_equal. lia.
    - rewrite firstn_all2; auto. lia.
  Qed.
  Lemma fold_trunc {B} (f : B -> B -> bool) n l acc : 0 <= n ->
    fold_left (fun out x => trunc_n n (ins f x out)) l (firstn (Z.to_nat n) acc)
    = firstn (Z.to_nat n) (fold_left (fun out x => ins f x out) l acc).
  Proof.
    intros Hn. revert acc. induction l; cbn; intros; auto.
    rewrite trunc_firstn; auto.
    - rewrite <- firstn_ins. apply IHl.
    - rewrite ins_length, firstn_length. lia.
  Qed.

  Lemma best_positions_firstn n : 0 <= n -> best_positions bf a n (map fst (firstn (Z.to_nat n) sorted_pairs)).
  Proof.
    intros Hn. set (k := Z.to_nat n).
    pose proof sp_sorted as HS. pose proof sp_positions as [HN HP].
    rewrite <- (firstn_skipn k sorted_pairs) in HS, HN. rewrite map_app in HN.
    assert (length sorted_pairs = length a) as HL.
    { rewrite (Permutation_length sp_perm). apply enum_length. }
    split; [|split; [|split]].
    - unfold len. rewrite map_length, firstn_length, HL. lia.
    - apply SS_map with (R := pb bf).
      + intros. apply sp_pb_before; auto; rewrite <- (firstn_skipn k); apply in_app_iff; auto.
      + clear - HS. induction (firstn k sorted_pairs); [constructor|]. cbn in HS. inversion HS; subst.
        constructor; auto. rewrite Forall_app in H2. tauto.
    - intros i Hi. apply HP. rewrite <- (firstn_skipn k sorted_pairs), map_app, in_app_iff. auto.
    - intros i j Hi Hj Hnj. apply HP in Hj. rewrite <- (firstn_skipn k sorted_pairs), map_app, in_app_iff in Hj.
      destruct Hj as [Hj|Hj]; [contradiction|].
      apply in_map_iff in Hi as (p & <- & Hp). apply in_map_iff in Hj as (q & <- & Hq).
      apply sp_pb_before. 1,2: rewrite <- (firstn_skipn k); apply in_app_iff; auto.
      clear - HS Hp Hq. induction (firstn k sorted_pairs); [destruct Hp|]. cbn in HS. inversion HS; subst.
      destruct Hp as [->|Hp]; auto. rewrite Forall_app in H2. destruct H2 as [_ H2].
      rewrite Forall_forall in H2. auto.
  Qed.
  Lemma items_firstn n : items_at a (map fst (firstn n sorted_pairs)) (map snd (firstn n sorted_pairs)).
  Proof.
    assert (forall l, (forall p, In p l -> In p sorted_pairs) ->
              Forall2 (fun i x => at_ a i = Some x) (map fst l) (map snd l)) as G.
    { induction l as [|[i x] l IH]; cbn; intros; constructor; auto. apply sp_at; auto. }
    apply G. intros. rewrite <- (firstn_skipn n). apply in_app_iff; auto.
  Qed.
End Main.

(** the arg functions never hit the IndexError and insert as [ins] *)
Section Arg.
  Context {A : Type} (lt : A -> A -> bool) (W : weak_order lt).
  Lemma skip_ties_now x i j y (out : list (Z * A)) :
    lt y x = true \/ lt x y = true -> skip_ties lt x i ((j, y) :: out) = Some ((i, x) :: (j, y) :: out).
  Proof. intros H. cbn. destruct (lt y x), (lt x y); cbn; auto. destruct H; discriminate. Qed.
  Lemma arg_ins_eq bf x i (out : list (Z * A)) :
    (forall x y, bf x y = true -> lt y x = true \/ lt x y = true) ->
    arg_ins lt bf x i out = Some (ins (fun p q => bf (snd p) (snd q)) (i, x) out).
  Proof.
    intros H. induction out as [|[j y] out IH]. { reflexivity. }
    cbn [arg_ins ins snd]. destruct (bf x y) eqn:E.
    - apply skip_ties_now; auto.
    - rewrite IH. reflexivity.
  Qed.
  Lemma argN_eq bf a n : 0 <= n ->
    (forall x y, bf x y = true -> lt y x = true \/ lt x y = true) ->
    argN lt bf a n = Ok (map fst (firstn (Z.to_nat n) (sorted_pairs bf a))).
  Proof.
    intros Hn H. unfold argN, sorted_pairs.
    rewrite <- (fold_trunc _ n (enum a) [] Hn). rewrite firstn_nil.
    generalize (@nil (Z * A)) as acc. induction (enum a) as [|[i x] l IH]; intros; cbn.
    - reflexivity.
    - rewrite arg_ins_eq by auto. apply IH.
  Qed.
End Arg.

Lemma argHighestN_eq {A} (lt : A -> A -> bool) a n : 0 <= n ->
  argHighestN lt a n = Ok (map fst (firstn (Z.to_nat n) (sorted_pairs (fun x y => lt y x) a))).
Proof. intros. apply argN_eq; auto. Qed.
Lemma argLowestN_eq {A} (lt : A -> A -> bool) a n : 0 <= n ->
  argLowestN lt a n = Ok (map fst (firstn (Z.to_nat n) (sorted_pairs lt a))).
Proof. intros. apply (argN_eq lt (fun x y => lt x y)); auto. Qed.
Lemma highestN_eq {A} (lt : A -> A -> bool) a n : 0 <= n ->
  highestN lt a n = map snd (firstn (Z.to_nat n) (sorted_pairs (fun x y => lt y x) a)).
Proof.
  intros. rewrite <- firstn_map, sp_snd. unfold highestN, stable_insert_all.
  rewrite <- (fold_trunc _ n a [] H). rewrite firstn_nil. reflexivity.
Qed.
Lemma lowestN_eq {A} (lt : A -> A -> bool) a n : 0 <= n ->
  lowestN lt a n = map snd (firstn (Z.to_nat n) (sorted_pairs lt a)).
Proof.
  intros. rewrite <- firstn_map, sp_snd. unfold lowestN, stable_insert_all.
  rewrite <- (fold_trunc _ n a [] H). rewrite firstn_nil. reflexivity.
Qed.

(** ** uniqueness of the specifications *)
Lemma goes_before_asym {A} (lt : A -> A -> bool) a i j : weak_order lt ->
  goes_before lt a i j -> goes_before lt a j i -> False.
Proof.
  intros W (x & y & X & Y & H) (y' & x' & Y' & X' & H').
  assert (x' = x) by congruence. assert (y' = y) by congruence. subst.
  destruct H as [H|(H & H2 & H3)], H' as [H'|(H' & H2' & H3')]; try congruence; try lia.
  rewrite (wo_asym lt W _ _ H) in H'. discriminate.
Qed.
Lemma SS_unique {B} (R : B -> B -> Prop) l l' :
  (forall x y, R x y -> R y x -> False) -> NoDup l -> NoDup l' -> (forall x, In x l <-> In x l') ->
  StronglySorted R l -> StronglySorted R l' -> l = l'.
Proof.
  intros AS. revert l'. induction l as [|x l IH]; destruct l' as [|y l']; intros N N' E S1 S2; auto.
  - destruct (proj2 (E y)); left; auto.
  - destruct (proj1 (E x)); left; auto.
  - inversion S1; inversion S2; inversion N; inversion N'; subst. rewrite Forall_forall in *.
    assert (x = y) as <-.
    { destruct (proj1 (E x) (or_introl eq_refl)) as [->|HI]; auto.
      destruct (proj2 (E y) (or_introl eq_refl)) as [->|HI']; auto.
      exfalso. apply (AS x y); auto. }
    f_equal. apply IH; auto. intros z. split; intros Hz.
    + destruct (proj1 (E z) (or_intror Hz)) as [->|]; auto. contradiction.
    + destruct (proj2 (E z) (or_intror Hz)) as [->|]; auto. contradiction.
Qed.
Lemma items_at_fun {A} (a : list A) l r r' : items_at a l r -> items_at a l r' -> r = r'.
Proof.
  intros H. revert r'. induction H; intros r' H'; inversion H'; subst; auto. f_equal; [congruence|auto].
Qed.
Lemma stable_sorting_unique {A} (lt : A -> A -> bool) a r r' : weak_order lt ->
  stable_sorting lt a r -> stable_sorting lt a r' -> r = r'.
Proof.
  intros W (l & [N P] & I & S) (l' & [N' P'] & I' & S').
  assert (l = l') as <-.
  { apply (SS_unique (goes_before lt a)); auto. { intros. eapply goes_before_asym; eauto. }
    intros. rewrite P, P'. tauto. }
  eapply items_at_fun; eauto.
Qed.
Lemma SS_NoDup {B} (R : B -> B -> Prop) l : (forall x, ~ R x x) -> StronglySorted R l -> NoDup l.
Proof.
  intros I. induction 1; constructor; auto. intros H1. rewrite Forall_forall in H0.
  apply (I a). auto.
Qed.
Lemma best_positions_unique {A} (lt : A -> A -> bool) a n l l' : weak_order lt ->
  best_positions lt a n l -> best_positions lt a n l' -> l = l'.
Proof.
  intros W (L & S & R & B) (L' & S' & R' & B').
  assert (forall x, ~ goes_before lt a x x) as IR.
  { intros x H. eapply goes_before_asym; eauto. }
  pose proof (SS_NoDup _ _ IR S) as N. pose proof (SS_NoDup _ _ IR S') as N'.
  assert (forall l l', NoDup l -> NoDup l' -> length l = length l' ->
     (forall i, In i l -> 0 <= i < len a) -> (forall i, In i l' -> 0 <= i < len a) ->
     (forall i j, In i l -> 0 <= j < len a -> ~ In j l -> goes_before lt a i j) ->
     (forall i j, In i l' -> 0 <= j < len a -> ~ In j l' -> goes_before lt a i j) ->
     incl l l') as G.
  { clear - W. intros l l' N N' HL R R' B B' i Hi.
    destruct (in_dec Z.eq_dec i l') as [|Hni]; auto. exfalso.
    destruct (Exists_dec (fun j => ~ In j l) l') as [E|E].
    { intros j. destruct (in_dec Z.eq_dec j l); [right|left]; tauto. }
    - apply Exists_exists in E as (j & Hj & Hnj).
      eapply goes_before_asym; [eauto | apply (B i j) | apply (B' j i)]; auto.
    - assert (incl l' l) as I.
      { intros j Hj. destruct (in_dec Z.eq_dec j l); auto. exfalso. apply E, Exists_exists; eauto. }
      apply Hni. apply (NoDup_length_incl N' (l' := l)); auto. lia. }
  apply (SS_unique (goes_before lt a)); auto. { intros; eapply goes_before_asym; eauto. }
  intros i; split; apply G; auto; unfold len in *; lia.
Qed.

(** ** minimum / maximum *)
Lemma best_one {A} (lt : A -> A -> bool) a l : weak_order lt ->
  best_positions lt a 1 l -> a <> [] ->
  exists i x, l = [i] /\ at_ a i = Some x /\ 0 <= i < len a /\
    (forall j y, at_ a j = Some y -> lt y x = false) /\
    (forall j y, at_ a j = Some y -> j < i -> lt x y = true).
Proof.
  intros W (L & S & R & B) NE.
  assert (0 < len a) by (destruct a; [congruence|unfold len; cbn; lia]).
  assert (length l = 1%nat) by (unfold len in *; lia).
  destruct l as [|i [|? ?]]; try discriminate.
  assert (Hi : 0 <= i < len a) by (apply R; left; auto).
  destruct (at_ a i) as [x|] eqn:E.
  2:{ unfold at_ in E. destruct (Z.ltb_spec i 0); [lia|]. apply nth_error_None in E. unfold len in *; lia. }
  exists i, x. do 3 (split; auto).
  assert (forall j y, at_ a j = Some y -> j <> i -> goes_before lt a i j) as G.
  { intros j y Ej Hj. apply B; [left; auto| |intros [|[]]; congruence].
    unfold at_ in Ej. destruct (Z.ltb_spec j 0); [discriminate|].
    assert (Z.to_nat j < length a)%nat by (apply nth_error_Some; congruence). unfold len; lia. }
  split; intros j y Ej.
  - destruct (Z.eq_dec j i) as [->|Hj]. { assert (x = y) by congruence. subst. apply (wo_irrefl _ W). }
    destruct (G j y Ej Hj) as (x' & y' & X & Y & H1).
    assert (x' = x) by congruence. assert (y' = y) by congruence. subst.
    destruct H1 as [H1|(H1 & H2 & H3)]; auto. apply (wo_asym lt W); auto.
  - intros Hji. assert (j <> i) as Hj by lia. destruct (G j y Ej Hj) as (x' & y' & X & Y & H1).
    assert (x' = x) by congruence. assert (y' = y) by congruence. subst.
    destruct H1 as [H1|(H1 & H2 & H3)]; auto. lia.
Qed.
