(** Restructuring functions. *)
From Verif Require Import Base Effects PyNum ArithModel ArrayModel ArraySpec ArrayProofs SortProofs ArrayProofs2.
From Coq Require Import Permutation Sorting.Sorted Factorial.
Open Scope Z_scope.
Local Arguments len : simpl never.
Local Arguments zlen : simpl never.

(** ** groupby *)
Section Group.
  Context {S A : Type} (f : A -> M S string).
  Definition group_of (k : string) (a : list A) (ks : list string) : list A := flagged a (map (String.eqb k) ks).
  Lemma group_of_app k a b ks ks' : length a = length ks ->
    group_of k (a ++ b) (ks ++ ks') = group_of k a ks ++ group_of k b ks'.
  Proof.
    unfold group_of, flagged. revert ks. induction a; destruct ks; cbn; intros; try discriminate; auto.
    injection H as H. destruct (k =? s)%string; cbn; rewrite IHa by auto; reflexivity.
  Qed.
  Definition group_inv (out : list (string * list A)) (a : list A) (ks : list string) : Prop :=
    NoDup (keys out) /\ forall k, (In k ks -> assoc k out = Some (group_of k a ks)) /\ (~ In k ks -> assoc k out = None).
  Lemma group_add_inv out a ks x k : length a = length ks -> group_inv out a ks ->
    group_inv (group_add out k x) (a ++ [x]) (ks ++ [k]).
  Proof.
    intros L [N H]. split.
    - unfold group_add. destruct (assoc k out); apply keys_set_NoDup; auto.
    - intros k'. rewrite group_of_app by auto. rewrite in_app_iff. unfold group_add.
      destruct (String.eqb_spec k' k) as [->|NE].
      + assert (group_of k [x] [k] = [x]) as -> by (unfold group_of, flagged; cbn; rewrite String.eqb_refl; auto).
        destruct (in_dec string_dec k ks) as [I|I].
        * rewrite (proj1 (H k) I). rewrite assoc_set_eq. split; auto. cbn; tauto.
        * rewrite (proj2 (H k) I). rewrite assoc_set_eq. split; [|cbn; tauto]. intros _.
          assert (group_of k a ks = []) as ->; auto.
          clear - I L. unfold group_of, flagged. revert ks L I.
          induction a; destruct ks; cbn; intros; try discriminate; auto.
          destruct (String.eqb_spec k s) as [->|]; [tauto|]. apply IHa; auto.
      + assert (group_of k' [x] [k] = []) as ->.
        { unfold group_of, flagged; cbn. destruct (String.eqb_spec k' k); [congruence|auto]. }
        rewrite app_nil_r. split; intros HI.
        * destruct HI as [HI|[->|[]]]; [|congruence].
          destruct (assoc k out); rewrite assoc_set_neq by auto; apply H; auto.
        * destruct (assoc k out); rewrite assoc_set_neq by auto; apply H; tauto.
  Qed.
  Lemma groupby_calls a s : forall out b ks0, length b = length ks0 -> group_inv out b ks0 ->
    match mapM f a s with
    | (Ok ks, s') => exists r, foldM (fun out x => bind (f x) (fun k => ret (group_add out k x))) out a s = (Ok r, s') /\
                      group_inv r (b ++ a) (ks0 ++ ks)
    | (Raise e, s') => foldM (fun out x => bind (f x) (fun k => ret (group_add out k x))) out a s = (Raise e, s')
    end.
  Proof.
    revert s. induction a as [|x a IH]; cbn; intros s out b ks0 L I.
    - exists out. rewrite !app_nil_r. auto.
    - unfold bind. destruct (f x s) as [[k|e] s1]; auto.
      specialize (IH s1 (group_add out k x) (b ++ [x]) (ks0 ++ [k])). cbn.
      destruct (mapM f a s1) as [[ks|e] s2].
      + destruct IH as (r & H1 & H2). { rewrite !app_length. cbn. lia. } { apply group_add_inv; auto. }
        exists r. split; auto. rewrite <- !app_assoc in H2. exact H2.
      + apply IH. { rewrite !app_length. cbn. lia. } { apply group_add_inv; auto. }
  Qed.
  Lemma groupby_spec a s :
    match mapM f a s with
    | (Ok ks, s') => exists r, a_groupby a f s = (Ok r, s') /\ group_inv r a ks
    | (Raise e, s') => a_groupby a f s = (Raise e, s')
    end.
  Proof.
    apply (groupby_calls a s [] [] []); auto. split; [constructor|]. split; [intros []|auto].
  Qed.
End Group.

(** ** windows *)
Lemma windows_spec {A} (a : list A) size step k w : 1 <= size -> 1 <= step ->
  forall fuel start, 0 <= start -> len a <= start + Z.of_nat fuel ->
  (nth_error (windows fuel a start size step) k = Some w <->
   len w = size /\ occurs_at a w (start + Z.of_nat k * step)).
Proof.
  intros Hs Ht fuel. revert k. induction fuel; intros k start H0 Hf.
  - cbn. split. { destruct k; discriminate. }
    intros [L O]. apply occurs_at_range in O. lia.
  - cbn [windows]. zl. destruct (Z.ltb_spec start (len a)).
    + destruct (py_slice_cut3 a start (start + size)) as (p & q & E & L1 & L2).
      set (chunk := py_slice a start (start + size)) in *. rewrite len_app in L2.
      rewrite (cut_id (len a) start) in L1, L2 by lia.
      destruct (Z.eqb_spec (len chunk) size) as [LC|LC].
      * assert (start + size <= len a) by (unfold cut in L2; destruct (Z.ltb_spec (start + size) 0); lia).
        destruct k; cbn [app nth_error].
        -- rewrite Z.mul_0_l, Z.add_0_r. split.
           ++ intros HH. injection HH as <-. split; auto. exists p, q. auto.
           ++ intros [LW (p' & q' & E' & L')]. f_equal.
              assert (forall p m q, a = p ++ m ++ q -> len p = start -> len m = size -> cut3 a start (start + size) p m q) as G.
              { intros p1 m1 q1 A1 A2 A3. split; auto. rewrite len_app, (cut_id (len a) start), (cut_id _ (start + size)) by lia. lia. }
              apply (cut3_unique a start (start + size) p chunk q p' w q'); auto.
        -- rewrite IHfuel by lia. replace (start + step + Z.of_nat k * step) with (start + Z.of_nat (S k) * step) by lia. tauto.
      * assert (start + size > len a) by (unfold cut in L2; destruct (Z.ltb_spec (start + size) 0); lia).
        cbn [app]. rewrite IHfuel by lia. split; intros [LW O]; apply occurs_at_range in O; nia.
    + split. { destruct k; discriminate. }
      intros [L O]. apply occurs_at_range in O. nia.
Qed.

(** ** combinations *)
Lemma combinations_iff {A} (a : list A) k c : In c (combinations a k) <-> sublist c a /\ length c = k.
Proof.
  revert k c. induction a as [|x a IH]; intros.
  - destruct k; cbn.
    + split. { intros [<-|[]]. split; auto; constructor. } intros [H L]. destruct c; [auto|discriminate].
    + split; [tauto|]. intros [H L]. inversion H; subst. discriminate.
  - assert (G : sublist [] (x :: a)). { generalize (x :: a). induction l; constructor; auto. }
    destruct k; cbn.
    + split. { intros [<-|[]]. auto. } intros [H L]. destruct c; [auto|discriminate].
    + rewrite in_app_iff, in_map_iff. split.
      * intros [(c' & <- & H)|H]; apply IH in H as [H1 H2]; split; cbn; auto; [apply sub_take|apply sub_skip]; auto.
      * intros [H L]. inversion H; subst.
        -- right. apply IH. auto.
        -- left. cbn in L. eexists. split; auto. apply IH. auto.
Qed.
Lemma combinations_length {A} (a : list A) k : length (combinations a k) = choose (length a) k.
Proof.
  revert k. induction a; destruct k; cbn; auto. rewrite app_length, map_length, !IHa. reflexivity.
Qed.
Lemma sublist_incl {A} (c a : list A) : sublist c a -> incl c a.
Proof. induction 1; intros y Hy; cbn in *; auto. destruct Hy; auto. Qed.
Lemma NoDup_app_intro {A} (l l' : list A) : NoDup l -> NoDup l' -> (forall x, In x l -> ~ In x l') -> NoDup (l ++ l').
Proof.
  induction 1; cbn; intros; auto. constructor.
  - rewrite in_app_iff. intros [?|?]; [contradiction|]. apply (H2 x); cbn; auto.
  - apply IHNoDup; auto; intros; apply H2; right; auto.
Qed.
Lemma combinations_NoDup {A} (a : list A) k : NoDup a -> NoDup (combinations a k).
Proof.
  intros N. revert k. induction N as [|x a HN N IH]; destruct k; cbn.
  - repeat constructor; auto.
  - constructor.
  - repeat constructor; auto.
  - apply NoDup_app_intro; auto.
    + apply FinFun.Injective_map_NoDup; auto. intros ? ? E. congruence.
    + intros c H1 H2. apply in_map_iff in H1 as (c' & <- & _). apply combinations_iff in H2 as [H2 _].
      apply HN. apply (sublist_incl _ _ H2). left; auto.
Qed.

(** ** permutations *)
Lemma selects_perm {A} (l : list A) x r : In (x, r) (selects l) -> Permutation (x :: r) l.
Proof.
  revert x r. induction l as [|y l IH]; cbn; intros x r H; [destruct H|].
  destruct H as [H|H]. { injection H as -> ->. auto. }
  apply in_map_iff in H as ([x' r'] & E & H). cbn in E. injection E as -> <-.
  apply IH in H. rewrite perm_swap. constructor. auto.
Qed.
Lemma selects_complete {A} (l1 : list A) x l2 : In (x, l1 ++ l2) (selects (l1 ++ x :: l2)).
Proof.
  induction l1; cbn; auto. right. apply in_map_iff. exists (x, l1 ++ l2). auto.
Qed.
Lemma selects_length {A} (l : list A) : length (selects l) = length l.
Proof. induction l; cbn; auto. rewrite map_length. auto. Qed.
Lemma perms_iff {A} n (l p : list A) : length l = n -> (In p (perms n l) <-> Permutation p l).
Proof.
  revert l p. induction n; intros l p L.
  - destruct l; [|discriminate]. cbn. split.
    + intros [<-|[]]. auto.
    + intros H. apply Permutation_sym, Permutation_nil in H. auto.
  - cbn. rewrite in_flat_map. split.
    + intros ([x r] & H1 & H2). cbn in H2. apply in_map_iff in H2 as (p' & <- & H2).
      apply selects_perm in H1. apply IHn in H2.
      * rewrite <- H1. constructor. auto.
      * apply Permutation_length in H1. cbn in H1. lia.
    + intros H. destruct p as [|x p]. { apply Permutation_length in H. cbn in H. lia. }
      assert (In x l) as I by (eapply Permutation_in; eauto; left; auto).
      apply in_split in I as (l1 & l2 & ->). exists (x, l1 ++ l2). split; [apply selects_complete|].
      cbn. apply in_map_iff. exists p. split; auto. apply IHn.
      * rewrite app_length in *. cbn in L. lia.
      * apply Permutation_cons_app_inv in H. auto.
Qed.
Lemma flat_map_length_const {A B} (f : A -> list B) l n : (forall x, In x l -> length (f x) = n) ->
  length (flat_map f l) = (length l * n)%nat.
Proof. induction l; cbn; intros; auto. rewrite app_length, IHl, H; auto. Qed.
Lemma perms_length {A} n (l : list A) : length l = n -> length (perms n l) = fact n.
Proof.
  revert l. induction n; intros l L; [reflexivity|]. cbn [perms].
  rewrite (flat_map_length_const _ _ (fact n)).
  - rewrite selects_length, L. reflexivity.
  - intros [x r] H. rewrite map_length. apply IHn. apply selects_perm, Permutation_length in H. cbn in *. lia.
Qed.
Lemma NoDup_flat_map {A B} (f : A -> list B) l :
  NoDup l -> (forall x, In x l -> NoDup (f x)) -> (forall x y z, In x l -> In y l -> In z (f x) -> In z (f y) -> x = y) ->
  NoDup (flat_map f l).
Proof.
  induction 1; cbn; intros; [constructor|]. apply NoDup_app_intro.
  - apply H1; left; auto.
  - apply IHNoDup; intros; [apply H1; right; auto|]. eapply H2; eauto; right; auto.
  - intros z Hz H3. apply in_flat_map in H3 as (y & Hy & Hz2).
    assert (x = y) by (apply (H2 x y z); cbn; auto). subst. contradiction.
Qed.
Lemma selects_fst {A} (l : list A) : map fst (selects l) = l.
Proof. induction l; cbn; auto. f_equal. rewrite map_map. cbn. auto. Qed.
Lemma NoDup_selects_inj {A} (l : list A) x r r' : NoDup l -> In (x, r) (selects l) -> In (x, r') (selects l) -> r = r'.
Proof.
  intros N H H'. rewrite <- (selects_fst l) in N.
  apply In_nth_error in H as [i Hi]. apply In_nth_error in H' as [j Hj].
  assert (i = j).
  { rewrite NoDup_nth_error in N. apply N.
    - rewrite map_length. apply nth_error_Some. congruence.
    - rewrite !nth_error_map, Hi, Hj. reflexivity. }
  subst. congruence.
Qed.
Lemma NoDup_of_map {A B} (f : A -> B) l : NoDup (map f l) -> NoDup l.
Proof. apply NoDup_map_inv. Qed.
Lemma perms_NoDup {A} n (l : list A) : length l = n -> NoDup l -> NoDup (perms n l).
Proof.
  revert l. induction n; intros l L N; cbn; [repeat constructor; auto|].
  apply NoDup_flat_map.
  - apply (NoDup_of_map fst). rewrite selects_fst. auto.
  - intros [x r] H. apply FinFun.Injective_map_NoDup. { intros ? ? ?; congruence. }
    apply selects_perm in H. apply IHn.
    + apply Permutation_length in H. cbn in *. lia.
    + assert (NoDup (x :: r)) as G by (eapply Permutation_NoDup; [apply Permutation_sym|]; eauto). inversion G; auto.
  - intros [x r] [y r'] z Hx Hy H1 H2. cbn in *. apply in_map_iff in H1 as (p1 & <- & _).
    apply in_map_iff in H2 as (p2 & E & _). injection E as -> _.
    f_equal. eapply NoDup_selects_inj; eauto.
Qed.
