From Coq Require Import SpecFloat Permutation.
From Verif Require Import Base PyNum PyNumProofs ArithModel LinregModel PullModel PullSpec.
Open Scope string_scope.
Open Scope list_scope.
Open Scope Z_scope.

Lemma lengths_differ_false {V} (a b : list V) : lengths_differ a b = false <-> length a = length b.
Proof. unfold lengths_differ. rewrite negb_false_iff. apply Nat.eqb_eq. Qed.
Lemma lengths_differ_true {V} (a b : list V) : lengths_differ a b = true <-> length a <> length b.
Proof. unfold lengths_differ. rewrite negb_true_iff. apply Nat.eqb_neq. Qed.

Lemma existsb_key k ks : existsb (String.eqb k) ks = true <-> In k ks.
Proof.
  rewrite existsb_exists. split.
  - intros (x & I & E). apply String.eqb_eq in E. subst. auto.
  - intro I. exists k. split; auto. apply String.eqb_refl.
Qed.
Lemma keys_differ_false {V} (a b : list (string * V)) : keys_differ a b = false <-> same_keys a b.
Proof.
  unfold keys_differ, same_keys. rewrite negb_false_iff, andb_true_iff, !forallb_forall.
  split.
  - intros [H1 H2] k. split; intro I; [apply H1 in I | apply H2 in I]; apply existsb_key in I; auto.
  - intro H. split; intros k I; apply existsb_key; apply H; auto.
Qed.
Lemma keys_differ_true {V} (a b : list (string * V)) : keys_differ a b = true <-> ~ same_keys a b.
Proof.
  rewrite <- keys_differ_false. destruct (keys_differ a b); split; congruence.
Qed.

Lemma Forall2_nth {A B} (R : A -> B -> Prop) l m : Forall2 R l m <->
  length l = length m /\ forall i a b, nth_error l i = Some a -> nth_error m i = Some b -> R a b.
Proof.
  split.
  - induction 1 as [|x y l m H F [IH1 IH2]]; [split; auto; intros [|] ? ? ?; discriminate|].
    split; [cbn; congruence|]. intros [|i] a b; cbn; intros E1 E2; [congruence|eauto].
  - revert m. induction l as [|x l IH]; intros [|y m] [L H]; try discriminate; constructor.
    + apply (H 0%nat); auto.
    + apply IH. split; [cbn in L; congruence|]. intros i. apply (H (S i)).
Qed.

Lemma nth_combine {A B} (l : list A) (m : list B) i : length l = length m ->
  nth_error (combine l m) i = match nth_error l i, nth_error m i with Some a, Some b => Some (a, b) | _, _ => None end.
Proof.
  revert m i. induction l as [|x l IH]; intros [|y m] [|i] L; try discriminate; cbn; auto.
Qed.

Lemma zip2_spec {V} (f : V -> V -> res V) o p r : length o = length p ->
  (rmapM (fun op => f (fst op) (snd op)) (combine o p) = Ok r <-> at_each_position (fun a b c => f a b = Ok c) o p r).
Proof.
  intro L. rewrite rmapM_ok_Forall2, Forall2_nth, combine_length. unfold at_each_position. split.
  - intros [E H]. split; [auto|]. split; [lia|]. intros i a b c A B C. apply (H i (a, b)); auto.
    rewrite nth_combine, A, B by auto. auto.
  - intros (_ & E & H). split; [lia|]. intros i [a b] c I C. cbn. rewrite nth_combine in I by auto.
    destruct (nth_error o i) eqn:A; [|discriminate]. destruct (nth_error p i) eqn:B; [|discriminate].
    inversion I; subst. eauto.
Qed.
Lemma zip3_spec {V} (f : V -> V -> V -> res V) o p u r : length o = length p -> length o = length u ->
  (rmapM (fun t => let '(a, b, c) := t in f a b c) (combine (combine o p) u) = Ok r <->
   at_each_position3 (fun a b c d => f a b c = Ok d) o p u r).
Proof.
  intros L M. rewrite rmapM_ok_Forall2, Forall2_nth, !combine_length. unfold at_each_position3.
  assert (L2 : length (combine o p) = length u) by (rewrite combine_length; lia). split.
  - intros [E H]. repeat split; auto; [lia|]. intros i a b w c A B W C. apply (H i (a, b, w)); auto.
    rewrite nth_combine, nth_combine, A, B, W by auto. auto.
  - intros (_ & _ & E & H). split; [lia|]. intros i [[a b] w] c I C. rewrite nth_combine, nth_combine in I by auto.
    destruct (nth_error o i) eqn:A; [|discriminate]. destruct (nth_error p i) eqn:B; [|discriminate].
    destruct (nth_error u i) eqn:W; [|discriminate]. inversion I; subst. eauto.
Qed.

(** ** Numbers *)
Lemma a_double_float x : match x with NI z => Z.abs z < 2 ^ 200 | NF _ => True end -> exists f, to_f x = Ok f.
Proof. destruct x as [z|f]; cbn [to_f]; eauto. intro H. destruct (py_float_ok z H) as (f & E & _). eauto. Qed.
Lemma pow_63_200 : 2 ^ 63 + 2 ^ 63 < 2 ^ 200. Proof. reflexivity. Qed.
Lemma pow_63_200' : 2 ^ 63 < 2 ^ 200. Proof. reflexivity. Qed.

Lemma sub_double o p : a_double o -> a_double p ->
  exists d, py_sub o p = Ok d /\ match d with NI z => Z.abs z < 2 ^ 200 | NF _ => True end.
Proof.
  intros A B. destruct o as [x|x], p as [y|y]; cbn [a_double] in A, B.
  - exists (NI (x - y)). split; [reflexivity|]. pose proof pow_63_200. lia.
  - destruct (a_double_float (NI x)) as [f E]; [pose proof pow_63_200'; lia|]. unfold py_sub, num_op. rewrite E. cbn. eauto.
  - destruct (a_double_float (NI y)) as [f E]; [pose proof pow_63_200'; lia|]. unfold py_sub, num_op. cbn [to_f]. cbn [rbind].
    cbn [to_f] in E. rewrite E. cbn. eauto.
  - cbn. eauto.
Qed.

Lemma double_float x : a_double x -> exists f, to_f x = Ok f.
Proof. intro A. apply a_double_float. destruct x; auto. cbn in A. pose proof pow_63_200'. lia. Qed.

Lemma pdiv_total d u : match d with NI z => Z.abs z < 2 ^ 200 | NF _ => True end -> a_double u ->
  exists f, pdiv d u = Ok (NF f).
Proof.
  intros D U. destruct (double_float u U) as [fu Eu]. destruct (a_double_float d D) as [fd Ed].
  unfold pdiv, lib_divide. rewrite Eu. cbn [rbind]. destruct (is_fzero fu); cbn [rbind]; eauto.
  rewrite Ed. cbn. eauto.
Qed.

Lemma num_cmp_f0 d : num_cmp d (NF f0) = num_cmp d (NI 0).
Proof. destruct d as [z|[s|s| |s m e]]; cbn; try destruct s; try destruct z; auto; destruct (0 <=? e) eqn:E; cbn; auto.
  all: try (destruct (2 ^ e) eqn:P; auto; exfalso; pose proof (Z.pow_pos_nonneg 2 e); lia).
  all: destruct e; auto.
Qed.

Lemma as_float_NF q : as_float (NF q) = Ok (NF q).
Proof. reflexivity. Qed.
Lemma pdiv_NF d u q : pdiv d u = Ok q -> as_float q = Ok q.
Proof. unfold pdiv. destruct (lib_divide d u); cbn; [|discriminate]. intro H. inversion H. reflexivity. Qed.
Lemma pdiv_as_float d u : (q <- pdiv d u ;; as_float q) = pdiv d u.
Proof. destruct (pdiv d u) eqn:E; auto. cbn. apply pdiv_NF in E. auto. Qed.

(** ** Maps *)
Lemma assoc_In_keys {V} k (d : list (string * V)) : In k (map fst d) -> exists v, assoc k d = Some v.
Proof.
  induction d as [|[k' v] d IH]; cbn; [contradiction|]. destruct (String.eqb_spec k k'); eauto.
  intros [E|I]; [congruence|auto].
Qed.
Lemma assoc_keys {V} k (d : list (string * V)) v : assoc k d = Some v -> In k (map fst d).
Proof.
  induction d as [|[k' w] d IH]; cbn; [discriminate|]. destruct (String.eqb_spec k k'); auto.
Qed.

Lemma rmapM_ext {A B} (f g : A -> res B) l : (forall a, In a l -> f a = g a) -> rmapM f l = rmapM g l.
Proof.
  induction l as [|a l IH]; intro H; cbn; auto. rewrite H by (cbn; auto). rewrite IH by (intros; apply H; cbn; auto). auto.
Qed.

(** a map result, entry by entry *)
Lemma map_entries {V W} (f : string -> V -> res W) (o : list (string * V)) (r : list (string * W)) : NoDup (map fst o) ->
  rmapM (fun ko => v <- f (fst ko) (snd ko) ;; Ok (fst ko, v)) o = Ok r ->
  map fst r = map fst o /\ forall k a c, assoc k o = Some a -> assoc k r = Some c -> f k a = Ok c.
Proof.
  revert r. induction o as [|[k a] o IH]; intros r N H; cbn in H.
  - inversion H. split; auto. intros; discriminate.
  - destruct (f k a) as [v|] eqn:E; cbn in H; [|discriminate].
    destruct (rmapM _ o) as [r'|] eqn:F; cbn in H; [|discriminate]. inversion H; subst. inversion N; subst.
    destruct (IH r') as [K P]; auto. split; [cbn; congruence|].
    intros k' a' c. cbn. destruct (String.eqb_spec k' k) as [->|NE]; eauto. intros A B. inversion A; inversion B; subst. auto.
Qed.

Lemma map_entries_total {V W} (f : string -> V -> res W) (o : list (string * V)) :
  (forall k a, In (k, a) o -> exists v, f k a = Ok v) ->
  exists r, rmapM (fun ko => v <- f (fst ko) (snd ko) ;; Ok (fst ko, v)) o = Ok r.
Proof.
  induction o as [|[k a] o IH]; intro H; cbn; eauto.
  destruct (H k a) as [v E]; [cbn; auto|]. rewrite E. cbn. destruct IH as [r R]; [intros; apply H; cbn; auto|].
  rewrite R. cbn. eauto.
Qed.

Lemma assoc_combine_nth {V} ks (l : list V) i k : NoDup ks -> length ks = length l ->
  nth_error ks i = Some k -> assoc k (combine ks l) = nth_error l i.
Proof.
  revert l i. induction ks as [|k0 ks IH]; intros [|v l] [|i] N L E; try discriminate; inversion N; subst; cbn in *.
  - inversion E; subst. rewrite String.eqb_refl. auto.
  - destruct (String.eqb_spec k k0) as [->|NE]; [|auto]. exfalso. apply nth_error_In in E. contradiction.
Qed.

Lemma keys_combine {V} (ks : list string) (l : list V) : length ks = length l -> map fst (combine ks l) = ks.
Proof. revert l. induction ks as [|k ks IH]; intros [|v l] L; try discriminate; cbn; auto. rewrite IH; auto. Qed.

Lemma assoc_skip {V} k k0 (v : V) (ks : list string) (l : list V) : ~ In k0 ks -> In k ks -> assoc k ((k0, v) :: combine ks l) = assoc k (combine ks l).
Proof. intros N I. cbn. destruct (String.eqb_spec k k0) as [->|]; auto. contradiction. Qed.

(** the same function applied by key and by position *)
Lemma by_key_by_position2 {V W} (f : V -> V -> res W) ks (o p : list V) :
  NoDup ks -> length ks = length o -> length o = length p ->
  rmapM (fun ko => vp <- item (combine ks p) (fst ko) ;; r <- f (snd ko) vp ;; Ok (fst ko, r)) (combine ks o) =
  (r <- rmapM (fun op => f (fst op) (snd op)) (combine o p) ;; Ok (combine ks r)).
Proof.
  revert o p. induction ks as [|k ks IH]; intros [|a o] [|b p] N L M; try discriminate; auto. inversion N; subst.
  cbn [combine rmapM fst snd]. unfold item at 1. cbn [assoc]. rewrite String.eqb_refl. cbn [rbind].
  destruct (f a b) as [c|]; cbn [rbind]; auto.
  rewrite (rmapM_ext _ (fun ko => vp <- item (combine ks p) (fst ko) ;; r <- f (snd ko) vp ;; Ok (fst ko, r))).
  - rewrite IH by (cbn in *; congruence). destruct (rmapM _ (combine o p)); auto.
  - intros [k' a'] I. cbn [fst snd]. unfold item.
    rewrite (assoc_skip k' k b ks p); auto. apply (in_combine_l _ _ _ _ I).
Qed.
Lemma by_key_by_position3 {V W} (f : V -> V -> V -> res W) ks (o p u : list V) :
  NoDup ks -> length ks = length o -> length o = length p -> length o = length u ->
  rmapM (fun ko => vp <- item (combine ks p) (fst ko) ;; vu <- item (combine ks u) (fst ko) ;;
                   r <- f (snd ko) vp vu ;; Ok (fst ko, r)) (combine ks o) =
  (r <- rmapM (fun t => let '(a, b, c) := t in f a b c) (combine (combine o p) u) ;; Ok (combine ks r)).
Proof.
  revert o p u. induction ks as [|k ks IH]; intros [|a o] [|b p] [|w u] N L M M2; try discriminate; auto. inversion N; subst.
  cbn [combine rmapM fst snd]. unfold item at 1 2. cbn [assoc]. rewrite String.eqb_refl. cbn [rbind].
  destruct (f a b w) as [c|]; cbn [rbind]; auto.
  rewrite (rmapM_ext _ (fun ko => vp <- item (combine ks p) (fst ko) ;; vu <- item (combine ks u) (fst ko) ;;
                                  r <- f (snd ko) vp vu ;; Ok (fst ko, r))).
  - rewrite IH by (cbn in *; congruence). destruct (rmapM _ (combine (combine o p) u)); auto.
  - intros [k' a'] I. cbn [fst snd]. unfold item.
    rewrite (assoc_skip k' k b ks p), (assoc_skip k' k w ks u); auto; apply (in_combine_l _ _ _ _ I).
Qed.

Lemma same_keys_perm {V W} (a : list (string * V)) (b b' : list (string * W)) :
  Permutation b b' -> same_keys a b -> same_keys a b'.
Proof.
  intros P H k. rewrite (H k). split; apply Permutation_in; [|symmetry]; apply Permutation_map; auto.
Qed.
Lemma assoc_perm_dict {V} (b b' : list (string * V)) k : NoDup (map fst b) -> Permutation b b' -> assoc k b = assoc k b'.
Proof.
  intros N P. induction P as [|[k0 v] b b' P IH|[k1 v1] [k2 v2] b|]; auto.
  - cbn. inversion N; subst. rewrite IH; auto.
  - cbn. inversion N as [|? ? N1 N2]; subst. cbn in N1.
    destruct (String.eqb_spec k k1), (String.eqb_spec k k2); auto. subst. exfalso. apply N1. auto.
  - rewrite IHP1, IHP2; auto. eapply Permutation_NoDup; [|exact N]. apply Permutation_map. auto.
Qed.
Lemma keys_differ_perm {V} (a b b' : list (string * V)) : Permutation b b' -> keys_differ a b = keys_differ a b'.
Proof.
  intro P. destruct (keys_differ a b) eqn:E, (keys_differ a b') eqn:F; auto; exfalso.
  - apply keys_differ_true in E. apply keys_differ_false in F. apply E. eapply same_keys_perm; [|exact F]. symmetry. auto.
  - apply keys_differ_false in E. apply keys_differ_true in F. apply F. eapply same_keys_perm; eauto.
Qed.

(** ** Chi-square *)
Lemma square_sign f : fmul f f = f0 \/ fmul f f = finf \/ fmul f f = fnan \/ exists m e, fmul f f = S754_finite false m e.
Proof.
  unfold fmul, SFmul. destruct f as [s|s| |s m e]; try rewrite xorb_nilpotent; auto.
  unfold binary_round_aux.
  destruct (shr_fexp 53 1024 (Z.pos (m * m)) (e + e) loc_Exact) as [mrs e'].
  destruct (shr_fexp 53 1024 _ e' loc_Exact) as [mrs'' e''].
  destruct (shr_m mrs''); auto. destruct (e'' <=? 1024 - 53); eauto.
  right; right; right. eauto.
Qed.
