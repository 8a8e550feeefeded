(** Proofs about heaps: the objects of values are never changed, so references stand for values (C71). *)
From Coq Require Import Lia.
From Verif Require Import Base ScopeModel CoreModel HeapModel HeapSpec.
Open Scope string_scope.
Open Scope list_scope.
Open Scope Z_scope.

Scheme denotes_mind := Induction for denotes Sort Prop
  with all_denote_mind := Induction for all_denote Sort Prop
  with fields_denote_mind := Induction for fields_denote Sort Prop.
Scheme cmd_mind := Induction for cmd Sort Prop
  with cmds_mind := Induction for cmds Sort Prop
  with target_mind := Induction for target Sort Prop.

(** ** Lists *)
Lemma replace_length {A} i (x : A) l : length (replace i x l) = length l.
Proof. revert i; induction l as [|y l IH]; intros [|i]; simpl; auto. Qed.
Lemma nth_replace_eq {A} i (x y : A) l : nth_error l i = Some y -> nth_error (replace i x l) i = Some x.
Proof. revert i; induction l as [|z l IH]; intros [|i]; simpl; try discriminate; auto. Qed.
Lemma nth_replace_neq {A} i j (x : A) l : i <> j -> nth_error (replace i x l) j = nth_error l j.
Proof. revert i j; induction l as [|z l IH]; intros [|i] [|j] H; simpl; auto; try congruence. Qed.
Lemma nth_error_length {A} (l : list A) i x : nth_error l i = Some x -> (i < length l)%nat.
Proof. intros H. apply nth_error_Some. now rewrite H. Qed.

Lemma NoDup_app_inv {A} (l m : list A) : NoDup (l ++ m) <-> NoDup l /\ NoDup m /\ (forall x, In x l -> ~ In x m).
Proof.
  induction l as [|x l IH]; simpl.
  - split; [intros N; repeat split; auto; constructor|tauto].
  - split.
    + intros N; inversion N as [|? ? I N']; subst. apply IH in N' as (N1 & N2 & D). rewrite in_app_iff in I.
      repeat split; auto; [constructor; tauto|]. intros y [->|J]; auto.
    + intros (N1 & N2 & D). inversion N1 as [|? ? I N']; subst. constructor; [rewrite in_app_iff; intros [J|J]; [auto|eapply D; eauto]|].
      apply IH. repeat split; auto.
Qed.

(** ** What references stand for *)
Lemma all_denote_iff own h l vs : all_denote own h l vs <-> Forall2 (denotes own h) l vs.
Proof.
  split.
  - induction 1; constructor; auto.
  - induction 1; constructor; auto.
Qed.
Lemma fields_denote_iff own h l vs : fields_denote own h l vs <-> Forall2 (named (denotes own h)) l vs.
Proof.
  split.
  - induction 1; constructor; auto. now split.
  - induction 1 as [|[k r] [k' v] l vs [E D] H IH]; simpl in *; subst; constructor; auto.
Qed.
(** the objects of values stay as they are *)
Definition carries (own : list nat) (h : heap) (own' : list nat) (h' : heap) : Prop :=
  forall a o, ~ In a own -> nth_error h a = Some o -> ~ In a own' /\ nth_error h' a = Some o.
Lemma carries_refl own h : carries own h own h.
Proof. intros a o; auto. Qed.
Lemma carries_trans o1 h1 o2 h2 o3 h3 : carries o1 h1 o2 h2 -> carries o2 h2 o3 h3 -> carries o1 h1 o3 h3.
Proof. intros A B a o N E. destruct (A _ _ N E) as [N' E']. now apply B. Qed.
Lemma denotes_carries own h own' h' (C : carries own h own' h') :
  (forall r v, denotes own h r v -> denotes own' h' r v)
  /\ (forall l vs, all_denote own h l vs -> all_denote own' h' l vs)
  /\ (forall d kvs, fields_denote own h d kvs -> fields_denote own' h' d kvs).
Proof.
  assert (H1 : forall r v, denotes own h r v -> denotes own' h' r v).
  { apply (denotes_mind own h (fun r v _ => denotes own' h' r v) (fun l vs _ => all_denote own' h' l vs) (fun d kvs _ => fields_denote own' h' d kvs));
      intros; try (constructor; auto; fail).
    - destruct (C _ _ n e). econstructor; eauto.
    - destruct (C _ _ n e). eapply d_dict; eauto. }
  repeat split; auto.
  - intros l vs; rewrite !all_denote_iff; induction 1; constructor; auto.
  - intros l vs; rewrite !fields_denote_iff; induction 1 as [|? ? ? ? [] ]; constructor; auto. split; auto.
Qed.
Lemma denotes_fun own h r v : denotes own h r v -> forall own' w, denotes own' h r w -> v = w.
Proof.
  revert r v.
  apply (denotes_mind own h (fun r v _ => forall own' w, denotes own' h r w -> v = w)
           (fun l vs _ => forall own' ws, all_denote own' h l ws -> vs = ws) (fun d kvs _ => forall own' ws, fields_denote own' h d ws -> kvs = ws)).
  - intros v F own' w D; inversion D; auto.
  - intros a l vs N E A IH own' w D; inversion D; subst; rewrite E in *; [|discriminate].
    match goal with H : Some _ = Some _ |- _ => inversion H; subst end. f_equal; eauto.
  - intros a l vs N E A IH own' w D; inversion D; subst; rewrite E in *; [discriminate|].
    match goal with H : Some _ = Some _ |- _ => inversion H; subst end. f_equal; eauto.
  - intros own' ws D; inversion D; auto.
  - intros r v l vs D IH A IHA own' ws D'; inversion D'; subst. f_equal; eauto.
  - intros own' ws D; inversion D; auto.
  - intros k r v l vs D IH A IHA own' ws D'; inversion D'; subst. f_equal; [f_equal|]; eauto.
Qed.

(** ** States in step *)
Definition den (saved : bool) (s : hst) (r : ref) (v : val) : Prop := denotes (owned saved s) (hs_heap s) r v.
Definition grows (saved : bool) (s s' : hst) : Prop :=
  owned saved s' = owned saved s /\ carries (owned saved s) (hs_heap s) (owned saved s') (hs_heap s') /\ exists more, hs_held s' = hs_held s ++ more.
Lemma grows_refl saved s : grows saved s s.
Proof. repeat split; auto. exists []; now rewrite app_nil_r. Qed.
Lemma grows_trans saved s1 s2 s3 : grows saved s1 s2 -> grows saved s2 s3 -> grows saved s1 s3.
Proof.
  intros (A & B & m & E) (A' & B' & m' & E'). split; [congruence|]. split; [eapply carries_trans; eauto|].
  exists (m ++ m'). rewrite E', E. now rewrite app_assoc.
Qed.
Lemma den_grows saved s s' r v : grows saved s s' -> den saved s r v -> den saved s' r v.
Proof. intros (_ & C & _). now apply (denotes_carries _ _ _ _ C). Qed.
Definition rel {A B} (saved : bool) (D : hst -> A -> B -> Prop) (s : hst) (p : res A * hst) (q : res B * vst) : Prop :=
  matches saved (snd p) (snd q) /\ grows saved s (snd p)
  /\ match fst p, fst q with Ok a, Ok b => D (snd p) a b | Raise e, Raise f => e = f | _, _ => False end.
Lemma rel_bind {A B A' B'} saved (D : hst -> A -> B -> Prop) (D' : hst -> A' -> B' -> Prop) s t (m : M hst A) (n : M vst B) k l :
  rel saved D s (m s) (n t) ->
  (forall s1 t1 a b, matches saved s1 t1 -> grows saved s s1 -> D s1 a b -> rel saved D' s1 (k a s1) (l b t1)) ->
  rel saved D' s (mbind m k s) (mbind n l t).
Proof.
  unfold mbind. intros (Mt & G & E) K. destruct (m s) as [[a|e] s1], (n t) as [[b|f] t1]; simpl in *; try tauto.
  - destruct (K _ _ _ _ Mt G E) as (M' & G' & E'). split; [auto|]. split; [eapply grows_trans; eauto|auto].
  - subst. split; [exact Mt|]. split; [exact G|reflexivity].
Qed.
Lemma rel_here {A B} saved (D : hst -> A -> B -> Prop) s t x y :
  matches saved s t -> match x, y with Ok a, Ok b => D s a b | Raise e, Raise f => e = f | _, _ => False end -> rel saved D s (x, s) (y, t).
Proof. intros. split; [auto|]. split; [apply grows_refl|auto]. Qed.
Lemma rel_weaken {A B} saved (D D' : hst -> A -> B -> Prop) s p q : rel saved D s p q -> (forall s a b, D s a b -> D' s a b) -> rel saved D' s p q.
Proof. intros (A1 & A2 & A3) H. split; [auto|]. split; [auto|]. destruct (fst p), (fst q); auto. Qed.
Definition unit_rel : hst -> unit -> unit -> Prop := fun _ _ _ => True.

Lemma at_rel {A B} (R : A -> B -> Prop) l l' i : Forall2 R l l' ->
  match at_ i l, at_ i l' with Ok a, Ok b => R a b | Raise e, Raise f => e = f | _, _ => False end.
Proof. unfold at_. intros F; revert i; induction F as [|x y l l' H F IH]; intros [|i]; simpl; auto. apply IH. Qed.
Lemma held_rel saved s t i : matches saved s t -> rel saved (den saved) s (hheld i s) (vheld i t).
Proof.
  intros Mt. unfold hheld, vheld. apply rel_here; auto. apply at_rel. apply all_denote_iff, Mt.
Qed.
Lemma push_rel saved s t r v : matches saved s t -> den saved s r v -> rel saved unit_rel s (hpush r s) (vpush v t).
Proof.
  intros [N H C P] D. unfold hpush, vpush, hold, vhold. split; [|split]; simpl.
  - split; simpl; auto. apply all_denote_iff. apply Forall2_app; [now apply all_denote_iff|]. constructor; auto.
  - split; [reflexivity|]. split; [apply carries_refl|]. exists [r]; reflexivity.
  - constructor.
Qed.
Lemma Forall2_last {A B} (R : A -> B -> Prop) l l' d d' : R d d' -> Forall2 R l l' -> R (last l d) (last l' d').
Proof.
  intros Hd F. induction F as [|x y l l' H F IH]; simpl; auto. destruct F; auto.
Qed.
Lemma last_rel saved s t : matches saved s t -> rel saved (den saved) s (hlast s) (vlast t).
Proof.
  intros Mt. apply rel_here; auto. apply Forall2_last; [now constructor|]. apply all_denote_iff, Mt.
Qed.

(** ** Looking up *)
Lemma Forall2_length {A B} (R : A -> B -> Prop) l l' : Forall2 R l l' -> length l = length l'.
Proof. induction 1; simpl; auto. Qed.
Lemma Forall2_impl {A B} (R S : A -> B -> Prop) l l' : (forall a b, R a b -> S a b) -> Forall2 R l l' -> Forall2 S l l'.
Proof. induction 2; constructor; auto. Qed.
Lemma Forall2_nth {A B} (R : A -> B -> Prop) l l' i d d' : Forall2 R l l' -> (i < length l)%nat -> R (nth i l d) (nth i l' d').
Proof. intros F; revert i; induction F; intros [|i]; simpl; intros L; try lia; auto. apply IHF. lia. Qed.
Lemma assoc_named {A B} (R : A -> B -> Prop) k l l' : Forall2 (named R) l l' ->
  match assoc k l, assoc k l' with Some a, Some b => R a b | None, None => True | _, _ => False end.
Proof.
  induction 1 as [|[k1 a] [k2 b] l l' [E H] F IH]; simpl in *; auto. subst. destruct (String.eqb k k2); auto.
Qed.
Lemma set_named {A B} (R : A -> B -> Prop) k l l' a b : Forall2 (named R) l l' -> R a b -> Forall2 (named R) (dict_set k a l) (dict_set k b l').
Proof.
  intros F H. induction F as [|[k1 x] [k2 y] l l' [E H'] F IH]; simpl in *.
  - constructor; [split; auto|constructor].
  - subst. destruct (String.eqb k k2); constructor; auto; split; auto.
Qed.
Lemma del_named {A B} (R : A -> B -> Prop) k l l' : Forall2 (named R) l l' -> Forall2 (named R) (dict_del k l) (dict_del k l').
Proof.
  intros F. induction F as [|[k1 x] [k2 y] l l' [E H'] F IH]; simpl in *; auto.
  subst. destruct (String.eqb k k2); auto. constructor; auto; split; auto.
Qed.
Lemma replace_rel {A B} (R : A -> B -> Prop) i l l' a b : Forall2 R l l' -> R a b -> Forall2 R (replace i a l) (replace i b l').
Proof. intros F H; revert i; induction F; intros [|i]; simpl; constructor; auto. Qed.
Lemma get_rel own h path r v ae me : denotes own h r v ->
  match hget h r path ae me, get_path v path ae me with Ok a, Ok b => denotes own h a b | Raise e, Raise f => e = f | _, _ => False end.
Proof.
  revert r v; induction path as [|k path IH]; intros r v D; simpl; auto.
  assert (K : match hget_one h r k ae me, get_one v k ae me with Ok a, Ok b => denotes own h a b | Raise e, Raise f => e = f | _, _ => False end).
  { destruct D as [v F|a l vs N E A|a d kvs N E A]; simpl.
    - destruct v, k; try discriminate; reflexivity.
    - rewrite E. destruct k as [| |i| | | | |]; auto. apply all_denote_iff in A. rewrite <- (Forall2_length _ _ _ A).
      destruct (_ && _)%bool eqn:B; auto. apply Bool.andb_true_iff in B as [B1 B2].
      apply Forall2_nth; auto. destruct (i <? 0); lia.
    - rewrite E. destruct k; auto. apply fields_denote_iff in A. apply (assoc_named _ s) in A.
      revert A; destruct (assoc s d), (assoc s kvs); auto; tauto. }
  destruct (hget_one h r k ae me), (get_one v k ae me); simpl; try tauto. now apply IH.
Qed.

(** ** New objects *)
Lemma owned_there saved s t a : matches saved s t -> In a (owned saved s) -> exists o, nth_error (hs_heap s) a = Some (ODict o).
Proof.
  intros [N H C P] I. unfold owned in I.
  generalize (owned saved s) P. intros own P'. clear P N H C.
  revert I; induction P' as [|[k x] [k' y] l l' [E (R & (o & Eo & Fo) & Old)] F IH]; simpl.
  - destruct saved; simpl; tauto.
  - intros [<-|I]; [eauto|]. simpl in *. apply in_app_or in I as [I|I]; [apply IH, in_or_app; auto|].
    destruct saved; simpl in I; [|tauto]. unfold olds in I; simpl in I. unfold same_old in Old; simpl in Old.
    apply in_app_or in I as [I|I]; [|apply IH, in_or_app; auto].
    destruct (hp_rollback x); simpl in *; [|tauto]. destruct Old as (a0 & b & Eo2 & _ & o2 & E2 & _). rewrite Eo2 in I.
    destruct I as [<-|[]]. eauto.
Qed.
Lemma owned_lt saved s t a : matches saved s t -> In a (owned saved s) -> (a < length (hs_heap s))%nat.
Proof. intros Mt I. destruct (owned_there _ _ _ _ Mt I) as (o & E). eapply nth_error_length; eauto. Qed.
Lemma dict_denotes_app own h x a d : dict_denotes own h a d -> carries own h own (h ++ x) -> dict_denotes own (h ++ x) a d.
Proof.
  intros (o & E & F) C. exists o. split; [rewrite nth_error_app1; eauto using nth_error_length|].
  now apply (denotes_carries _ _ _ _ C).
Qed.
Lemma carries_app own h x : carries own h own (h ++ x).
Proof. intros a o N E. split; auto. rewrite nth_error_app1; eauto using nth_error_length. Qed.
Lemma alloc_rel saved s t o v : matches saved s t ->
  (denotes (owned saved s) (hs_heap s ++ [o]) (RObj (length (hs_heap s))) v) ->
  rel saved (den saved) s (halloc o s) (Ok v, t).
Proof.
  intros Mt D. pose proof Mt as [N H C P]. unfold halloc, alloc.
  pose proof (carries_app (owned saved s) (hs_heap s) [o]) as Ca. destruct (denotes_carries _ _ _ _ Ca) as (D1 & D2 & D3).
  split; [|split]; simpl.
  - split; simpl; auto.
    + revert C. apply Forall2_impl. intros [k x] [k' y] [E (R & V & Old)]; split; auto. simpl in *. split; [auto|]. split; [auto|].
      unfold same_old in *. destruct (saved && _)%bool; auto. destruct Old as (a & b & ? & ? & ?). exists a, b; auto.
    + revert P. apply Forall2_impl. intros [k x] [k' y] [E (R & V & Old)]; split; auto. simpl in *. split; [auto|].
      split; [now apply dict_denotes_app|].
      unfold same_old in *. destruct (saved && _)%bool; auto. destruct Old as (a & b & ? & ? & ?). exists a, b; auto using dict_denotes_app.
  - split; [reflexivity|]. split; [exact Ca|]. exists []; simpl; now rewrite app_nil_r.
  - exact D.
Qed.
Lemma nth_alloc (h : heap) o : nth_error (h ++ [o]) (length h) = Some o.
Proof. rewrite nth_error_app2 by lia. now rewrite Nat.sub_diag. Qed.
Lemma fresh saved s t : matches saved s t -> ~ In (length (hs_heap s)) (owned saved s).
Proof. intros Mt I. apply (owned_lt _ _ _ _ Mt) in I. lia. Qed.
Lemma alloc_arr_rel saved s t l vs : matches saved s t -> all_denote (owned saved s) (hs_heap s) l vs -> rel saved (den saved) s (halloc (OArr l) s) (Ok (VArr vs), t).
Proof.
  intros Mt A. apply alloc_rel; auto. eapply d_arr; [eapply fresh; eauto|apply nth_alloc|]. eapply denotes_carries; [apply carries_app|]; auto.
Qed.
Lemma alloc_dict_rel saved s t l vs : matches saved s t -> fields_denote (owned saved s) (hs_heap s) l vs -> rel saved (den saved) s (halloc (ODict l) s) (Ok (VDict vs), t).
Proof.
  intros Mt A. apply alloc_rel; auto. eapply d_dict; [eapply fresh; eauto|apply nth_alloc|]. eapply denotes_carries; [apply carries_app|]; auto.
Qed.
Lemma rmapM_rel {A B C} (R : B -> C -> Prop) (f : A -> res B) (g : A -> res C) l :
  (forall a, match f a, g a with Ok a, Ok b => R a b | Raise e, Raise f => e = f | _, _ => False end) ->
  match rmapM f l, rmapM g l with Ok a, Ok b => Forall2 R a b | Raise e, Raise f => e = f | _, _ => False end.
Proof.
  intros H. induction l as [|a l IH]; simpl; auto. specialize (H a). destruct (f a), (g a); simpl; auto; try tauto.
  destruct (rmapM f l), (rmapM g l); simpl; auto.
Qed.
Lemma new_rel saved s t x : matches saved s t -> rel saved (den saved) s (hnew x s) (vnew x t).
Proof.
  intros Mt. pose proof (proj1 (all_denote_iff _ _ _ _) (m_held _ _ _ Mt)) as H. destruct x as [l|d]; unfold hnew, vnew.
  - apply rel_bind with (D := fun s' l vs => s' = s /\ all_denote (owned saved s) (hs_heap s) l vs).
    + apply rel_here; auto.
      pose proof (rmapM_rel (denotes (owned saved s) (hs_heap s)) (fun i => at_ i (hs_held s)) (fun i => at_ i (vs_held t)) l (fun i => at_rel _ _ _ i H)).
      destruct (rmapM _ l), (rmapM _ l); auto. split; auto. now apply all_denote_iff.
    + intros s1 t1 a b M1 _ [-> A]. now apply alloc_arr_rel.
  - apply rel_bind with (D := fun s' l vs => s' = s /\ fields_denote (owned saved s) (hs_heap s) l vs).
    + apply rel_here; auto.
      assert (K : forall p : string * nat, match (r <- at_ (snd p) (hs_held s) ;; Ok (fst p, r)), (r <- at_ (snd p) (vs_held t) ;; Ok (fst p, r)) with
                    Ok a, Ok b => named (denotes (owned saved s) (hs_heap s)) a b | Raise e, Raise f => e = f | _, _ => False end).
      { intros p. pose proof (at_rel _ _ _ (snd p) H). destruct (at_ (snd p) (hs_held s)), (at_ (snd p) (vs_held t)); simpl; auto. split; auto. }
      pose proof (rmapM_rel _ _ _ d K).
      destruct (rmapM _ d), (rmapM _ d); auto. split; auto. now apply fields_denote_iff.
    + intros s1 t1 a b M1 _ [-> A]. now apply alloc_dict_rel.
Qed.

(** ** Updates along a path *)
Lemma update_rel saved hl vl ae me :
  (forall s t r v, matches saved s t -> den saved s r v -> rel saved (den saved) s (hl r s) (vl v t)) ->
  forall path s t r v, matches saved s t -> den saved s r v -> rel saved (den saved) s (hupdate hl r path ae me s) (vupdate vl v path ae me t).
Proof.
  intros L path. induction path as [|k path IH]; intros s t r v Mt D; simpl; [auto|].
  unfold den in D. destruct D as [v F|a l vs N E A|a d kvs N E A].
  - destruct v, k; try discriminate; apply rel_here; auto.
  - rewrite E. destruct k; try (apply rel_here; auto; fail).
    pose proof (proj1 (all_denote_iff _ _ _ _) A) as A'. rewrite <- (Forall2_length _ _ _ A').
    destruct (_ || _)%bool eqn:B; [apply rel_here; auto|]. apply Bool.orb_false_iff in B as [_ B].
    destruct (_ <=? _) eqn:B2; [now apply alloc_arr_rel|].
    eapply rel_bind.
    + apply IH; auto. apply Forall2_nth; auto. lia.
    + intros s1 t1 x y M1 G1 D1. apply alloc_arr_rel; auto. apply all_denote_iff. apply replace_rel; auto.
      apply all_denote_iff. now apply (denotes_carries _ _ _ _ (proj1 (proj2 G1))).
  - rewrite E. destruct k; try (destruct path; [now apply alloc_dict_rel|apply rel_here; auto]; fail).
    pose proof (proj1 (fields_denote_iff _ _ _ _) A) as A'. pose proof (assoc_named _ s0 _ _ A') as K.
    destruct (assoc s0 d), (assoc s0 kvs); try tauto.
    + eapply rel_bind; [now apply IH|].
      intros s1 t1 x y M1 G1 D1. apply alloc_dict_rel; auto. apply fields_denote_iff. apply set_named; auto.
      apply fields_denote_iff. now apply (denotes_carries _ _ _ _ (proj1 (proj2 G1))).
    + destruct path; [now apply alloc_dict_rel|apply rel_here; auto].
Qed.

(** ** Cells and pools *)
Lemma cell_rel saved s t c : matches saved s t ->
  rel saved (fun s' x y => s' = s /\ cell_matches (owned saved s) (hs_heap s) saved x y) s (hcell_of c s) (vcell_of c t).
Proof.
  intros Mt. apply rel_here; auto. pose proof (assoc_named _ c _ _ (m_cells _ _ _ Mt)) as K.
  destruct (assoc c (hs_cells s)), (assoc c (vs_cells t)); simpl in *; auto.
Qed.
Lemma pool_rel {A B} saved (D : hst -> A -> B -> Prop) s t p k l : matches saved s t ->
  (forall x y, assoc p (hs_pools s) = Some x -> assoc p (vs_pools t) = Some y -> pool_matches (owned saved s) (hs_heap s) saved x y ->
     rel saved D s (k x s) (l y t)) ->
  rel saved D s (mbind (hpool_of p) k s) (mbind (vpool_of p) l t).
Proof.
  intros Mt K. pose proof (assoc_named _ p _ _ (m_pools _ _ _ Mt)) as N. unfold mbind, hpool_of, vpool_of.
  destruct (assoc p (hs_pools s)) as [x|] eqn:Ex, (assoc p (vs_pools t)) as [y|] eqn:Ey; try tauto; [now apply K|apply rel_here; auto].
Qed.
Lemma cell_put_rel saved s t c r v : matches saved s t -> den saved s r v -> rel saved unit_rel s (hcell_put c r s) (vcell_put c v t).
Proof.
  intros Mt D. unfold hcell_put, vcell_put. pose proof (assoc_named _ c _ _ (m_cells _ _ _ Mt)) as K.
  destruct (assoc c (hs_cells s)) as [x|], (assoc c (vs_cells t)) as [y|]; try tauto; [|apply rel_here; auto].
  split; [|split]; simpl; [|split; [reflexivity|]; split; [apply carries_refl|]; exists []; simpl; now rewrite app_nil_r|constructor].
  destruct Mt as [N H C P]. destruct K as (R & V & Old). split; simpl; auto.
  apply set_named; auto. split; simpl; auto.
Qed.
Lemma in_olds l k x a : In (k, x) l -> hp_rollback x = true -> hp_old x = Some a -> In a (olds l).
Proof. intros I R O. unfold olds. apply in_flat_map. exists (k, x); split; auto. simpl. rewrite R, O. now left. Qed.
Lemma carries_replace own h a o : In a own -> carries own h own (replace a o h).
Proof. intros I b x N E. split; auto. rewrite nth_replace_neq; auto. congruence. Qed.
Lemma dict_denotes_other own h a o b d : In a own -> b <> a -> dict_denotes own h b d -> dict_denotes own (replace a o h) b d.
Proof.
  intros I Ne (x & E & F). exists x. split; [rewrite nth_replace_neq; auto|]. now apply (denotes_carries _ _ _ _ (carries_replace _ _ _ o I)).
Qed.
(** the dict of a pool is changed: no value and no other pool is *)
Lemma pool_set saved s t p x y o d o0 : matches saved s t -> assoc p (hs_pools s) = Some x -> assoc p (vs_pools t) = Some y ->
  nth_error (hs_heap s) (hp_value x) = Some o0 ->
  fields_denote (owned saved s) (hs_heap s) o d ->
  rel saved unit_rel s (Ok tt, put_heap (replace (hp_value x) (ODict o) (hs_heap s)) s) (vpool_put p d t).
Proof.
  intros [N H C P] Ex Ey E0 F. unfold vpool_put. rewrite Ey.
  assert (I : In (hp_value x) (owned saved s)).
  { unfold owned. apply in_or_app; left. apply assoc_In in Ex. now apply (in_map (fun p => hp_value (snd p))) in Ex. }
  pose proof (carries_replace (owned saved s) (hs_heap s) _ (ODict o) I) as Ca. destruct (denotes_carries _ _ _ _ Ca) as (D1 & D2 & D3).
  split; [|split]; simpl; [| |constructor].
  2:{ split; [reflexivity|]. split; [exact Ca|]. exists []; simpl; now rewrite app_nil_r. }
  split; simpl; auto.
  - revert C. apply Forall2_impl. intros [k q] [k' q'] [E (R & V & Old)]; split; auto. simpl in *. split; [auto|]. split; [auto|].
    unfold same_old in *. destruct (saved && _)%bool; auto. destruct Old as (a & b & ? & ? & ?). exists a, b; auto.
  - change (owned saved (put_heap (replace (hp_value x) (ODict o) (hs_heap s)) s)) with (owned saved s).
    assert (Nv : NoDup (map (fun p => hp_value (snd p)) (hs_pools s))) by (apply NoDup_app_inv in N; tauto).
    assert (No : forall k q a, In (k, q) (hs_pools s) -> (saved && hp_rollback q = true)%bool -> hp_old q = Some a -> a <> hp_value x).
    { intros k q a Iq B Oq ->. apply Bool.andb_true_iff in B as [-> B]. apply (in_olds _ _ _ _ Iq B) in Oq.
      unfold owned in N. apply assoc_In in Ex. apply (in_map (fun p => hp_value (snd p))) in Ex. simpl in Ex.
      apply NoDup_app_inv in N as (_ & _ & N). eapply N; eauto. }
    clear N H C. revert Ex Ey Nv No. generalize (owned saved s) P I E0 F D3 Ca. clear P I E0 F D1 D2 D3 Ca.
    intros own P I E0 F D3 Ca. induction P as [|[k q] [k' q'] l l' [E (R & V & Old)] P IH]; simpl; intros Ex Ey Nv No; [discriminate|].
    simpl in E; subst k'. inversion Nv as [|? ? Nin Nv']; subst. destruct (String.eqb p k) eqn:Ek.
    + inversion Ex; inversion Ey; subst q q'. constructor.
      * split; simpl; auto. split; [exact R|]. split.
        -- exists o. split; [eapply nth_replace_eq; eauto|auto].
        -- unfold same_old in *. destruct (saved && _)%bool eqn:B; auto. destruct Old as (a & b & Ea & Eb & W).
           exists a, b. repeat split; auto. apply dict_denotes_other; auto. eapply (No k x); eauto.
      * assert (No' : forall k q a, In (k, q) l -> (saved && hp_rollback q)%bool = true -> hp_old q = Some a -> a <> hp_value x) by (intros; eapply No; simpl; eauto).
        clear No IH Nv' Nv Ex Ey. induction P as [|[k1 q1] [k1' q1'] l l' [E1 (R1 & V1 & Old1)] P IH]; constructor.
        -- split; auto. simpl in *. split; auto. split; [apply dict_denotes_other; auto|].
           unfold same_old in *. destruct (saved && hp_rollback q1)%bool eqn:B; auto. destruct Old1 as (a & b & Ea & Eb & W).
           exists a, b. repeat split; auto. apply dict_denotes_other; auto. eapply No'; eauto.
        -- apply IH. { intros J; apply Nin; simpl; auto. } { intros; eapply No'; simpl; eauto. }
    + constructor.
      * split; auto. simpl in *. split; auto. split.
        -- apply dict_denotes_other; auto. intros Q. apply Nin. apply assoc_In in Ex. apply (in_map (fun p => hp_value (snd p))) in Ex. simpl in Ex. now rewrite Q.
        -- unfold same_old in *. destruct (saved && _)%bool eqn:B; auto. destruct Old as (a & b & Ea & Eb & W).
           exists a, b. repeat split; auto. apply dict_denotes_other; auto. eapply No; eauto.
      * apply IH; auto. simpl in No. intros; eapply No; eauto.
Qed.
Lemma set_rel saved s t p x y k r v : matches saved s t -> assoc p (hs_pools s) = Some x -> assoc p (vs_pools t) = Some y ->
  pool_matches (owned saved s) (hs_heap s) saved x y -> den saved s r v ->
  rel saved unit_rel s (hset (hp_value x) k r s) (vpool_put p (dict_set k v (vp_value y)) t).
Proof.
  intros Mt Ex Ey (R & (o & E & F) & Old) D. unfold hset, set_key. rewrite E.
  eapply pool_set; eauto. apply fields_denote_iff, set_named; auto. now apply fields_denote_iff.
Qed.

(** ** Commands *)
Lemma run_rel saved :
  (forall c, pure c -> forall s t, matches saved s t -> rel saved unit_rel s (hrun c s) (vrun c t))
  /\ (forall cs, pures cs -> forall s t, matches saved s t -> rel saved unit_rel s (hruns cs s) (vruns cs t))
  /\ (forall to, pure_to to -> forall s t r v, matches saved s t -> den saved s r v -> rel saved (den saved) s (hleaf to r s) (vleaf to v t)).
Proof.
  assert (HH : (forall c, pure c -> forall s t, matches saved s t -> rel saved unit_rel s (hrun c s) (vrun c t))).
  2:{ assert (H2 : forall cs, pures cs -> forall s t, matches saved s t -> rel saved unit_rel s (hruns cs s) (vruns cs t)).
      { induction cs as [|c cs IH]; simpl; intros Pu s t Mt; [apply rel_here; [auto|constructor]|].
        eapply rel_bind; [apply HH; tauto|]. intros; apply IH; tauto. }
      split; auto. split; auto. intros [i|body] Pu s t r v Mt D; simpl; [now apply held_rel|].
      eapply rel_bind; [now apply push_rel|]. intros s1 t1 u u1 M1 G1 W.
      eapply rel_bind; [now apply H2|]. intros. now apply last_rel. }
  apply (cmd_mind (fun c => pure c -> forall s t, matches saved s t -> rel saved unit_rel s (hrun c s) (vrun c t))
    (fun cs => pures cs -> forall s t, matches saved s t -> rel saved unit_rel s (hruns cs s) (vruns cs t))
    (fun to => pure_to to -> forall s t r v, matches saved s t -> den saved s r v -> rel saved (den saved) s (hleaf to r s) (vleaf to v t))); simpl.
  - intros v _ s t Mt. destruct (flat v) eqn:F; [apply push_rel; auto; now constructor|apply rel_here; auto].
  - intros x _ s t Mt. eapply rel_bind; [now apply new_rel|]. intros; now apply push_rel.
  - intros i path _ s t Mt. eapply rel_bind; [now apply held_rel|]. intros s1 t1 a b M1 G1 D.
    eapply rel_bind with (D := fun s' => den saved s'); [|intros; now apply push_rel].
    apply rel_here; auto. now apply get_rel.
  - intros i path to IH Pu s t Mt. eapply rel_bind; [now apply held_rel|]. intros s1 t1 a b M1 G1 D.
    eapply rel_bind; [apply update_rel; auto|]. intros; now apply push_rel.
  - intros c path _ s t Mt. eapply rel_bind; [now apply cell_rel|]. intros s1 t1 a b M1 G1 [-> (R & V & _)].
    eapply rel_bind with (D := fun s' => den saved s'); [|intros; now apply push_rel].
    apply rel_here; auto. now apply get_rel.
  - intros c path to IH Pu s t Mt. eapply rel_bind; [now apply cell_rel|]. intros s1 t1 a b M1 G1 [-> (R & V & _)].
    eapply rel_bind; [apply update_rel; auto|]. intros s2 t2 x y M2 G2 D2.
    eapply rel_bind; [now apply cell_put_rel|]. intros s3 t3 u u1 M3 G3 W. apply push_rel; auto. eapply den_grows; eauto.
  - intros p key path _ s t Mt. apply pool_rel; auto. intros a b Ea Eb (R & (o & E & F) & _).
    eapply rel_bind with (D := fun s' => den saved s'); [|intros; now apply push_rel].
    unfold mlift. apply rel_here; auto. unfold hget, get_path; fold hget; fold get_path. simpl. rewrite E.
    apply fields_denote_iff in F. destruct key; simpl; auto. pose proof (assoc_named _ s0 _ _ F) as K.
    destruct (assoc s0 o), (assoc s0 (vp_value b)); simpl; auto; try tauto. now apply get_rel.
  - intros p key path to IH i Pu s t Mt. eapply rel_bind; [now apply held_rel|]. intros s1 t1 ini ini' M1 G1 Di.
    apply pool_rel; auto. intros a b Ea Eb K. pose proof K as (R & (o & E & F) & _).
    unfold mbind at 1. unfold hsub at 1. rewrite E. pose proof (assoc_named _ key _ _ (proj1 (fields_denote_iff _ _ _ _) F)) as A.
    eapply rel_bind with (D := fun s' => den saved s').
    { destruct (assoc key o), (assoc key (vp_value b)); try tauto.
      - apply rel_here; auto.
      - apply rel_bind with (D := unit_rel); [eapply set_rel; eauto|]. intros s3 t3 u u1 M3 G3 W. apply rel_here; auto. eapply den_grows; eauto. }
    intros s3 t3 old old' M3 G3 D3.
    eapply rel_bind; [apply update_rel; auto|]. intros s4 t4 x y M4 G4 D4.
    apply pool_rel; auto. intros q q' Eq Eq' K'.
    eapply rel_bind; [eapply set_rel; eauto|]. intros s6 t6 u u1 M6 G6 W. apply push_rel; auto. eapply den_grows; eauto.
  - intros p key _ s t Mt. apply pool_rel; auto. intros a b Ea Eb (R & (o & E & F) & _).
    rewrite E. eapply pool_set; eauto. apply fields_denote_iff, del_named. now apply fields_denote_iff.
  - intros body IH Pu s t Mt. destruct (IH Pu s t Mt) as (M1 & G1 & E1).
    destruct (hruns body s) as [[u|e] s1], (vruns body t) as [[u'|e'] t1]; simpl in *; try tauto.
    + split; [auto|]. split; auto.
    + destruct (push_rel saved s1 t1 (RFlat VNull) VNull M1) as (M2 & G2 & E2); [now constructor|].
      split; [auto|]. split; [eapply grows_trans; eauto|auto].
  - intros e _ s t Mt. apply rel_here; auto.
  - tauto.
  - intros _ s t Mt. apply rel_here; [auto|constructor].
  - intros c IHc cs IHcs [P1 P2] s t Mt. eapply rel_bind; [now apply IHc|]. intros; now apply IHcs.
  - intros i _ s t r v Mt D. now apply held_rel.
  - intros body IH Pu s t r v Mt D. eapply rel_bind; [now apply push_rel|]. intros s1 t1 u u1 M1 G1 W.
    eapply rel_bind; [now apply IH|]. intros. now apply last_rel.
Qed.
