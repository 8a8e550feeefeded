(** Lemmas for C92. *)
From Coq Require Import Permutation.
From Verif Require Import Base PyNum ScopeModel ToolsModel ToolsSpec.
Open Scope string_scope.
Open Scope list_scope.
Open Scope Z_scope.

(** *** Induction *)
Section PatInd.
  Variable P : pat -> Prop.
  Hypothesis HD : forall d, Forall (fun kq => P (snd kq)) d -> P (PDict d).
  Hypothesis HL : forall l, Forall P l -> P (PList l).
  Hypothesis HG : forall n q, P q -> P (PGroup n q).
  Hypothesis HM : forall d, Forall (fun kq => P (snd kq)) d -> P (PMin d).
  Hypothesis HS : forall l, Forall P l -> P (PStart l).
  Hypothesis HE : forall l, Forall P l -> P (PEnd l).
  Hypothesis HO : forall l, Forall P l -> P (POr l).
  Hypothesis HA : forall l, Forall P l -> P (PAnd l).
  Hypothesis HX : forall p, match p with PDict _ | PList _ | PGroup _ _ | PMin _ | PStart _ | PEnd _ | POr _ | PAnd _ => False | _ => True end -> P p.
  Fixpoint pat_ind' (p : pat) : P p :=
    let entries := fix entries (d : list (string * pat)) : Forall (fun kq => P (snd kq)) d :=
      match d with [] => Forall_nil _ | kq :: d' => Forall_cons kq (pat_ind' (snd kq)) (entries d') end in
    let items := fix items (l : list pat) : Forall P l := match l with [] => Forall_nil _ | q :: l' => Forall_cons q (pat_ind' q) (items l') end in
    match p with
    | PDict d => HD d (entries d) | PList l => HL l (items l) | PGroup n q => HG n q (pat_ind' q) | PMin d => HM d (entries d)
    | PStart l => HS l (items l) | PEnd l => HE l (items l) | POr l => HO l (items l) | PAnd l => HA l (items l)
    | p => HX p Logic.I
    end.
End PatInd.
Section ValInd.
  Variable P : val -> Prop.
  Hypothesis HD : forall d, Forall (fun kx => P (snd kx)) d -> P (VDict d).
  Hypothesis HL : forall l, Forall P l -> P (VArr l).
  Hypothesis HX : forall v, (forall d, v <> VDict d) -> (forall l, v <> VArr l) -> P v.
  Fixpoint val_ind2 (v : val) : P v.
  Proof.
    destruct v; try (apply HX; discriminate).
    - apply HL. induction l as [|x l IH]; constructor; auto.
    - apply HD. induction d as [|[k x] d IH]; constructor; cbn; auto.
  Defined.
End ValInd.

(** *** Dicts *)
Lemma assoc_some_in {A} k (d : list (string * A)) x : assoc k d = Some x -> In (k, x) d.
Proof. induction d as [|[k' y] d IH]; cbn; [discriminate|]. destruct (String.eqb_spec k k') as [->|N]; [intros [= ->]; now left|]. intros H. right. auto. Qed.
Lemma in_assoc {A} k (d : list (string * A)) x : NoDup (map fst d) -> In (k, x) d -> assoc k d = Some x.
Proof.
  induction d as [|[k' y] d IH]; cbn; [intros _ []|]. intros N [[= -> ->]|H]; [now rewrite String.eqb_refl|].
  inversion N; subst. destruct (String.eqb_spec k k') as [->|Ne]; [|auto]. exfalso. apply H2. apply in_map_iff. now exists (k', x).
Qed.
Lemma has_key_in {A} k (d : list (string * A)) : has_key k d = true <-> In k (map fst d).
Proof.
  unfold has_key. induction d as [|[k' y] d IH]; cbn; [split; [discriminate|intros []]|].
  destruct (String.eqb_spec k k') as [->|N]; [split; auto|]. rewrite IH. split; [auto|intros [E|H]; [congruence|exact H]].
Qed.
Lemma in_map_fst {A} k (d : list (string * A)) : In k (map fst d) <-> exists x, In (k, x) d.
Proof. rewrite in_map_iff. split; [intros ([k' x] & <- & H); eauto|intros (x & H); exists (k, x); auto]. Qed.
Lemma unmarked_in {A} (d : list (string * A)) kx : In kx (unmarked d) <-> In kx d /\ fst kx <> "@".
Proof. unfold unmarked. rewrite filter_In, Bool.negb_true_iff. split; intros [H N]; split; auto; now apply String.eqb_neq. Qed.
Lemma missing_spec {A B} (d : list (string * A)) (e : list (string * B)) :
  no_key_missing d e = true <-> forall k, k <> "@" -> In k (map fst d) -> In k (map fst e).
Proof.
  unfold no_key_missing. rewrite forallb_forall. split.
  - intros H k N Hk. apply in_map_fst in Hk. destruct Hk as (x & Hx). apply has_key_in. apply (H (k, x)). apply unmarked_in. auto.
  - intros H kx Hk. apply unmarked_in in Hk. destruct Hk as [Hk N]. apply has_key_in, H; auto. now apply in_map.
Qed.
Lemma set_keys {A} k (x : A) d j : In j (map fst (dict_set k x d)) <-> j = k \/ In j (map fst d).
Proof.
  induction d as [|[k' y] d IH]; cbn; [intuition|]. destruct (String.eqb_spec k k') as [->|N]; cbn; [intuition|]. rewrite IH. intuition.
Qed.
Lemma set_in {A} k (x : A) d j y : In (j, y) (dict_set k x d) -> (j = k /\ y = x) \/ In (j, y) d.
Proof.
  induction d as [|[k' z] d IH]; cbn; [intros [[= <- <-]|[]]; auto|]. destruct (String.eqb_spec k k') as [->|N]; cbn.
  - intros [[= <- <-]|H]; auto.
  - intros [H|H]; [auto|]. destruct (IH H); auto.
Qed.
Lemma set_in_nodup {A} k (x : A) d j y : NoDup (map fst d) -> In (j, y) (dict_set k x d) -> (j = k /\ y = x) \/ (j <> k /\ In (j, y) d).
Proof.
  induction d as [|[k' z] d IH]; cbn; intros N H.
  - destruct H as [[= <- <-]|[]]. auto.
  - inversion N as [|? ? N1 N2]; subst. destruct (String.eqb_spec k k') as [->|Ne]; cbn in H.
    + destruct H as [[= <- <-]|H]; [auto|]. right. split; [|auto]. intros ->. apply N1. apply in_map_fst. eauto.
    + destruct H as [[= <- <-]|H]; [right; split; auto|]. destruct (IH N2 H) as [?|[? ?]]; auto.
Qed.
Lemma set_nodup {A} k (x : A) d : NoDup (map fst d) -> NoDup (map fst (dict_set k x d)).
Proof.
  induction d as [|[k' y] d IH]; cbn; intros N; [constructor; auto|]. destruct (String.eqb_spec k k') as [->|Ne]; cbn; [exact N|].
  inversion N as [|? ? N1 N2]; subst. constructor; auto. rewrite set_keys. intros [E|H]; congruence.
Qed.

Lemma tree_dict d : tree (VDict d) <-> NoDup (map fst d) /\ Forall (fun kx => tree (snd kx)) d.
Proof.
  cbn. apply and_iff_compat_l. induction d as [|kx d IH]; [split; auto|]. rewrite IH. split; [intros [? ?]; constructor; auto|intros H; inversion H; auto].
Qed.
Lemma tree_arr l : tree (VArr l) <-> Forall tree l.
Proof. cbn. induction l as [|x l IH]; [split; auto|]. rewrite IH. split; [intros [? ?]; constructor; auto|intros H; inversion H; auto]. Qed.

(** *** getmatch in terms of loops *)
Fixpoint g_entries (d : list (string * pat)) (e : list (string * val)) (out : mt) : res (option mt) :=
  match d with
  | [] => Ok (Some out)
  | (k, q) :: d' =>
      if String.eqb k "@" then g_entries d' e out
      else match assoc k e with
           | None => Raise (PyErr "KeyError")
           | Some x => r <- getmatch q x ;; match r with Some m => g_entries d' e (add_key k m out) | None => Ok None end
           end
  end.
Fixpoint g_items (l : list pat) (w : list val) (out : mt) : res (option mt) :=
  match l, w with
  | [], _ => Ok (Some out)
  | _ :: _, [] => Raise (PyErr "IndexError")
  | q :: l', x :: w' => r <- getmatch q x ;; match r with Some m => g_items l' w' (add_item m out) | None => Ok None end
  end.
Fixpoint g_some (h : val) (l : list pat) : res (option mt) :=
  match l with [] => Ok None | q :: l' => r <- getmatch q h ;; match r with Some m => Ok (Some m) | None => g_some h l' end end.
Fixpoint g_every (h : val) (l : list pat) (last : option mt) : res (option mt) :=
  match l with [] => Ok last | q :: l' => r <- getmatch q h ;; match r with Some m => g_every h l' (Some m) | None => Ok None end end.
Lemma getmatch_dict d h : getmatch (PDict d) h =
  match h with
  | VDict e => if (no_key_missing d e && no_key_missing e d)%bool then g_entries d e (Mt (VDict []) (VDict []) []) else Ok None
  | _ => Ok None
  end.
Proof. reflexivity. Qed.
Lemma getmatch_list l h : getmatch (PList l) h =
  match h with VArr w => if Nat.eqb (length l) (length w) then g_items l w (Mt (VArr []) (VArr []) []) else Ok None | _ => Ok None end.
Proof. reflexivity. Qed.
Lemma getmatch_min d h : getmatch (PMin d) h =
  match h with
  | VDict e => if no_key_missing d e then g_entries d e (Mt (VDict (unmarked e)) (VDict (unmarked e)) []) else Ok None
  | _ => Ok None
  end.
Proof. reflexivity. Qed.
Lemma getmatch_or l h : getmatch (POr l) h = g_some h l.
Proof. cbn [getmatch]. induction l as [|q l IH]; cbn [g_some]; [reflexivity|]. now rewrite <- IH. Qed.
Lemma getmatch_and l h : getmatch (PAnd l) h = g_every h l None.
Proof.
  cbn [getmatch]. match goal with |- ?f l None = _ => enough (A : forall o, f l o = g_every h l o) by apply A end.
  induction l as [|q l IH]; intros o; cbn [g_every]; [reflexivity|].
  destruct (getmatch q h) as [[m|]|]; cbn [rbind]; [apply IH|reflexivity|reflexivity].
Qed.
Fixpoint s_entries (d : list (string * pat)) (e : list (string * val)) : Prop :=
  match d with [] => True | (k, q) :: d' => (k <> "@" -> exists x, assoc k e = Some x /\ matches q x) /\ s_entries d' e end.
Fixpoint s_items (l : list pat) (w : list val) : Prop :=
  match l, w with [], [] => True | q :: l', x :: w' => matches q x /\ s_items l' w' | _, _ => False end.
Fixpoint s_some (v : val) (l : list pat) : Prop := match l with [] => False | q :: l' => matches q v \/ s_some v l' end.
Fixpoint s_every (v : val) (l : list pat) : Prop := match l with [] => True | q :: l' => matches q v /\ s_every v l' end.
Lemma matches_or l h : matches (POr l) h <-> s_some h l.
Proof. cbn [matches]. induction l as [|q l IH]; cbn [s_some]; [reflexivity|]. now rewrite IH. Qed.
Lemma matches_and l h : matches (PAnd l) h <-> l <> [] /\ s_every h l.
Proof. cbn [matches]. apply and_iff_compat_l. induction l as [|q l IH]; cbn [s_every]; [reflexivity|]. now rewrite IH. Qed.

(** *** Matching *)
Definition agrees (q : pat) : Prop := forall h r, getmatch q h = Ok r -> (r <> None <-> matches q h).
Lemma number_spec v n : number v n <-> as_num v = Some n.
Proof. destruct v; cbn; split; try tauto; try congruence. Qed.
Lemma found_spec b h r : found b h = Ok r -> (r <> None <-> b = true).
Proof. unfold found. intros [= <-]. destruct b; split; congruence. Qed.
Lemma entries_agree d e : Forall (fun kq => agrees (snd kq)) d ->
  forall out r, g_entries d e out = Ok r -> (r <> None <-> s_entries d e).
Proof.
  intros F. induction F as [|[k q] d Hq F IH]; intros out r; cbn [g_entries s_entries].
  - intros [= <-]. split; [auto|discriminate].
  - destruct (String.eqb_spec k "@") as [->|Ne].
    + intros H. rewrite (IH _ _ H). intuition congruence.
    + destruct (assoc k e) as [x|] eqn:Ex; [|discriminate]. destruct (getmatch q x) as [m|] eqn:G; [|discriminate]. cbn [rbind].
      pose proof (Hq x m G) as Hm. cbn in Hm. destruct m as [m|].
      * intros H. rewrite (IH _ _ H). split.
        -- intros Hs. split; [|exact Hs]. intros _. exists x. split; [reflexivity|]. apply Hm. discriminate.
        -- intros [_ Hs]. exact Hs.
      * intros [= <-]. split; [congruence|]. intros [H _]. destruct (H Ne) as (y & Hy & My). exfalso.
        injection Hy as <-. apply Hm in My. congruence.
Qed.
Lemma items_agree l : Forall agrees l -> forall w out r, length w = length l -> g_items l w out = Ok r -> (r <> None <-> s_items l w).
Proof.
  induction 1 as [|q l Hq F IH]; intros [|x w] out r L; try discriminate; cbn [g_items s_items].
  - intros [= <-]. split; [auto|discriminate].
  - destruct (getmatch q x) as [m|] eqn:G; [|discriminate]. cbn [rbind].
    pose proof (Hq x m G) as Hm. destruct m as [m|].
    + intros H. rewrite (IH w _ _ ltac:(now injection L) H). split; [|tauto]. intros Hs. split; [|exact Hs]. apply Hm. discriminate.
    + intros [= <-]. split; [congruence|]. intros [M _]. apply Hm in M. congruence.
Qed.
Lemma items_skip l : forall w r out, length w = length l -> g_items l (w ++ r) out = g_items l w out.
Proof.
  induction l as [|q l IH]; intros [|x w] r out L; try discriminate; [reflexivity|]. cbn [app g_items].
  destruct (getmatch q x) as [[m|]|]; cbn [rbind]; auto.
Qed.
Lemma s_items_length l : forall w, s_items l w -> length w = length l.
Proof. induction l as [|q l IH]; intros [|x w]; cbn; try tauto. intros [_ H]. now rewrite IH. Qed.
Lemma Forall_app_r {A} (P : A -> Prop) l m : Forall P (l ++ m) -> Forall P m.
Proof. rewrite Forall_app. tauto. Qed.
Lemma getmatch_agrees p : agrees p.
Proof.
  induction p as [d F|l F|n q IH|d F|l F|l F|l F|l F|p Hp] using pat_ind'; intros h r.
  - rewrite getmatch_dict. change (matches (PDict d) h) with (exists e, h = VDict e /\ (forall k, k <> "@" -> (In k (map fst d) <-> In k (map fst e))) /\ s_entries d e).
    destruct h as [| | | | | | |e]; try (intros [= <-]; split; [congruence|intros (? & ? & _); discriminate]).
    destruct (_ && _)%bool eqn:Ks.
    + apply Bool.andb_true_iff in Ks. destruct Ks as [K1 K2]. pose proof (proj1 (missing_spec _ _) K1) as K3. pose proof (proj1 (missing_spec _ _) K2) as K4. intros H. rewrite (entries_agree d e F _ _ H).
      split; [intros Hs; exists e; split; [reflexivity|]; split; [intros k Nk; split; auto|exact Hs]|]. intros (e' & [= <-] & _ & Hs). exact Hs.
    + intros [= <-]. split; [congruence|]. intros (e' & [= <-] & Hk & _). exfalso. apply Bool.andb_false_iff in Ks.
      destruct Ks as [Ks|Ks]; rewrite (proj2 (missing_spec _ _)) in Ks; try discriminate; intros k Nk; now apply Hk.
  - rewrite getmatch_list. change (matches (PList l) h) with (exists w, h = VArr w /\ s_items l w).
    destruct h as [| | | | | |w|]; try (intros [= <-]; split; [congruence|intros (? & ? & _); discriminate]).
    destruct (Nat.eqb_spec (length l) (length w)) as [L|L].
    + intros H. rewrite (items_agree l F w _ _ (eq_sym L) H). split; [eauto|]. intros (w' & [= <-] & Hs). exact Hs.
    + intros [= <-]. split; [congruence|]. intros (w' & [= <-] & Hs). exfalso. apply s_items_length in Hs. congruence.
  - cbn [getmatch matches]. destruct (is_matcher q); [|discriminate]. destruct (getmatch q h) as [m|] eqn:G; [|discriminate]. cbn [rbind].
    intros [= <-]. rewrite <- (IH h m G). destruct m; split; congruence.
  - rewrite getmatch_min. change (matches (PMin d) h) with (exists e, h = VDict e /\ s_entries d e).
    destruct h as [| | | | | | |e]; try (intros [= <-]; split; [congruence|intros (? & ? & _); discriminate]).
    destruct (no_key_missing d e) eqn:Ks.
    + intros H. rewrite (entries_agree d e F _ _ H). split; [eauto|]. intros (e' & [= <-] & Hs). exact Hs.
    + intros [= <-]. split; [congruence|]. intros (e' & [= <-] & Hs). exfalso. rewrite (proj2 (missing_spec _ _)) in Ks; [discriminate|].
      clear - Hs. intros k Nk Hk. induction d as [|[k' q] d IH]; [destruct Hk|]. cbn in Hs, Hk. destruct Hs as [H1 H2].
      destruct Hk as [<-|Hk]; [|auto]. destruct (H1 Nk) as (x & Hx & _). apply in_map_fst. exists x. now apply assoc_some_in.
  - change (getmatch (PStart l) h) with
      (match h with
       | VArr w => if (length w <? length l)%nat then Ok None
          else r <- g_items l w (Mt (VArr []) (VArr []) []) ;;
               Ok (match r with
                   | Some m => let rest := skipn (length l) w in
                               Some (Mt (VArr (list_of (m_orig m) ++ rest)) (VArr (list_of (m_mod m) ++ rest)) (m_groups m))
                   | None => None
                   end)
       | _ => Ok None end).
    change (matches (PStart l) h) with (exists w r, h = VArr (w ++ r) /\ s_items l w).
    destruct h as [| | | | | |w|]; try (intros [= <-]; split; [congruence|intros (? & ? & ? & _); discriminate]).
    destruct (Nat.ltb_spec (length w) (length l)) as [L|L].
    + intros [= <-]. split; [congruence|]. intros (w1 & w2 & [= ->] & Hs). exfalso. apply s_items_length in Hs. rewrite app_length in L. lia.
    + rewrite <- (firstn_skipn (length l) w). assert (Lf : length (firstn (length l) w) = length l) by (apply firstn_length_le; exact L).
      rewrite (items_skip l _ _ _ Lf).
      destruct (g_items l (firstn (length l) w) _) as [m|] eqn:G; [|discriminate]. cbn [rbind]. intros [= <-].
      pose proof (items_agree l F _ _ _ Lf G) as Hm. transitivity (m <> None); [destruct m; split; congruence|]. rewrite Hm. split.
      * intros Hs. eauto.
      * intros (w1 & w2 & [= E] & Hs). assert (w1 = firstn (length l) w); [|now subst].
        rewrite (firstn_skipn (length l) w) in E. rewrite E, firstn_app, (s_items_length _ _ Hs), Nat.sub_diag, firstn_O, app_nil_r.
        rewrite firstn_all2; [reflexivity|]. rewrite (s_items_length _ _ Hs). lia.
  - change (getmatch (PEnd l) h) with
      (match h with
       | VArr w => if (length w <? length l)%nat then Ok None
          else let k := (length w - length l)%nat in
               r <- g_items l (skipn k w) (Mt (VArr []) (VArr []) []) ;;
               Ok (match r with
                   | Some m => Some (Mt (VArr (firstn k w ++ list_of (m_orig m))) (VArr (firstn k w ++ list_of (m_mod m))) (m_groups m))
                   | None => None
                   end)
       | _ => Ok None end).
    change (matches (PEnd l) h) with (exists r w, h = VArr (r ++ w) /\ s_items l w).
    destruct h as [| | | | | |w|]; try (intros [= <-]; split; [congruence|intros (? & ? & ? & _); discriminate]).
    destruct (Nat.ltb_spec (length w) (length l)) as [L|L].
    + intros [= <-]. split; [congruence|]. intros (w1 & w2 & [= ->] & Hs). exfalso. apply s_items_length in Hs. rewrite app_length in L. lia.
    + cbv zeta. set (k := (length w - length l)%nat). assert (Lf : length (skipn k w) = length l) by (rewrite skipn_length; unfold k; lia).
      destruct (g_items l (skipn k w) _) as [m|] eqn:G; [|discriminate]. cbn [rbind]. intros [= <-].
      pose proof (items_agree l F _ _ _ Lf G) as Hm. transitivity (m <> None); [destruct m; split; congruence|]. rewrite Hm. split.
      * intros Hs. exists (firstn k w), (skipn k w). split; [now rewrite firstn_skipn|exact Hs].
      * intros (w1 & w2 & [= E] & Hs). assert (E2 : w2 = skipn k w); [|rewrite <- E2; exact Hs].
        apply s_items_length in Hs. assert (Ek : k = length w1) by (unfold k; rewrite E, app_length; lia).
        rewrite Ek, E, skipn_app, skipn_all, Nat.sub_diag. reflexivity.
  - rewrite getmatch_or, matches_or. induction F as [|q l Hq F IH]; cbn [g_some s_some].
    + intros [= <-]. split; [congruence|intros []].
    + destruct (getmatch q h) as [m|] eqn:G; [|discriminate]. cbn [rbind]. pose proof (Hq h m G) as Hm. destruct m as [m|].
      * intros [= <-]. split; [|discriminate]. intros _. left. apply Hm. discriminate.
      * intros H. rewrite (IH H). split; [auto|]. intros [M|M]; [apply Hm in M; congruence|exact M].
  - rewrite getmatch_and, matches_and.
    assert (A : forall last, g_every h l last = Ok r -> ((r <> None) <-> (l = [] -> last <> None) /\ s_every h l)).
    { induction F as [|q l Hq F IH]; intros last; cbn [g_every s_every].
      - intros [= <-]. split; [auto|]. intros [H _]. auto.
      - destruct (getmatch q h) as [m|] eqn:G; [|discriminate]. cbn [rbind]. pose proof (Hq h m G) as Hm. destruct m as [m|].
        + intros H. rewrite (IH _ H). split; [|intros [_ [_ Hs]]; split; [discriminate|exact Hs]]. intros [_ Hs]. split; [discriminate|]. split; [|exact Hs]. apply Hm. discriminate.
        + intros [= <-]. split; [congruence|]. intros [_ [M _]]. apply Hm in M. congruence. }
    intros H. rewrite (A None H). split; intros [H1 H2]; split; auto. intros E. now destruct (H1 E).
  - destruct p; try (now destruct Hp); cbn [getmatch matches].
    + intros H. rewrite (found_spec _ _ _ H). destruct h; try (split; [discriminate|congruence]). rewrite String.eqb_eq. split; congruence.
    + intros H. rewrite (found_spec _ _ _ H). setoid_rewrite number_spec. destruct (as_num h); [|split; [discriminate|intros (? & ? & _); discriminate]].
      split; [eauto|]. intros (m & [= <-] & E). exact E.
    + intros H. rewrite (found_spec _ _ _ H). setoid_rewrite number_spec. destruct (as_num h); [|split; [discriminate|intros (? & ? & _); discriminate]].
      split; [eauto|]. intros (m & [= <-] & E). exact E.
    + intros H. rewrite (found_spec _ _ _ H). destruct h; split; congruence.
    + setoid_rewrite number_spec. destruct (as_num h) as [m|]; [|intros [= <-]; split; [congruence|intros (? & ? & ? & _); discriminate]].
      destruct (py_sub m central) as [d|] eqn:Es; [|discriminate]. cbn [rbind]. intros H. rewrite (found_spec _ _ _ H), Bool.negb_true_iff.
      split; [eauto|]. intros (m' & d' & [= <-] & Ed & E). rewrite Es in Ed. injection Ed as <-. exact E.
    + intros H. rewrite (found_spec _ _ _ H). setoid_rewrite number_spec. destruct (as_num h); [|split; [discriminate|intros (? & ? & _); discriminate]].
      rewrite Bool.negb_true_iff. split; [eauto|]. intros (m & [= <-] & E). exact E.
    + intros H. rewrite (found_spec _ _ _ H). setoid_rewrite number_spec. destruct (as_num h); [|split; [discriminate|intros (? & ? & _); discriminate]].
      rewrite Bool.negb_true_iff. split; [eauto|]. intros (m & [= <-] & E). exact E.
    + intros H. rewrite (found_spec _ _ _ H). setoid_rewrite number_spec. destruct (as_num h); [|split; [discriminate|intros (? & ? & _); discriminate]].
      rewrite Bool.negb_true_iff. split; [eauto|]. intros (m & [= <-] & E). exact E.
    + intros H. rewrite (found_spec _ _ _ H). setoid_rewrite number_spec. destruct (as_num h); [|split; [discriminate|intros (? & ? & _); discriminate]].
      rewrite Bool.negb_true_iff. split; [eauto|]. intros (m & [= <-] & E). exact E.
    + destruct h; try (intros [= <-]; split; [congruence|intros (? & ? & _); discriminate]). destruct (matched s) eqn:M; intros [= <-].
      * split; [eauto|discriminate].
      * split; [congruence|]. intros (? & [= <-] & E). congruence.
    + intros H. rewrite (found_spec _ _ _ H). destruct types as [|t ts]; [tauto|]. rewrite existsb_exists. split; [intros (x & ? & ?); right; eauto|].
      intros [E|E]; [discriminate|exact E].
Qed.
