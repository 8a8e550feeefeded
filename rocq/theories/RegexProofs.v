(** Searching and the loops of lib/regex.py. *)
From Verif Require Import Base BytesModel RegexModel RegexSpec.
Open Scope string_scope.
Open Scope list_scope.

(** *** search *)
Definition inv (r : regexer) : Prop := exists be rest, r_array r = Some be :: rest.
Lemma cstring_length l : (length (cstring l) <= length l)%nat.
Proof. induction l as [|b l IH]; cbn; [lia|]. destruct (b =? 0)%Z; cbn; lia. Qed.
Lemma find_at_spec e h start m : wf_engine e -> find_at e h start = Some m ->
  exists b n rest, m = Some (b, n) :: rest /\ (start <= b /\ b <= n /\ n <= length h)%nat /\ (start < length h)%nat /\
    Forall (fun g => match g with Some (b', n') => (b <= b' /\ b' <= n' /\ n' <= n)%nat | None => True end) rest.
Proof.
  intros W. unfold find_at. destruct (Nat.leb_spec (length h) start) as [L|L]; [discriminate|]. destruct (regexec e _) as [gs|] eqn:E; [|discriminate]. cbn [option_map]. intros H. injection H as <-.
  destruct (W _ _ E) as (b & n & rest & -> & (B1 & B2) & F). cbn [map option_map fst snd]. exists (b + start)%nat, (n + start)%nat. eexists. split; [reflexivity|].
  pose proof (cstring_length (skipn start h)) as CL. rewrite skipn_length in CL. repeat split; try lia.
  clear - F. induction F as [|g rest Hg _ IH]; cbn [map]; constructor; auto. destruct g as [[b' n']|]; cbn; [|exact I]. lia.
Qed.
Lemma region_shift r : region r = present (map (option_map (fun be => (fst be + r_offset r, snd be + r_offset r)%nat)) (r_array r)).
Proof. unfold region, present. induction (r_array r) as [|g l IH]; [reflexivity|]. cbn [map flat_map]. rewrite IH. destruct g as [[b n]|]; reflexivity. Qed.
Lemma groups_found_present r : groups_found r = length (region r).
Proof. unfold groups_found, region. induction (r_array r) as [|[[b n]|] l IH]; cbn; auto. Qed.
Lemma search_found r start m : wf_engine (r_engine r) -> find_at (r_engine r) (r_haystack r) start = Some m ->
  exists r', search start r = (true, r') /\ r_haystack r' = r_haystack r /\ r_engine r' = r_engine r /\ region r' = present m /\ inv r'.
Proof.
  intros W H. pose proof H as H0. unfold find_at in H. unfold search. destruct (Nat.leb (length (r_haystack r)) start); [discriminate|]. destruct (regexec _ _) as [gs|] eqn:E; [|discriminate].
  injection H as H. eexists. split; [reflexivity|]. cbn [r_haystack r_engine negb]. repeat split.
  - rewrite region_shift. cbn [r_array r_offset]. now rewrite H.
  - destruct (W _ _ E) as (b & n & rest & -> & _). unfold inv. cbn. eauto.
Qed.
Lemma search_none r start : wf_engine (r_engine r) -> inv r -> find_at (r_engine r) (r_haystack r) start = None ->
  exists r', search start r = (false, r') /\ r_haystack r' = r_haystack r /\ r_engine r' = r_engine r /\ inv r'.
Proof.
  intros W I. unfold find_at, search. destruct (Nat.leb (length (r_haystack r)) start) eqn:L; destruct (regexec _ _) as [gs|] eqn:E; try discriminate; intros _; cbn [negb]; eexists; (split; [reflexivity|]); repeat split; auto.
  destruct (W _ _ E) as (b & n & rest & -> & _). unfold inv. cbn. eauto.
Qed.
Lemma at_group_inv r : inv r -> exists be, at_group 0 r = Ok be.
Proof. intros ([b n] & rest & E). unfold at_group, region. rewrite E. cbn. eauto. Qed.
Lemma at_group_place r m b n gs : region r = present m -> m = Some (b, n) :: gs -> at_group 0 r = Ok (b, n).
Proof. intros R ->. unfold at_group. rewrite R. reflexivity. Qed.
Lemma rmapM_nth {A} (l : list A) : rmapM (fun i => match nth_error l i with Some x => Ok x | None => Raise (PyErr "IndexError") end) (seq 0 (length l)) = Ok l.
Proof.
  assert (G : forall l2 l1 : list A, rmapM (fun i => match nth_error (l1 ++ l2) i with Some x => Ok x | None => Raise (PyErr "IndexError") end) (seq (length l1) (length l2)) = Ok l2).
  { induction l2 as [|x l2 IH]; intros l1; [reflexivity|]. cbn [length seq rmapM]. rewrite nth_error_app2, Nat.sub_diag by lia. cbn [nth_error rbind].
    specialize (IH (l1 ++ [x])). rewrite <- app_assoc, app_length in IH. cbn [app length] in IH. rewrite Nat.add_1_r in IH. now rewrite IH. }
  exact (G l []).
Qed.
Lemma all_groups_present r m : region r = present m -> all_groups r = Ok (present m).
Proof. intros R. unfold all_groups. rewrite groups_found_present, <- R. exact (rmapM_nth (region r)). Qed.

(** *** successive matches *)
Lemma matches_fun e h start l : matches e h start l -> forall l', matches e h start l' -> l = l'.
Proof.
  induction 1 as [start H|start b n gs l H _ IH]; intros l' H'; inversion H'; subst; try congruence. rewrite H in H0. injection H0 as -> -> ->. f_equal. auto.
Qed.
Lemma ends_or_stuck e h : wf_engine e -> forall start, (exists l, matches e h start l) \/ stuck e h start.
Proof.
  intros W. assert (G : forall k start, (length h - start <= k)%nat -> (exists l, matches e h start l) \/ stuck e h start).
  { induction k as [|k IH]; intros start K.
    - left. exists []. apply m_none. unfold find_at. destruct (Nat.leb_spec (length h) start); [reflexivity|lia].
    - destruct (find_at e h start) as [m|] eqn:E; [|left; exists []; now apply m_none]. destruct (find_at_spec _ _ _ _ W E) as (b & n & rest & -> & B & L & _).
      destruct (Nat.eq_dec n start) as [->|Ne]; [right; eapply s_here; eauto|]. destruct (IH n ltac:(lia)) as [[l Hl]|Hs]; [left; eexists; eapply m_some; eauto|right; eapply s_later; eauto]. }
  intros start. now apply (G (length h)); lia.
Qed.
Lemma stuck_matches e h start : stuck e h start -> forall l, ~ matches e h start l.
Proof.
  intros S l M. revert l M. induction S as [start b gs H|start b n gs H S IH]; intros l M.
  - remember start as s eqn:Es in M. induction M as [s H'|s b' n' gs' l H' M IHM]; subst; [congruence|]. rewrite H in H'. injection H' as -> <- ->. auto.
  - inversion M; subst; [congruence|]. rewrite H in H0. injection H0 as -> -> ->. eapply IH; eauto.
Qed.
Lemma matches_bound e h start l : wf_engine e -> matches e h start l -> (length l <= length h - start)%nat.
Proof.
  intros W. induction 1 as [start H|start b n gs l H M IH]; [cbn; lia|]. destruct (find_at_spec _ _ _ _ W H) as (b' & n' & rest & E & B & L & _). injection E as <- <- <-. cbn [length].
  destruct (Nat.eq_dec n start) as [->|Ne]; [|lia]. exfalso. eapply stuck_matches; [eapply s_here; exact H|]. eapply m_some; eauto.
Qed.

(** *** the loops when there is an end *)
Section Loops.
  Variable e : engine.
  Variable h : list Z.
  Hypothesis W : wf_engine e.
  Definition holds (r : regexer) (m : list group) : Prop := r_haystack r = h /\ r_engine r = e /\ region r = present m /\ inv r.
  Lemma next_found r start m : r_haystack r = h -> r_engine r = e -> find_at e h start = Some m -> exists r', search start r = (true, r') /\ holds r' m.
  Proof. intros H1 H2 F. destruct (search_found r start m) as (r' & E & A1 & A2 & A3 & A4); [now rewrite H2|now rewrite H1, H2|]. exists r'. split; [exact E|]. repeat split; congruence || auto. Qed.
  Lemma next_none r start : r_haystack r = h -> r_engine r = e -> inv r -> find_at e h start = None -> exists r', search start r = (false, r') /\ r_haystack r' = h /\ r_engine r' = e /\ inv r'.
  Proof. intros H1 H2 I F. destruct (search_none r start) as (r' & E & A1 & A2 & A3); [now rewrite H2|exact I|now rewrite H1, H2|]. exists r'. split; [exact E|]. repeat split; congruence || auto. Qed.

  Lemma count_end start l : matches e h start l -> forall fuel total r, r_haystack r = h -> r_engine r = e -> inv r -> (length l <= fuel)%nat ->
    (let (found, r') := search start r in be <- at_group 0 r' ;; count_loop fuel found (snd be) total r') = Ok (total + length l)%nat.
  Proof.
    induction 1 as [start H|start b n gs l H M IH]; intros fuel total r H1 H2 I F.
    - destruct (next_none r start H1 H2 I H) as (r' & -> & _ & _ & I'). destruct (at_group_inv _ I') as [be ->]. cbn [rbind]. destruct fuel; cbn; f_equal; lia.
    - destruct (next_found r start _ H1 H2 H) as (r' & -> & A1 & A2 & A3 & A4). rewrite (at_group_place _ _ _ _ _ A3 eq_refl). cbn [rbind snd]. destruct fuel as [|fuel]; [cbn in F; lia|]. cbn [count_loop].
      rewrite (IH fuel (S total) r' A1 A2 A4) by (cbn in F; lia). f_equal. cbn. lia.
  Qed.
  Lemma last_end n l : matches e h n l -> forall fuel r b gs, holds r (Some (b, n) :: gs) -> (S (length l) <= fuel)%nat -> last_loop fuel r = Ok (last (map place l) (b, n)).
  Proof.
    induction 1 as [start H|start b n gs l H M IH]; intros fuel r b0 gs0 (A1 & A2 & A3 & A4) F; (destruct fuel as [|fuel]; [lia|]); cbn [last_loop]; rewrite (at_group_place _ _ _ _ _ A3 eq_refl); cbn [rbind snd].
    - destruct (next_none r start A1 A2 A4 H) as (r' & -> & _). reflexivity.
    - destruct (next_found r start _ A1 A2 H) as (r' & -> & HH). rewrite (IH fuel r' b gs HH) by (cbn in F; lia). f_equal. clear. cbn [map place]. generalize (map place l) (b, n). clear. induction l as [|x l IH]; intros p; [reflexivity|]. cbn. destruct l; [reflexivity|]. apply IH.
  Qed.
  Lemma indexall_end n l : matches e h n l -> forall fuel r b gs out, holds r (Some (b, n) :: gs) -> (S (length l) <= fuel)%nat ->
    indexall_loop fuel r out = Ok (out ++ pair_list (b, n) :: map (fun m => pair_list (place m)) l).
  Proof.
    induction 1 as [start H|start b n gs l H M IH]; intros fuel r b0 gs0 out (A1 & A2 & A3 & A4) F; (destruct fuel as [|fuel]; [lia|]); cbn [indexall_loop]; rewrite (at_group_place _ _ _ _ _ A3 eq_refl); cbn [rbind snd].
    - destruct (next_none r start A1 A2 A4 H) as (r' & -> & _). reflexivity.
    - destruct (next_found r start _ A1 A2 H) as (r' & -> & HH). rewrite (IH fuel r' b gs _ HH) by (cbn in F; lia). now rewrite <- app_assoc.
  Qed.
  Lemma groupsall_end n l : matches e h n l -> forall fuel r b gs out, holds r (Some (b, n) :: gs) -> (S (length l) <= fuel)%nat ->
    groupsall_loop fuel r out = Ok (out ++ map pair_list (present (Some (b, n) :: gs)) :: map (fun m => map pair_list (present m)) l).
  Proof.
    induction 1 as [start H|start b n gs l H M IH]; intros fuel r b0 gs0 out (A1 & A2 & A3 & A4) F; (destruct fuel as [|fuel]; [lia|]); cbn [groupsall_loop];
      rewrite (all_groups_present _ _ A3), (at_group_place _ _ _ _ _ A3 eq_refl); cbn [rbind snd].
    - destruct (next_none r start A1 A2 A4 H) as (r' & -> & _). reflexivity.
    - destruct (next_found r start _ A1 A2 H) as (r' & -> & HH). rewrite (IH fuel r' b gs _ HH) by (cbn in F; lia). now rewrite <- app_assoc.
  Qed.
  Variable x : subject.
  Lemma findall_end n l : matches e h n l -> forall fuel r b gs out, holds r (Some (b, n) :: gs) -> (S (length l) <= fuel)%nat ->
    findall_loop x h fuel r out = (ts <- rmapM (fun m => back x (slice h (place m))) ((Some (b, n) :: gs) :: l) ;; Ok (out ++ ts)).
  Proof.
    induction 1 as [start H|start b n gs l H M IH]; intros fuel r b0 gs0 out (A1 & A2 & A3 & A4) F; (destruct fuel as [|fuel]; [lia|]); cbn [findall_loop]; rewrite (at_group_place _ _ _ _ _ A3 eq_refl); cbn [rbind snd rmapM place].
    - destruct (back x (slice h (b0, start))); cbn [rbind]; [|reflexivity]. destruct (next_none r start A1 A2 A4 H) as (r' & -> & _). reflexivity.
    - destruct (back x (slice h (b0, start))) as [s|]; cbn [rbind]; [|reflexivity]. destruct (next_found r start _ A1 A2 H) as (r' & -> & HH). rewrite (IH fuel r' b gs _ HH) by (cbn in F; lia). cbn [rmapM place].
      destruct (back x (slice h (b, n))) as [s'|]; cbn [rbind]; [|reflexivity]. destruct (rmapM _ l) as [ts|]; cbn [rbind]; [|reflexivity]. now rewrite <- app_assoc.
  Qed.
  Lemma findgroups_end n l : matches e h n l -> forall fuel r b gs out, holds r (Some (b, n) :: gs) -> (S (length l) <= fuel)%nat ->
    findgroups_loop x h fuel r out = (ts <- rmapM (fun m => rmapM (fun be => back x (slice h be)) (present m)) ((Some (b, n) :: gs) :: l) ;; Ok (out ++ ts)).
  Proof.
    induction 1 as [start H|start b n gs l H M IH]; intros fuel r b0 gs0 out (A1 & A2 & A3 & A4) F; (destruct fuel as [|fuel]; [lia|]); cbn [findgroups_loop];
      rewrite (all_groups_present _ _ A3), (at_group_place _ _ _ _ _ A3 eq_refl); set (m0 := Some (b0, start) :: gs0) in *; cbn [rbind snd]; cbn [rmapM].
    - destruct (rmapM _ (present m0)); cbn [rbind]; [|reflexivity]. destruct (next_none r start A1 A2 A4 H) as (r' & -> & _). reflexivity.
    - destruct (rmapM _ (present m0)) as [s|]; cbn [rbind]; [|reflexivity]. destruct (next_found r start _ A1 A2 H) as (r' & -> & HH). rewrite (IH fuel r' b gs _ HH) by (cbn in F; lia).
      set (m1 := Some (b, n) :: gs) in *. cbn [rmapM]. destruct (rmapM _ (present m1)) as [s'|]; cbn [rbind]; [|reflexivity]. destruct (rmapM _ l) as [ts|]; cbn [rbind]; [|reflexivity]. now rewrite <- app_assoc.
  Qed.
  (** the pieces before the matches, and the end of the last match *)
  Fixpoint before (start : nat) (l : list (nat * nat)) : list (list Z) := match l with [] => [] | (b, n) :: l' => between h start b :: before n l' end.
  Lemma split_end n l : matches e h n l -> forall fuel r beg b gs out, holds r (Some (b, n) :: gs) -> (S (length l) <= fuel)%nat ->
    split_loop x h fuel beg r out = (ts <- rmapM (back x) (before beg ((b, n) :: map place l)) ;; Ok (out ++ ts, snd (last (map place l) (b, n)))).
  Proof.
    induction 1 as [start H|start b n gs l H M IH]; intros fuel r beg b0 gs0 out (A1 & A2 & A3 & A4) F; (destruct fuel as [|fuel]; [lia|]); cbn [split_loop]; rewrite (at_group_place _ _ _ _ _ A3 eq_refl); cbn [rbind snd fst rmapM before map last]; unfold slice; cbn [fst snd]; fold (between h beg b0).
    - destruct (back x (between h beg b0)); cbn [rbind]; [|reflexivity]. destruct (next_none r start A1 A2 A4 H) as (r' & -> & _). reflexivity.
    - destruct (back x (between h beg b0)) as [s|]; cbn [rbind]; [|reflexivity]. destruct (next_found r start _ A1 A2 H) as (r' & -> & HH). rewrite (IH fuel r' start b gs _ HH) by (cbn in F; lia). cbn [rmapM before place].
      destruct (back x (between h start b)) as [s'|]; cbn [rbind]; [|reflexivity]. destruct (rmapM _ _) as [ts|]; cbn [rbind]; [|reflexivity]. rewrite <- app_assoc. do 2 f_equal. clear. generalize (map place l) (b, n). clear. induction l as [|y l IH]; intros p; [reflexivity|]. cbn. destruct l; [reflexivity|]. apply IH.
  Qed.
  Lemma replaceall_end rep n l : matches e h n l -> forall fuel r beg b gs out, holds r (Some (b, n) :: gs) -> (S (length l) <= fuel)%nat ->
    replaceall_loop x h rep fuel beg r out = (ts <- rmapM (back x) (before beg ((b, n) :: map place l)) ;; Ok (out ++ flat_map (fun t => t ++ rep) ts, snd (last (map place l) (b, n)))).
  Proof.
    induction 1 as [start H|start b n gs l H M IH]; intros fuel r beg b0 gs0 out (A1 & A2 & A3 & A4) F; (destruct fuel as [|fuel]; [lia|]); cbn [replaceall_loop]; rewrite (at_group_place _ _ _ _ _ A3 eq_refl); cbn [rbind snd fst rmapM before map last]; unfold slice; cbn [fst snd]; fold (between h beg b0).
    - destruct (back x (between h beg b0)); cbn [rbind]; [|reflexivity]. destruct (next_none r start A1 A2 A4 H) as (r' & -> & _). cbn. now rewrite app_nil_r.
    - destruct (back x (between h beg b0)) as [s|]; cbn [rbind]; [|reflexivity]. destruct (next_found r start _ A1 A2 H) as (r' & -> & HH). rewrite (IH fuel r' start b gs _ HH) by (cbn in F; lia). cbn [rmapM before place].
      destruct (back x (between h start b)) as [s'|]; cbn [rbind]; [|reflexivity]. destruct (rmapM _ _) as [ts|]; cbn [rbind]; [|reflexivity]. cbn [flat_map]. rewrite <- !app_assoc. do 2 f_equal. clear. generalize (map place l) (b, n). clear. induction l as [|y l IH]; intros p; [reflexivity|]. cbn. destruct l; [reflexivity|]. apply IH.
  Qed.
End Loops.
