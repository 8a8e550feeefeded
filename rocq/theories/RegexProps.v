(** C97: the functions of lib/regex.py tell, find, split by and replace the successive matches of a pattern. *)
From Verif Require Import Base BytesModel BytesSpec BytesProofs RegexModel RegexSpec RegexProofs RegexProofs2.
Open Scope string_scope.
Open Scope list_scope.

Lemma rev_place (l : list (list group)) : l <> [] -> (match rev l with [] => [] | m :: _ => [fst (place m); snd (place m)] end) = [fst (place (last l [])); snd (place (last l []))].
Proof. destruct l as [|m l _] using rev_ind; [easy|]. intros _. now rewrite rev_app_distr, last_last. Qed.
Lemma last_map {A B} (f : A -> B) l d : last (map f l) (f d) = f (last l d).
Proof. revert d. induction l as [|m l IH]; intros d; [reflexivity|]. cbn [map]. rewrite !last_cons. apply IH. Qed.
Lemma ends_inside e h : wf_engine e -> forall start l, matches e h start l -> l <> [] -> (snd (last (map place l) (0, 0)%nat) <= length h)%nat.
Proof.
  intros W start l. induction 1 as [start H|start b n gs l H M IH]; intros Ne; [easy|]. cbn [map]. rewrite last_cons. destruct (find_at_spec _ _ _ _ W H) as (b' & n' & rest & E & B & L & _). injection E as <- <- <-.
  destruct l as [|m l]; [cbn; lia|]. cbn [map] in IH |- *. rewrite last_cons in IH |- *. now apply IH.
Qed.

Section Props.
  Variable x : subject.
  Variable h : list Z.
  Hypothesis Hx : to_bytes x = Ok h.

  (** ** the first match *)
  (** index, contains, findfirst, groups, findgroupsfirst and replacefirst tell of the first match of the text *)
  Theorem C97_first : forall e rep, wf_engine e ->
    match find_at e h 0 with
    | None => re_index x (Some e) = Ok [] /\ re_contains x (Some e) = Ok false /\ re_findfirst x (Some e) = Ok None /\ re_groups x (Some e) = Ok [] /\
              re_findgroupsfirst x (Some e) = Ok [] /\ re_replacefirst x (Some e) rep = back x h
    | Some m => let (b, n) := place m in
              (b <= n <= length h)%nat /\
              re_index x (Some e) = Ok [b; n] /\ re_contains x (Some e) = Ok true /\ re_findfirst x (Some e) = (t <- back x (between h b n) ;; Ok (Some t)) /\
              re_groups x (Some e) = Ok (map (fun be => [fst be; snd be]) (present m)) /\
              re_findgroupsfirst x (Some e) = rmapM (fun be => back x (between h (fst be) (snd be))) (present m) /\
              re_replacefirst x (Some e) rep = (s <- back x (firstn b h) ;; t <- back x (skipn n h) ;; Ok (s ++ as_text rep ++ t))
    end.
  Proof.
    intros e rep W. unfold re_index, re_contains, re_findfirst, re_groups, re_findgroupsfirst, re_replacefirst, new_regexer. rewrite Hx. cbn [rbind].
    set (r0 := Regexer h e (repeat (Some (0%nat, 0%nat)) (S (nsub e))) 0). assert (I0 : inv r0) by (unfold inv; cbn; eauto).
    destruct (find_at e h 0) as [m|] eqn:F.
    - destruct (find_at_spec _ _ _ _ W F) as (b & n & rest & -> & B & L & _). cbn [place].
      destruct (next_found e h W r0 0 _ eq_refl eq_refl F) as (r' & E & A1 & A2 & A3 & A4). rewrite E. cbn [fst]. rewrite (at_group_place _ _ _ _ _ A3 eq_refl), (all_groups_present _ _ A3). cbn [rbind fst snd].
      repeat split; try lia; reflexivity.
    - destruct (next_none e h W r0 0 eq_refl eq_refl I0 F) as (r' & E & A1 & A2 & A4). rewrite E. cbn [fst]. destruct (at_group_inv _ A4) as [be ->]. repeat split; reflexivity.
  Qed.

  (** ** all matches *)
  (** a text either has a list of matches, no longer than itself, or an empty match is reached; never both *)
  Theorem C97_ends : forall e, wf_engine e ->
    ((exists l, matches e h 0 l /\ (length l <= length h)%nat /\ forall l', matches e h 0 l' -> l' = l) \/ stuck e h 0) /\ ~ ((exists l, matches e h 0 l) /\ stuck e h 0).
  Proof.
    intros e W. split.
    - destruct (ends_or_stuck e h W 0) as [[l M]|S]; [left|now right]. exists l. split; [exact M|]. split; [pose proof (matches_bound _ _ _ _ W M); lia|]. intros l' M'. now apply (matches_fun e h 0).
    - intros [[l M] S]. eapply stuck_matches; eauto.
  Qed.
  (** with a list of matches: what is counted, told and found *)
  Theorem C97_all : forall e l fuel, wf_engine e -> matches e h 0 l -> (length h <= fuel)%nat ->
    re_count fuel x (Some e) = Ok (length l) /\
    re_rindex fuel x (Some e) = Ok (match rev l with [] => [] | m :: _ => [fst (place m); snd (place m)] end) /\
    re_indexall fuel x (Some e) = Ok (map (fun m => [fst (place m); snd (place m)]) l) /\
    re_groupsall fuel x (Some e) = Ok (map (fun m => map (fun be => [fst be; snd be]) (present m)) l) /\
    re_findall fuel x (Some e) = rmapM (fun m => back x (between h (fst (place m)) (snd (place m)))) l /\
    re_findgroupsall fuel x (Some e) = rmapM (fun m => rmapM (fun be => back x (between h (fst be) (snd be))) (present m)) l.
  Proof.
    intros e l fuel W M F. pose proof (matches_bound _ _ _ _ W M) as LB.
    unfold re_count, re_rindex, re_indexall, re_groupsall, re_findall, re_findgroupsall, new_regexer. rewrite Hx. cbn [rbind].
    set (r0 := Regexer h e (repeat (Some (0%nat, 0%nat)) (S (nsub e))) 0). assert (I0 : inv r0) by (unfold inv; cbn; eauto).
    split; [apply (count_end e h W 0 l M fuel 0 r0 eq_refl eq_refl I0); lia|].
    inversion M as [st Fn|st b n gs l' Fs M']; subst.
    - destruct (next_none e h W r0 0 eq_refl eq_refl I0 Fn) as (r' & -> & A1 & A2 & A4). destruct (at_group_inv _ A4) as [be ->]. repeat split; reflexivity.
    - destruct (next_found e h W r0 0 _ eq_refl eq_refl Fs) as (r' & -> & HH). cbn [length] in LB. pose proof HH as (A1 & A2 & A3 & A4).
      rewrite (at_group_place _ _ _ _ _ A3 eq_refl). cbn [rbind].
      rewrite (last_end e h W n l' M' fuel r' b gs HH), (indexall_end e h W n l' M' fuel r' b gs _ HH), (groupsall_end e h W n l' M' fuel r' b gs _ HH), (findall_end e h W x n l' M' fuel r' b gs _ HH),
        (findgroups_end e h W x n l' M' fuel r' b gs _ HH) by lia.
      split; [|split; [|split; [|split]]].
      + cbn [rbind]. f_equal. set (m0 := Some (b, n) :: gs) in *. assert (E : last (map place l') (b, n) = place (last (m0 :: l') [])) by (rewrite last_cons; exact (last_map place l' m0)).
        rewrite E. symmetry. exact (rev_place (m0 :: l') ltac:(discriminate)).
      + reflexivity.
      + reflexivity.
      + destruct (rmapM _ _); reflexivity.
      + destruct (rmapM _ _); reflexivity.
  Qed.
  (** matches and what stands between them make up the text *)
  Theorem C97_conserved : forall e l, wf_engine e -> matches e h 0 l -> weave (gaps h 0 (map place l)) (map (fun m => between h (fst (place m)) (snd (place m))) l) = h.
  Proof. intros e l W M. exact (conserved e h 0 l W M). Qed.
  (** with matches: split gives what stands between them, without an empty piece at the beginning and one at the end; replaceall puts the replacement between the same pieces,
      replacelast in place of the last match. Without a match the text comes back. *)
  Theorem C97_pieces : forall e l fuel rep, wf_engine e -> matches e h 0 l -> l <> [] -> (length h <= fuel)%nat ->
    re_split fuel x (Some e) = rmapM (back x) (trim (gaps h 0 (map place l))) /\
    re_replaceall fuel x (Some e) rep = (ts <- rmapM (back x) (gaps h 0 (map place l)) ;; Ok (weave ts (map (fun _ => as_text rep) l))) /\
    re_replacelast fuel x (Some e) rep = (let (b, n) := place (last l []) in s <- back x (firstn b h) ;; t <- back x (skipn n h) ;; Ok (s ++ as_text rep ++ t)).
  Proof.
    intros e l fuel rep W M Ne F. pose proof (matches_bound _ _ _ _ W M) as LB. pose proof (ends_inside e h W 0 l M Ne) as EI.
    unfold re_split, re_replaceall, re_replacelast, new_regexer. rewrite Hx. cbn [rbind].
    set (r0 := Regexer h e (repeat (Some (0%nat, 0%nat)) (S (nsub e))) 0). assert (I0 : inv r0) by (unfold inv; cbn; eauto).
    inversion M as [st Fn|st b n gs l' Fs M']; subst; [easy|].
    destruct (next_found e h W r0 0 _ eq_refl eq_refl Fs) as (r' & -> & HH). cbn [length] in LB. pose proof HH as (A1 & A2 & A3 & A4).
    rewrite (at_group_place _ _ _ _ _ A3 eq_refl). cbn [rbind fst].
    rewrite (last_end e h W n l' M' fuel r' b gs HH), (split_end e h W x n l' M' fuel r' 0 b gs _ HH), (replaceall_end e h W x (as_text rep) n l' M' fuel r' 0 b gs _ HH) by lia.
    rewrite gaps_before. cbn [map place] in EI |- *. rewrite last_cons in EI |- *. set (en := last (map place l') (b, n)) in *. set (bf := before h 0 ((b, n) :: map place l')).
    assert (Lbf : length bf = S (length l')). { unfold bf. clear. cbn [before length]. f_equal. generalize n as st. induction l' as [|m l' IH]; intros st; [reflexivity|]. cbn [map before]. destruct (place m) as [b' n']. cbn [length]. now rewrite IH. }
    assert (Hbf : exists bfr, bf = between h 0 b :: bfr) by (eexists; reflexivity). destruct Hbf as [bfr Ebf].
    destruct (find_at_spec _ _ _ _ W Fs) as (b1 & n1 & rest & E1 & B & Lh & _). injection E1 as <- <- <-.
    assert (B0 : between h 0 b = [] <-> b = 0%nat). { unfold between. rewrite Nat.sub_0_r. cbn [skipn]. split; [|now intros ->]. intros Z. apply (f_equal (@length _)) in Z. rewrite firstn_length in Z. cbn in Z. lia. }
    assert (S0 : skipn (snd en) h = [] <-> snd en = length h). { split; [intros Z; apply (f_equal (@length _)) in Z; rewrite skipn_length in Z; cbn in Z; lia|intros ->; apply skipn_all]. }
    split; [|split].
    - cbn [rbind app]. unfold trim. rewrite last_last, removelast_last.
      destruct (rmapM (back x) bf) as [ts|ex] eqn:Ets; cbn [rbind fst snd].
      + destruct (Nat.eqb_spec (snd en) (length h)) as [Ee|Ee]; cbn [negb rbind].
        * rewrite (proj2 S0 Ee). cbn [is_nil]. rewrite Ebf in Ets |- *. cbn [rmapM] in Ets. destruct (back x (between h 0 b)) as [t0|] eqn:Et0; [|discriminate]. cbn [rbind] in Ets. destruct (rmapM (back x) bfr) as [tr|] eqn:Etr; [|discriminate]. injection Ets as <-.
          destruct (Nat.eqb_spec b 0) as [->|Nb]; [rewrite (proj2 B0 eq_refl); cbn [skipn]; now rewrite Etr|]. destruct (between h 0 b) eqn:Eb; [destruct (Nb (proj1 B0 eq_refl))|]. cbn [rmapM]. rewrite Et0. cbn [rbind]. now rewrite Etr.
        * destruct (skipn (snd en) h) as [|c rest'] eqn:Es; [destruct (Ee (proj1 S0 eq_refl))|]. cbn [is_nil]. rewrite Ebf in Ets |- *. cbn [rmapM] in Ets. destruct (back x (between h 0 b)) as [t0|] eqn:Et0; [|discriminate]. cbn [rbind] in Ets. destruct (rmapM (back x) bfr) as [tr|] eqn:Etr; [|discriminate]. injection Ets as <-.
          cbn [app]. destruct (Nat.eqb_spec b 0) as [->|Nb].
          -- rewrite (proj2 B0 eq_refl). rewrite rmapM_app, Etr. cbn [rbind rmapM]. destruct (back x (c :: rest')); reflexivity.
          -- destruct (between h 0 b) eqn:Eb; [destruct (Nb (proj1 B0 eq_refl))|]. cbn [rmapM]. rewrite Et0. cbn [rbind]. rewrite rmapM_app, Etr. cbn [rbind rmapM]. destruct (back x (c :: rest')); reflexivity.
      + rewrite Ebf in Ets |- *. cbn [rmapM] in Ets. destruct (between h 0 b) as [|c0 rest0] eqn:Eb.
        * rewrite back_nil in Ets. cbn [rbind] in Ets. destruct (rmapM (back x) bfr) as [tr|ex'] eqn:Etr; [discriminate|]. injection Ets as ->. destruct (is_nil (skipn (snd en) h)); [cbn; now rewrite Etr|]. cbn [app]. rewrite rmapM_app, Etr. reflexivity.
        * destruct (is_nil (skipn (snd en) h)); cbn [app rmapM]; destruct (back x (c0 :: rest0)) as [t0|]; cbn [rbind] in Ets |- *; try (injection Ets as ->; reflexivity); [|rewrite rmapM_app]; destruct (rmapM (back x) bfr); cbn [rbind] in Ets |- *; try discriminate; injection Ets as ->; reflexivity.
    - cbn [rbind app]. rewrite rmapM_app. destruct (rmapM (back x) bf) as [ts|] eqn:Ets; cbn [rbind fst snd]; [|reflexivity].
      assert (Lts : length ts = S (length l')) by (apply rmapM_ok_length in Ets; lia).
      assert (Emap : as_text rep :: map (fun _ : list group => as_text rep) l' = map (fun _ => as_text rep) ts).
      { clear - Lts. destruct ts as [|t ts]; [discriminate|]. cbn [map]. f_equal. cbn [length] in Lts. assert (L : length l' = length ts) by lia. clear - L. revert ts L. induction l' as [|m l' IH]; intros [|t ts] L; cbn in *; try discriminate; f_equal; auto. }
      destruct (Nat.eqb_spec (snd en) (length h)) as [Ee|Ee]; cbn [negb rbind rmapM].
      + rewrite (proj2 S0 Ee), back_nil. cbn [rbind]. f_equal. rewrite Emap, weave_flat. now rewrite app_nil_r.
      + destruct (back x (skipn (snd en) h)) as [t|]; cbn [rbind]; [|reflexivity]. f_equal. now rewrite Emap, weave_flat.
    - cbn [rbind]. rewrite last_cons, <- (last_map place). cbn [place]. fold en. destruct en as [b2 n2]. reflexivity.
  Qed.
  Theorem C97_no_match : forall e fuel rep, wf_engine e -> matches e h 0 [] -> re_split fuel x (Some e) = rmapM (back x) [h] /\ re_replaceall fuel x (Some e) rep = Ok (as_text x) /\ re_replacelast fuel x (Some e) rep = back x h.
  Proof.
    intros e fuel rep W M. unfold re_split, re_replaceall, re_replacelast, new_regexer. rewrite Hx. cbn [rbind].
    set (r0 := Regexer h e (repeat (Some (0%nat, 0%nat)) (S (nsub e))) 0). assert (I0 : inv r0) by (unfold inv; cbn; eauto). inversion M as [st Fn|]; subst.
    destruct (next_none e h W r0 0 eq_refl eq_refl I0 Fn) as (r' & -> & A1 & A2 & A4). destruct (at_group_inv _ A4) as [be ->]. repeat split; reflexivity.
  Qed.
  (** a pattern that cannot be compiled is reported, under the number of the function *)
  Theorem C97_bad_pattern : forall fuel rep,
    re_index x None = Raise (PFAErr 35000) /\ re_contains x None = Raise (PFAErr 35010) /\ re_count fuel x None = Raise (PFAErr 35020) /\ re_rindex fuel x None = Raise (PFAErr 35030) /\
    re_groups x None = Raise (PFAErr 35040) /\ re_indexall fuel x None = Raise (PFAErr 35050) /\ re_findall fuel x None = Raise (PFAErr 35060) /\ re_findfirst x None = Raise (PFAErr 35070) /\
    re_findgroupsfirst x None = Raise (PFAErr 35080) /\ re_findgroupsall fuel x None = Raise (PFAErr 35090) /\ re_groupsall fuel x None = Raise (PFAErr 35100) /\ re_replacefirst x None rep = Raise (PFAErr 35110) /\
    re_replacelast fuel x None rep = Raise (PFAErr 35120) /\ re_split fuel x None = Raise (PFAErr 35130) /\ re_replaceall fuel x None rep = Raise (PFAErr 35140).
  Proof.
    intros fuel rep. unfold re_index, re_contains, re_count, re_rindex, re_groups, re_indexall, re_findall, re_findfirst, re_findgroupsfirst, re_findgroupsall, re_groupsall, re_replacefirst, re_replacelast, re_split, re_replaceall.
    rewrite Hx. cbn [rbind new_regexer]. repeat split.
  Qed.
  (** when an empty match is reached, the functions that go from match to match have no result, however long they run *)
  Theorem C97_no_end_refuted : forall e fuel rep, wf_engine e -> stuck e h 0 ->
    (forall v, re_count fuel x (Some e) <> Ok v) /\ (forall v, re_rindex fuel x (Some e) <> Ok v) /\ (forall v, re_indexall fuel x (Some e) <> Ok v) /\ (forall v, re_groupsall fuel x (Some e) <> Ok v) /\
    (forall v, re_findall fuel x (Some e) <> Ok v) /\ (forall v, re_findgroupsall fuel x (Some e) <> Ok v) /\ (forall v, re_split fuel x (Some e) <> Ok v) /\ (forall v, re_replaceall fuel x (Some e) rep <> Ok v) /\
    (forall v, re_replacelast fuel x (Some e) rep <> Ok v).
  Proof.
    intros e fuel rep W St. unfold re_count, re_rindex, re_indexall, re_groupsall, re_findall, re_findgroupsall, re_split, re_replaceall, re_replacelast, new_regexer. rewrite Hx. cbn [rbind].
    set (r0 := Regexer h e (repeat (Some (0%nat, 0%nat)) (S (nsub e))) 0). assert (I0 : inv r0) by (unfold inv; cbn; eauto).
    split; [intros v; now apply (count_stuck e h W fuel 0 0 r0 v St)|].
    destruct (stuck_next _ _ _ St) as (b & n & gs & Fs & S'). destruct (next_found e h W r0 0 _ eq_refl eq_refl Fs) as (r' & -> & HH). pose proof HH as (A1 & A2 & A3 & A4).
    rewrite (at_group_place _ _ _ _ _ A3 eq_refl). cbn [rbind].
    repeat split; intros v.
    - destruct (last_loop fuel r') as [be|] eqn:E; [|discriminate]. exfalso. revert E. eapply last_stuck; eauto.
    - eapply indexall_stuck; eauto.
    - eapply groupsall_stuck; eauto.
    - eapply findall_stuck; eauto.
    - eapply findgroups_stuck; eauto.
    - destruct (split_loop x h fuel 0 r' []) as [o|] eqn:E; [|discriminate]. exfalso. revert E. eapply split_stuck; eauto.
    - destruct (replaceall_loop x h (as_text rep) fuel 0 r' []) as [o|] eqn:E; [|discriminate]. exfalso. revert E. eapply replaceall_stuck; eauto.
    - destruct (last_loop fuel r') as [be|] eqn:E; [|discriminate]. exfalso. revert E. eapply last_stuck; eauto.
  Qed.
  (** what is put in place of matches is the replacement itself: its bytes, read as texts of its kind are *)
  Theorem C97_replacement : back x h = Ok (as_text x).
  Proof.
    destruct x as [s|[s|b]]; cbn in Hx |- *.
    - destruct (encode_with utf8_char s) as [b|] eqn:E; [|discriminate]. injection Hx as <-. now rewrite (utf8_roundtrip _ _ E).
    - unfold string_to_bytes in Hx. destruct (forallb _ s); [|discriminate]. now injection Hx as <-.
    - now injection Hx as <-.
  Qed.
End Props.

(** ** texts and bytes *)
(** on texts of ASCII characters bytes and characters are the same: positions count characters, and no piece is lost in decoding *)
Theorem C97_ascii : forall s, Forall (fun c => (0 <= c < 128)%Z) s -> to_bytes (SString s) = Ok s /\ forall b, incl b s -> back (SString s) b = Ok b.
Proof.
  intros s F. split.
  - cbn [to_bytes py_encode]. replace (encode_with utf8_char s) with (Some s); [reflexivity|]. symmetry. induction F as [|c s Hc _ IH]; [reflexivity|]. cbn [encode_with]. rewrite IH. unfold utf8_char.
    destruct (Z.ltb_spec c 0); [lia|]. destruct (Z.ltb_spec c 128); [reflexivity|lia].
  - intros b I. cbn [back]. replace (utf8_decode b) with (Some b); [reflexivity|]. symmetry. rewrite Forall_forall in F. induction b as [|c b IH]; [reflexivity|]. cbn [utf8_decode].
    assert (Hc : (0 <= c < 128)%Z) by (apply F, I; now left). destruct (Z.ltb_spec c 128); [|lia]. rewrite IH; [reflexivity|]. intros y Hy. apply I. now right.
Qed.
(** a whole text comes back from its bytes *)
Theorem C97_text : forall s h, to_bytes (SString s) = Ok h -> back (SString s) h = Ok s.
Proof. intros s h. cbn [to_bytes py_encode back]. destruct (encode_with utf8_char s) eqn:E; [|discriminate]. intros H. injection H as <-. now rewrite (utf8_roundtrip _ _ E). Qed.

(** *** engines to show it by: a literal text, and any number of one byte *)
Fixpoint is_prefix (p s : list Z) : bool := match p, s with [], _ => true | a :: p', b :: s' => (Z.eqb a b && is_prefix p' s')%bool | _, [] => false end.
Fixpoint find_lit (p s : list Z) : option nat := if is_prefix p s then Some 0%nat else match s with [] => None | _ :: s' => option_map S (find_lit p s') end.
Definition literal (p : list Z) : engine := Engine 0 (fun s => option_map (fun i => [Some (i, i + length p)%nat]) (find_lit p s)).
Fixpoint run_of (c : Z) (s : list Z) : nat := match s with a :: s' => if Z.eqb a c then S (run_of c s') else 0%nat | [] => 0%nat end.
Definition star (c : Z) : engine := Engine 0 (fun s => Some [Some (0, run_of c s)%nat]).
(** (p)|(q) *)
Definition either (p q : Z) : engine := Engine 2 (fun s => match s with
  | a :: _ => if Z.eqb a p then Some [Some (0, 1); Some (0, 1); None]%nat else if Z.eqb a q then Some [Some (0, 1); None; Some (0, 1)]%nat else None | [] => None end).
(** ^p *)
Definition anchored (p : Z) : engine := Engine 0 (fun s => match s with a :: _ => if Z.eqb a p then Some [Some (0, 1)%nat] else None | [] => None end).
Lemma prefix_length p s : is_prefix p s = true -> (length p <= length s)%nat.
Proof. revert s. induction p as [|a p IH]; intros [|b s] H; cbn in *; try discriminate; try lia. apply andb_true_iff in H as [_ H]. specialize (IH _ H). lia. Qed.
Lemma literal_wf p : wf_engine (literal p).
Proof.
  intros s gs H. cbn [literal regexec] in H. destruct (find_lit p s) as [i|] eqn:E; [|discriminate]. injection H as <-. exists i, (i + length p)%nat, []. split; [reflexivity|]. split; [|constructor]. split; [lia|].
  revert i E. induction s as [|c s IH]; intros i E; cbn [find_lit] in E; (destruct (is_prefix p _) eqn:Ep; [injection E as <-; apply prefix_length in Ep; lia|]); [discriminate|].
  destruct (find_lit p s) as [j|]; [|discriminate]. injection E as <-. specialize (IH j eq_refl). cbn [length]. lia.
Qed.
Lemma star_wf c : wf_engine (star c).
Proof.
  intros s gs H. injection H as <-. exists 0%nat, (run_of c s), []. split; [reflexivity|]. split; [|constructor]. split; [lia|]. induction s as [|a s IH]; cbn; [lia|]. destruct (Z.eqb a c); lia.
Qed.
Lemma either_wf p q : wf_engine (either p q).
Proof.
  intros s gs H. cbn in H. destruct s as [|a s]; [discriminate|]. destruct (Z.eqb a p); [|destruct (Z.eqb a q); [|discriminate]]; injection H as <-; do 2 eexists; eexists; (split; [reflexivity|]); cbn; (split; [lia|]); repeat constructor.
Qed.
(** a literal that is not empty always moves on: its functions have an end on every text *)
Theorem C97_literal_ends : forall p h, p <> [] -> exists l, matches (literal p) h 0 l.
Proof.
  intros p h Np. destruct (ends_or_stuck _ h (literal_wf p) 0) as [M|S]; [exact M|]. exfalso. induction S as [start b gs H|]; auto.
  unfold find_at in H. destruct (Nat.leb (length h) start); [discriminate|]. cbn [literal regexec] in H. destruct (find_lit p (cstring (skipn start h))) as [i|]; [|discriminate]. cbn in H. injection H as <- E _. destruct p; [easy|]. cbn in E. lia.
Qed.

(** ** where the promise fails *)
(** x* on a text without x: no function that goes from match to match has a result *)
Theorem C97_star_refuted : forall fuel rep, (forall v, re_count fuel (SString [97; 98]%Z) (Some (star 120)) <> Ok v) /\ (forall v, re_replaceall fuel (SString [97; 98]%Z) (Some (star 120)) rep <> Ok v).
Proof.
  intros fuel rep. assert (S : stuck (star 120) [97; 98]%Z 0) by (eapply s_here; vm_compute; reflexivity).
  destruct (C97_no_end_refuted (SString [97; 98]%Z) [97; 98]%Z eq_refl (star 120) fuel rep (star_wf 120) S) as (A & _ & _ & _ & _ & _ & _ & B & _). auto.
Qed.
(** the empty text has no match, not even of a pattern that matches the empty text *)
Theorem C97_empty_refuted : forall e, re_contains (SString []) (Some e) = Ok false /\ (regexec (star 120) [] <> None).
Proof. intros e. split; [|discriminate]. unfold re_contains, search. cbn. destruct (regexec e []); reflexivity. Qed.
(** positions in texts count bytes: the letter found is not where the position says *)
Theorem C97_positions_refuted : exists s b n, re_index (SString s) (Some (literal [98%Z])) = Ok [b; n] /\ length s = 2%nat /\ (length s < n)%nat /\ nth_error s 1 = Some 98%Z.
Proof. exists [233; 98]%Z, 2%nat, 3%nat. repeat split; vm_compute; auto. Qed.
(** what follows a byte 0 is not searched *)
Theorem C97_zero_refuted : exists s, In 98%Z s /\ re_contains (SString s) (Some (literal [98%Z])) = Ok false.
Proof. exists [97; 0; 98]%Z. split; [cbn; auto|]. vm_compute. reflexivity. Qed.
(** ^ matches at the end of every match *)
Theorem C97_anchor_refuted : re_count 10 (SString [97; 97; 97]%Z) (Some (anchored 97)) = Ok 3%nat /\ re_replaceall 10 (SString [97; 97; 98]%Z) (Some (anchored 97)) (SString [120]%Z) = Ok [120; 120; 98]%Z.
Proof. split; vm_compute; reflexivity. Qed.
(** groups that took no part are left out, so that the others change their numbers: (a)|(b) tells the same of a and of b *)
Theorem C97_groups_refuted : re_groups (SString [97]%Z) (Some (either 97 98)) = re_groups (SString [98]%Z) (Some (either 97 98)) /\
  regexec (either 97 98) [97%Z] <> regexec (either 97 98) [98%Z] /\ re_groups (SString [98]%Z) (Some (either 97 98)) = Ok [[0; 1]; [0; 1]]%nat.
Proof. split; [vm_compute; reflexivity|]. split; [discriminate|]. vm_compute. reflexivity. Qed.
(** split leaves out one empty piece at the beginning and one at the end, but no other: joining does not undo it *)
Theorem C97_split_refuted : re_split 10 (SString [44; 97; 44]%Z) (Some (literal [44%Z])) = re_split 10 (SString [97]%Z) (Some (literal [44%Z])) /\
  re_split 10 (SString [44; 44; 97; 44; 44]%Z) (Some (literal [44%Z])) = Ok [[]; [97]; []]%Z.
Proof. split; vm_compute; reflexivity. Qed.
(** a match that cuts a character raises an error of Python *)
Theorem C97_decode_refuted : re_findfirst (SString [233]%Z) (Some (literal [195%Z])) = Raise (PyErr "UnicodeDecodeError").
Proof. vm_compute. reflexivity. Qed.

(** ** examples *)
Example C97_matches_example : matches (literal [44%Z]) [97; 44; 98; 98; 44; 99]%Z 0 [[Some (1, 2)%nat]; [Some (4, 5)%nat]].
Proof. eapply m_some; [vm_compute; reflexivity|]. eapply m_some; [vm_compute; reflexivity|]. apply m_none. vm_compute. reflexivity. Qed.
Example C97_replacement_example : to_bytes (SString [8364; 97]%Z) = Ok [226; 130; 172; 97]%Z /\ back (SString []) [226; 130; 172; 97]%Z = Ok [8364; 97]%Z.
Proof. split; reflexivity. Qed.
Example C97_functions_example : let x := SString [97; 44; 98; 98; 44; 99]%Z in let e := Some (literal [44%Z]) in
  re_count 6 x e = Ok 2%nat /\ re_rindex 6 x e = Ok [4; 5]%nat /\ re_indexall 6 x e = Ok [[1; 2]; [4; 5]]%nat /\ re_findall 6 x e = Ok [[44]; [44]]%Z /\ re_split 6 x e = Ok [[97]; [98; 98]; [99]]%Z /\
  re_replaceall 6 x e (SString [45; 45]%Z) = Ok [97; 45; 45; 98; 98; 45; 45; 99]%Z /\ re_replacefirst x e (SString [45]%Z) = Ok [97; 45; 98; 98; 44; 99]%Z /\ re_replacelast 6 x e (SString [45]%Z) = Ok [97; 44; 98; 98; 45; 99]%Z.
Proof. vm_compute. repeat split. Qed.
Example C97_groups_example : re_groupsall 6 (SBytes (BBytes [97; 98; 97]%Z)) (Some (either 97 98)) = Ok [[[0; 1]; [0; 1]]; [[1; 2]; [1; 2]]; [[2; 3]; [2; 3]]]%nat /\
  re_findgroupsall 6 (SBytes (BStr [97; 98]%Z)) (Some (either 97 98)) = Ok [[[97]; [97]]; [[98]; [98]]]%Z /\ re_findgroupsfirst (SString [98; 97]%Z) (Some (either 97 98)) = Ok [[98]; [98]]%Z.
Proof. vm_compute. repeat split. Qed.
Example C97_stuck_example : stuck (star 120) [120; 120; 97]%Z 0.
Proof. eapply s_later; [vm_compute; reflexivity|]. eapply s_here. vm_compute. reflexivity. Qed.

Print Assumptions C97_replacement. Print Assumptions C97_first. Print Assumptions C97_ends. Print Assumptions C97_all. Print Assumptions C97_conserved. Print Assumptions C97_pieces. Print Assumptions C97_no_match. Print Assumptions C97_bad_pattern.
Print Assumptions C97_no_end_refuted. Print Assumptions C97_ascii. Print Assumptions C97_text. Print Assumptions C97_literal_ends. Print Assumptions C97_star_refuted.
Print Assumptions C97_empty_refuted. Print Assumptions C97_positions_refuted. Print Assumptions C97_zero_refuted. Print Assumptions C97_anchor_refuted. Print Assumptions C97_groups_refuted.
Print Assumptions C97_split_refuted. Print Assumptions C97_decode_refuted.
