(** The loops when an empty match is reached, and the pieces of a text. *)
From Verif Require Import Base BytesModel RegexModel RegexSpec RegexProofs.
Open Scope string_scope.
Open Scope list_scope.

Lemma stuck_next e h start : stuck e h start -> exists b n gs, find_at e h start = Some (Some (b, n) :: gs) /\ stuck e h n.
Proof. intros S. inversion S; subst; eauto 6. Qed.

Section Stuck.
  Variable e : engine.
  Variable h : list Z.
  Hypothesis W : wf_engine e.
  Lemma count_stuck fuel : forall start total r v, stuck e h start -> r_haystack r = h -> r_engine r = e ->
    (let (found, r') := search start r in be <- at_group 0 r' ;; count_loop fuel found (snd be) total r') <> Ok v.
  Proof.
    induction fuel as [|fuel IH]; intros start total r v S H1 H2; destruct (stuck_next _ _ _ S) as (b & n & gs & F & S'); destruct (next_found e h W r start _ H1 H2 F) as (r' & -> & A1 & A2 & A3 & A4);
      rewrite (at_group_place _ _ _ _ _ A3 eq_refl); cbn [rbind snd count_loop]; [discriminate|]. now apply IH.
  Qed.
  Lemma last_stuck fuel : forall r b n gs v, holds e h r (Some (b, n) :: gs) -> stuck e h n -> last_loop fuel r <> Ok v.
  Proof.
    induction fuel as [|fuel IH]; intros r b n gs v (A1 & A2 & A3 & A4) S; [discriminate|]. cbn [last_loop]. rewrite (at_group_place _ _ _ _ _ A3 eq_refl). cbn [rbind snd].
    destruct (stuck_next _ _ _ S) as (b' & n' & gs' & F & S'). destruct (next_found e h W r n _ A1 A2 F) as (r' & -> & HH). eapply IH; eauto.
  Qed.
  Lemma indexall_stuck fuel : forall r b n gs out v, holds e h r (Some (b, n) :: gs) -> stuck e h n -> indexall_loop fuel r out <> Ok v.
  Proof.
    induction fuel as [|fuel IH]; intros r b n gs out v (A1 & A2 & A3 & A4) S; [discriminate|]. cbn [indexall_loop]. rewrite (at_group_place _ _ _ _ _ A3 eq_refl). cbn [rbind snd].
    destruct (stuck_next _ _ _ S) as (b' & n' & gs' & F & S'). destruct (next_found e h W r n _ A1 A2 F) as (r' & -> & HH). eapply IH; eauto.
  Qed.
  Lemma groupsall_stuck fuel : forall r b n gs out v, holds e h r (Some (b, n) :: gs) -> stuck e h n -> groupsall_loop fuel r out <> Ok v.
  Proof.
    induction fuel as [|fuel IH]; intros r b n gs out v (A1 & A2 & A3 & A4) S; [discriminate|]. cbn [groupsall_loop]. rewrite (all_groups_present _ _ A3), (at_group_place _ _ _ _ _ A3 eq_refl). cbn [rbind snd].
    destruct (stuck_next _ _ _ S) as (b' & n' & gs' & F & S'). destruct (next_found e h W r n _ A1 A2 F) as (r' & -> & HH). eapply IH; eauto.
  Qed.
  Variable x : subject.
  Lemma findall_stuck fuel : forall r b n gs out v, holds e h r (Some (b, n) :: gs) -> stuck e h n -> findall_loop x h fuel r out <> Ok v.
  Proof.
    induction fuel as [|fuel IH]; intros r b n gs out v (A1 & A2 & A3 & A4) S; [discriminate|]. cbn [findall_loop]. rewrite (at_group_place _ _ _ _ _ A3 eq_refl). cbn [rbind snd].
    destruct (back x _); cbn [rbind]; [|discriminate]. destruct (stuck_next _ _ _ S) as (b' & n' & gs' & F & S'). destruct (next_found e h W r n _ A1 A2 F) as (r' & -> & HH). eapply IH; eauto.
  Qed.
  Lemma findgroups_stuck fuel : forall r b n gs out v, holds e h r (Some (b, n) :: gs) -> stuck e h n -> findgroups_loop x h fuel r out <> Ok v.
  Proof.
    induction fuel as [|fuel IH]; intros r b n gs out v (A1 & A2 & A3 & A4) S; [discriminate|]. cbn [findgroups_loop]. rewrite (all_groups_present _ _ A3), (at_group_place _ _ _ _ _ A3 eq_refl). cbn [rbind snd].
    destruct (rmapM _ _); cbn [rbind]; [|discriminate]. destruct (stuck_next _ _ _ S) as (b' & n' & gs' & F & S'). destruct (next_found e h W r n _ A1 A2 F) as (r' & -> & HH). eapply IH; eauto.
  Qed.
  Lemma split_stuck fuel : forall beg r b n gs out v, holds e h r (Some (b, n) :: gs) -> stuck e h n -> split_loop x h fuel beg r out <> Ok v.
  Proof.
    induction fuel as [|fuel IH]; intros beg r b n gs out v (A1 & A2 & A3 & A4) S; [discriminate|]. cbn [split_loop]. rewrite (at_group_place _ _ _ _ _ A3 eq_refl). cbn [rbind snd].
    destruct (back x _); cbn [rbind]; [|discriminate]. destruct (stuck_next _ _ _ S) as (b' & n' & gs' & F & S'). destruct (next_found e h W r n _ A1 A2 F) as (r' & -> & HH). eapply IH; eauto.
  Qed.
  Lemma replaceall_stuck rep fuel : forall beg r b n gs out v, holds e h r (Some (b, n) :: gs) -> stuck e h n -> replaceall_loop x h rep fuel beg r out <> Ok v.
  Proof.
    induction fuel as [|fuel IH]; intros beg r b n gs out v (A1 & A2 & A3 & A4) S; [discriminate|]. cbn [replaceall_loop]. rewrite (at_group_place _ _ _ _ _ A3 eq_refl). cbn [rbind snd].
    destruct (back x _); cbn [rbind]; [|discriminate]. destruct (stuck_next _ _ _ S) as (b' & n' & gs' & F & S'). destruct (next_found e h W r n _ A1 A2 F) as (r' & -> & HH). eapply IH; eauto.
  Qed.
End Stuck.

(** *** pieces *)
Lemma last_cons {A} (l : list A) p q : last (p :: l) q = last l p.
Proof. revert p q. induction l as [|y l IH]; intros p q; [reflexivity|]. change (last (y :: l) q = last (y :: l) p). now rewrite !IH. Qed.
Lemma gaps_before h start l : gaps h start l = before h start l ++ [skipn (snd (last l (0%nat, start))) h].
Proof.
  revert start. induction l as [|[b n] l IH]; intros start; [reflexivity|]. cbn [gaps before app]. f_equal. rewrite IH. do 3 f_equal.
  rewrite last_cons. destruct l as [|p l]; [reflexivity|]. now rewrite !last_cons.
Qed.
Lemma skipn_skipn {A} a b (l : list A) : skipn a (skipn b l) = skipn (a + b) l.
Proof. revert l. induction b as [|b IH]; intros l; [now rewrite Nat.add_0_r|]. rewrite Nat.add_succ_r. destruct l as [|x l]; [now rewrite !skipn_nil|]. apply IH. Qed.
Lemma skipn_split {A} (l : list A) i j : (i <= j)%nat -> skipn i l = firstn (j - i) (skipn i l) ++ skipn j l.
Proof. intros H. rewrite <- (firstn_skipn (j - i) (skipn i l)) at 1. f_equal. rewrite skipn_skipn. f_equal. lia. Qed.
Lemma conserved e h start l : wf_engine e -> matches e h start l -> weave (gaps h start (map place l)) (map (fun m => between h (fst (place m)) (snd (place m))) l) = skipn start h.
Proof.
  intros W. induction 1 as [start H|start b n gs l H M IH]; [reflexivity|]. destruct (find_at_spec _ _ _ _ W H) as (b' & n' & rest & E & B & L & _). injection E as <- <- <-.
  cbn [map place gaps weave fst snd]. rewrite IH. unfold between. rewrite <- (skipn_split h b n) by lia. symmetry. apply skipn_split. lia.
Qed.
Lemma rmapM_app {A B} (f : A -> res B) l1 l2 : rmapM f (l1 ++ l2) = (a <- rmapM f l1 ;; b <- rmapM f l2 ;; Ok (a ++ b)).
Proof.
  induction l1 as [|x l1 IH]; cbn [app rmapM rbind]; [now destruct (rmapM f l2)|]. destruct (f x); cbn [rbind]; [|reflexivity]. rewrite IH. destruct (rmapM f l1); cbn [rbind]; [|reflexivity]. now destruct (rmapM f l2).
Qed.
Lemma back_nil x : back x [] = Ok [].
Proof. destruct x; reflexivity. Qed.
Lemma weave_flat {A} (rep : list A) ts t : weave (ts ++ [t]) (map (fun _ => rep) ts) = flat_map (fun t => t ++ rep) ts ++ t.
Proof. induction ts as [|s ts IH]; [reflexivity|]. cbn [app map weave flat_map]. now rewrite IH, <- !app_assoc. Qed.
