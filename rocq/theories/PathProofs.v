(** Lemmas about get and update along paths. *)
From Verif Require Import Base ScopeModel CoreModel PathSpec.

Lemma get_one_item l i v a m : nth_error l i = Some v -> get_one (VArr l) (VInt (Z.of_nat i)) a m = Ok v.
Proof.
  intros H. assert (i < length l)%nat by (apply nth_error_Some; congruence).
  unfold get_one. cbn zeta. destruct (Z.of_nat i <? 0) eqn:E; [apply Z.ltb_lt in E; lia|].
  destruct (0 <=? Z.of_nat i) eqn:E1; [|apply Z.leb_gt in E1; lia].
  destruct (Z.of_nat i <? Z.of_nat (length l)) eqn:E2; [|apply Z.ltb_ge in E2; lia].
  cbn. rewrite Nat2Z.id. f_equal. now apply nth_error_nth.
Qed.
Lemma get_path_at obj p w a m : at_path obj p w -> get_path obj p a m = Ok w.
Proof.
  induction 1 as [v|d k v p w H _ IH|l i v p w H _ IH]; cbn [get_path]; auto.
  - unfold get_one. rewrite H. exact IH.
  - rewrite (get_one_item _ _ _ _ _ H). exact IH.
Qed.
Lemma replace_nth_length i v l : length (replace_nth i v l) = length l.
Proof. revert i. induction l as [|x l IH]; intros [|i]; cbn; auto. Qed.
Lemma replace_nth_same i v l : (i < length l)%nat -> nth_error (replace_nth i v l) i = Some v.
Proof. revert i. induction l as [|x l IH]; intros [|i] H; cbn in *; try lia; auto. apply IH. lia. Qed.
Lemma replace_nth_other i j v l : j <> i -> nth_error (replace_nth i v l) j = nth_error l j.
Proof. revert i j. induction l as [|x l IH]; intros [|i] [|j] H; cbn; auto; try congruence. Qed.
Lemma nth_nth_error (l l' : list val) i : nth_error l i = nth_error l' i -> nth i l VNull = nth i l' VNull.
Proof.
  intros H. destruct (nth_error l i) as [x|] eqn:E.
  - rewrite (nth_error_nth _ _ _ E). symmetry in H. now rewrite (nth_error_nth _ _ _ H).
  - symmetry in H. apply nth_error_None in E. apply nth_error_None in H. now rewrite !nth_overflow.
Qed.

(** one step down, kept or not *)
Lemma get_one_set_same d k v a m : get_one (VDict (dict_set k v d)) (VStr k) a m = Ok v.
Proof. cbn. now rewrite assoc_set_eq. Qed.
Lemma get_one_set_other d k v k2 a m : VStr k <> k2 ->
  get_one (VDict (dict_set k v d)) k2 a m = get_one (VDict d) k2 a m.
Proof. intros H. destruct k2; auto. cbn. rewrite assoc_set_neq; auto. congruence. Qed.
Lemma get_one_replace_other l i v k a m : VInt (Z.of_nat i) <> k -> is_position k ->
  get_one (VArr (replace_nth i v l)) k a m = get_one (VArr l) k a m.
Proof.
  intros H P. destruct k; auto. cbn in P. cbn [get_one]. rewrite replace_nth_length.
  destruct (z <? 0) eqn:E; [apply Z.ltb_lt in E; lia|]. destruct (_ && _)%bool; auto. f_equal.
  apply nth_nth_error. apply replace_nth_other. intros E'. apply H. f_equal. lia.
Qed.

Lemma update_path_at leaf obj p old a m s v s' :
  at_path obj p old -> leaf old s = Done (Ok v) s' ->
  exists obj', update_path leaf obj p a m s = Done (Ok obj') s' /\
    at_path obj' p v /\
    forall q a' m', diverge p q -> get_path obj' q a' m' = get_path obj q a' m'.
Proof.
  intros H Hl. induction H as [w|d k w p o Hk _ IH|l i w p o Hi _ IH].
  - exists v. cbn. rewrite Hl. repeat split; auto; [constructor|].
    intros q a' m' (c & j & k & p' & q' & E & _). destruct c; discriminate.
  - destruct (IH Hl) as (o' & E & A & D). exists (VDict (dict_set k o' d)). repeat split.
    + cbn. rewrite Hk. unfold bind. rewrite E. reflexivity.
    + econstructor; eauto. apply assoc_set_eq.
    + intros q a' m' (c & j & k2 & p' & q' & E1 & E2 & Hn & P). destruct c as [|x c]; cbn in E1, E2; subst q.
      * injection E1 as <- _. cbn [get_path]. now rewrite get_one_set_other.
      * injection E1 as <- E1. cbn [get_path]. rewrite get_one_set_same. cbn [get_one]. rewrite Hk. cbn [rbind].
        apply D. exists c, j, k2, p', q'. auto.
  - destruct (IH Hl) as (o' & E & A & D). exists (VArr (replace_nth i o' l)).
    assert (Hlt : (i < length l)%nat) by (apply nth_error_Some; congruence). repeat split.
    + cbn [update_path]. cbn zeta.
      destruct (Z.of_nat (length l) <=? Z.of_nat i) eqn:E1; [apply Z.leb_le in E1; lia|].
      destruct (Z.of_nat i <? 0) eqn:E2; [apply Z.ltb_lt in E2; lia|].
      rewrite andb_false_r. cbn [orb]. rewrite Nat2Z.id. rewrite (nth_error_nth _ _ _ Hi).
      unfold bind. rewrite E. reflexivity.
    + econstructor; eauto. now apply replace_nth_same.
    + intros q a' m' (c & j & k2 & p' & q' & E1 & E2 & Hn & P). destruct c as [|x c]; cbn in E1, E2; subst q.
      * injection E1 as <- _. cbn [get_path]. now rewrite get_one_replace_other.
      * injection E1 as <- E1. cbn [get_path].
        rewrite (get_one_item _ _ _ _ _ Hi), (get_one_item _ _ o') by (now apply replace_nth_same). cbn [rbind].
        apply D. exists c, j, k2, p', q'. auto.
Qed.

Lemma update_path_missing_inner leaf obj before k more a m code s :
  missing_at obj before k a m code -> more <> [] ->
  update_path leaf obj (before ++ k :: more) a m s = Done (Raise (PFAErr code)) s.
Proof.
  intros (v & H & Hv) Hm. induction H as [w|d x w p o Hk _ IH|l i w p o Hi _ IH].
  - destruct w; try contradiction; destruct k; try contradiction; destruct Hv as [H1 ->]; cbn.
    + destruct (Z.of_nat (length l) <=? z) eqn:E; [|apply Z.leb_gt in E; lia].
      destruct more; [congruence|]. reflexivity.
    + rewrite H1. destruct more; [congruence|]. reflexivity.
  - cbn. rewrite Hk. unfold bind. now rewrite IH by auto.
  - assert (Hlt : (i < length l)%nat) by (apply nth_error_Some; congruence).
    cbn [app update_path]. cbn zeta.
    destruct (Z.of_nat (length l) <=? Z.of_nat i) eqn:E1; [apply Z.leb_le in E1; lia|].
    destruct (Z.of_nat i <? 0) eqn:E2; [apply Z.ltb_lt in E2; lia|].
    rewrite andb_false_r. cbn [orb]. rewrite Nat2Z.id. rewrite (nth_error_nth _ _ _ Hi).
    unfold bind. now rewrite IH by auto.
Qed.
Lemma get_path_missing obj before k more a m code :
  missing_at obj before k a m code -> get_path obj (before ++ k :: more) a m = Raise (PFAErr code).
Proof.
  intros (v & H & Hv). induction H as [w|d x w p o Hk _ IH|l i w p o Hi _ IH].
  - destruct w; try contradiction; destruct k; try contradiction; destruct Hv as [H1 ->]; cbn [app get_path get_one].
    + destruct (z <? 0) eqn:E; [apply Z.ltb_lt in E; lia|].
      destruct (z <? Z.of_nat (length l)) eqn:E2; [apply Z.ltb_lt in E2; lia|]. now rewrite andb_false_r.
    + now rewrite H1.
  - cbn [app get_path get_one]. rewrite Hk. cbn [rbind]. auto.
  - cbn [app get_path]. rewrite (get_one_item _ _ _ _ _ Hi). cbn [rbind]. auto.
Qed.
Lemma dict_set_id {V} k (v : V) d : assoc k d = Some v -> dict_set k v d = d.
Proof.
  induction d as [|[k' u] d IH]; cbn; [discriminate|]. destruct (String.eqb k k'); [now intros [= ->]|].
  intros H. f_equal. auto.
Qed.
Lemma replace_nth_id i v l : nth_error l i = Some v -> replace_nth i v l = l.
Proof. revert i. induction l as [|x l IH]; intros [|i]; cbn; try discriminate; [now intros [= ->]|]. intros H. f_equal. auto. Qed.
Lemma update_path_missing_last leaf obj before k a m code s :
  missing_at obj before k a m code ->
  update_path leaf obj (before ++ [k]) a m s = Done (Ok obj) s.
Proof.
  intros (v & H & Hv). induction H as [w|d x w p o Hk _ IH|l i w p o Hi _ IH].
  - destruct w; try contradiction; destruct k; try contradiction; destruct Hv as [H1 ->]; cbn.
    + destruct (z <? 0) eqn:E; [apply Z.ltb_lt in E; lia|].
      destruct (Z.of_nat (length l) <=? z) eqn:E2; [|apply Z.leb_gt in E2; lia]. reflexivity.
    + now rewrite H1.
  - cbn. rewrite Hk. unfold bind. rewrite IH by auto. cbn. now rewrite dict_set_id.
  - assert (Hlt : (i < length l)%nat) by (apply nth_error_Some; congruence).
    cbn [app update_path]. cbn zeta.
    destruct (Z.of_nat (length l) <=? Z.of_nat i) eqn:E1; [apply Z.leb_le in E1; lia|].
    destruct (Z.of_nat i <? 0) eqn:E2; [apply Z.ltb_lt in E2; lia|].
    rewrite andb_false_r. cbn [orb]. rewrite Nat2Z.id. rewrite (nth_error_nth _ _ _ Hi).
    unfold bind. rewrite IH by auto. cbn. now rewrite replace_nth_id.
Qed.
