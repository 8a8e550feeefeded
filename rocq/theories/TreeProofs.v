From Coq Require Import SpecFloat.
From Verif Require Import Base PyNum Effects ScopeModel TypeModel JsonModel TreeModel TreeSpec.
Open Scope string_scope.
Open Scope list_scope.
Open Scope Z_scope.

Lemma list_max_in l x : In x l -> (x <= list_max l)%nat.
Proof. intros H. pose proof (proj1 (list_max_le l (list_max l)) (le_n _)) as F. rewrite Forall_forall in F. auto. Qed.
Lemma assoc_depth d k v : assoc k d = Some v -> (S (vdepth v) <= vdepth (VDict d))%nat.
Proof.
  intros H. cbn. apply le_n_S, list_max_in. induction d as [|[k' v'] d IH]; cbn in *; [discriminate|].
  destruct (String.eqb k k'); [injection H as ->; now left|right; auto].
Qed.

Lemma answers_inv {S A} (test : val -> M S A) to_side n ns d ds s s2 : answers test to_side (n :: ns) (d :: ds) s s2 ->
  exists a s1, d = to_side a /\ test n s = (Ok a, s1) /\ answers test to_side ns ds s1 s2.
Proof. intros H. inversion H; subst. eauto. Qed.

Section Walk.
  Context {S A : Type} (test : val -> M S A) (to_side : A -> side) (T : string).
  Let choose (node : val) : M S string := a <~ test node ;; ret (side_name (to_side a)).

  Lemma walk_more choose0 : forall fuel v, (vdepth v < fuel)%nat -> forall k s,
    walk (S := S) (fuel + k) T choose0 v s = walk fuel T choose0 v s.
  Proof.
    induction fuel as [|fuel IH]; intros v H k s; [lia|]. cbn [walk Nat.add]. unfold bind.
    destruct (choose0 v s) as [[b|e] s1]; [|reflexivity]. unfold lift.
    destruct (getitem v b) as [u|e] eqn:E; [|reflexivity].
    destruct (next_node T u) as [[go w]|e] eqn:E'; [|reflexivity]. cbn [fst snd].
    destruct go; [|reflexivity]. apply IH.
    destruct v; try discriminate E. cbn [getitem] in E. destruct (assoc b d) as [x|] eqn:Ea; [|discriminate].
    injection E as <-. apply assoc_depth in Ea.
    destruct x; try discriminate E'. destruct d0 as [|[tg w'] [|? ?]]; try discriminate E'.
    injection E' as _ ->. cbn in Ea. cbn in H. lia.
  Qed.
  Lemma walk_no_fuel choose0 : (forall v s s', choose0 v s <> (Raise (PyErr "out of fuel"), s')) ->
    forall fuel v, (vdepth v < fuel)%nat -> forall s s',
    walk (S := S) fuel T choose0 v s <> (Raise (PyErr "out of fuel"), s').
  Proof.
    intros Hc. induction fuel as [|fuel IH]; intros v H s s'; [lia|]. cbn [walk]. unfold bind.
    pose proof (Hc v s) as Hcv.
    destruct (choose0 v s) as [[b|e] s1]; [|intros K; injection K as -> ->; now apply (Hcv s')]. unfold lift.
    destruct (getitem v b) as [u|e] eqn:E.
    2: { destruct v; cbn [getitem] in E; try (injection E as <-; discriminate).
         destruct (assoc b d); [discriminate|]. injection E as <-. discriminate. }
    destruct (next_node T u) as [[go w]|e] eqn:E'.
    2: { destruct u; cbn [next_node] in E'; try discriminate; try (injection E' as <-; discriminate).
         destruct d as [|[? ?] [|? ?]]; try discriminate; injection E' as <-; discriminate. }
    cbn [fst snd]. destruct go; [|discriminate]. apply IH.
    destruct v; try discriminate E. cbn [getitem] in E. destruct (assoc b d) as [x|] eqn:Ea; [|discriminate].
    injection E as <-. apply assoc_depth in Ea.
    destruct x; try discriminate E'. destruct d0 as [|[tg w'] [|? ?]]; try discriminate E'.
    injection E' as _ ->. cbn in Ea. cbn in H. lia.
  Qed.

  (** one step of the walk on a value that shows a tree *)
  Lemma shows_side sides v t x : shows T sides v t -> In x sides ->
    exists d p f m u, v = VDict d /\ t = Node v p f m /\ assoc (side_name x) d = Some u /\
      shows_branch T sides u (match x with Pass => p | Fail => f | Missing => m end).
  Proof.
    intros H I. destruct H as [d p f m Hp Hf Hm].
    destruct x; [destruct (Hp I) as (u & E & Hu)|destruct (Hf I) as (u & E & Hu)|destruct (Hm I) as (u & E & Hu)];
      exists d, p, f, m, u; auto.
  Qed.

  Lemma walk_ok sides : (forall a, In (to_side a) sides) -> forall fuel v t, shows T sides v t -> (vdepth v < fuel)%nat ->
    forall s r s', walk fuel T choose v s = (Ok r, s') <->
      exists p, follow t p = Some r /\ answers test to_side (along t p) p s s'.
  Proof.
    intros Hs. induction fuel as [|fuel IH]; intros v t Hv Hd s r s'; [lia|].
    cbn [walk]. unfold choose at 1. unfold bind, lift, ret.
    destruct (test v s) as [[a|e] s1] eqn:Et.
    - destruct (shows_side sides v t (to_side a) Hv (Hs a)) as (d & p & f & m & u & -> & -> & Ea & Hu).
      cbn [getitem]. rewrite Ea.
      assert (St : forall q, (follow (Node (VDict d) p f m) q = Some r /\ answers test to_side (along (Node (VDict d) p f m) q) q s s') <->
        exists q', q = to_side a :: q' /\ follow (match to_side a with Pass => p | Fail => f | Missing => m end) q' = Some r /\
          answers test to_side (along (match to_side a with Pass => p | Fail => f | Missing => m end) q') q' s1 s').
      { intros q. split.
        - intros [F An]. destruct q as [|x q]; [discriminate|]. cbn [along] in An. cbn [follow child] in F.
          apply answers_inv in An as (a' & s1' & -> & Et' & An). rewrite Et in Et'. injection Et' as <- <-. exists q. auto.
        - intros (q' & -> & F & An). cbn [follow child along]. split; [exact F|]. econstructor; [exact Et|exact An]. }
      apply assoc_depth in Ea. destruct Hu as [|tag w N|w t' Hw].
      + cbn [next_node fst snd]. split.
        * intros E. injection E as <- <-. exists [to_side a]. apply St. exists []. split; [reflexivity|]. split; [reflexivity|constructor].
        * intros (q & Hq). apply St in Hq as (q' & -> & F & An). destruct q'; [|discriminate F]. cbn in F, An. injection F as <-.
          inversion An; subst. reflexivity.
      + cbn [next_node fst snd]. rewrite (proj2 (String.eqb_neq tag T) N). split.
        * intros E. injection E as <- <-. exists [to_side a]. apply St. exists []. split; [reflexivity|]. split; [reflexivity|constructor].
        * intros (q & Hq). apply St in Hq as (q' & -> & F & An). destruct q'; [|discriminate F]. cbn in F, An. injection F as <-.
          inversion An; subst. reflexivity.
      + cbn [next_node fst snd]. rewrite String.eqb_refl. cbn in Ea. cbn in Hd.
        rewrite (IH w t' Hw) by lia. split.
        * intros (q & F & An). exists (to_side a :: q). apply St. exists q. auto.
        * intros (q & Hq). apply St in Hq as (q' & -> & F & An). exists q'. auto.
    - split; [discriminate|]. intros (q & F & An). exfalso. inversion Hv; subst. destruct q as [|x q]; [discriminate|].
      cbn [along] in An. apply answers_inv in An as (a' & s1' & -> & Et' & An). congruence.
  Qed.

  Lemma walk_raise sides : (forall a, In (to_side a) sides) -> forall fuel v t, shows T sides v t -> (vdepth v < fuel)%nat ->
    forall s e s', walk fuel T choose v s = (Raise e, s') <->
      exists p n s1, node_at t p = Some n /\ answers test to_side (along t p) p s s1 /\ test n s1 = (Raise e, s').
  Proof.
    intros Hs. induction fuel as [|fuel IH]; intros v t Hv Hd s e s'; [lia|].
    cbn [walk]. unfold choose at 1. unfold bind, lift, ret.
    destruct (test v s) as [[a|e0] s1] eqn:Et.
    - destruct (shows_side sides v t (to_side a) Hv (Hs a)) as (d & p & f & m & u & -> & -> & Ea & Hu).
      cbn [getitem]. rewrite Ea.
      set (t1 := match to_side a with Pass => p | Fail => f | Missing => m end) in *.
      assert (St : (exists q n s2, node_at (Node (VDict d) p f m) q = Some n /\ answers test to_side (along (Node (VDict d) p f m) q) q s s2 /\ test n s2 = (Raise e, s')) <->
        exists q' n s2, node_at t1 q' = Some n /\ answers test to_side (along t1 q') q' s1 s2 /\ test n s2 = (Raise e, s')).
      { split.
        - intros (q & n & s2 & N & An & R). destruct q as [|x q].
          + cbn in N, An. injection N as <-. inversion An; subst. congruence.
          + cbn [along] in An. cbn [node_at child] in N.
            apply answers_inv in An as (a' & s1' & -> & Et' & An). rewrite Et in Et'. injection Et' as <- <-. exists q, n, s2. auto.
        - intros (q' & n & s2 & N & An & R). exists (to_side a :: q'), n, s2. cbn [node_at child along]. split; [exact N|]. split; [|exact R].
          econstructor; [exact Et|exact An]. }
      rewrite St. clear St. clearbody t1. apply assoc_depth in Ea. destruct Hu as [|tag w N|w t' Hw].
      + cbn [next_node fst snd]. split; [discriminate|]. intros (q & n & s2 & N & _). destruct q; discriminate N.
      + cbn [next_node fst snd]. rewrite (proj2 (String.eqb_neq tag T) N). split; [discriminate|]. intros (q & n & s2 & N' & _). destruct q; discriminate N'.
      + cbn [next_node fst snd]. rewrite String.eqb_refl. cbn in Ea. cbn in Hd. apply (IH w t' Hw). lia.
    - inversion Hv; subst. split.
      + intros E. injection E as <- <-. exists [], (VDict d), s. split; [reflexivity|]. split; [constructor|exact Et].
      + intros (q & n & s2 & N & An & R). destruct q as [|x q].
        * cbn in N, An. injection N as <-. inversion An; subst. congruence.
        * cbn [along] in An. apply answers_inv in An as (a' & s1' & -> & Et' & An). congruence.
  Qed.
  Lemma answers_unique t : forall p1 p2 s s1 s2 r1 r2, follow t p1 = Some r1 -> follow t p2 = Some r2 ->
    answers test to_side (along t p1) p1 s s1 -> answers test to_side (along t p2) p2 s s2 -> p1 = p2 /\ r1 = r2 /\ s1 = s2.
  Proof.
    induction t as [v|v p IHp f IHf m IHm]; intros p1 p2 s s1 s2 r1 r2 F1 F2 A1 A2.
    - destruct p1; [|discriminate]. destruct p2; [|discriminate]. cbn in *. inversion A1; inversion A2; subst. repeat split; congruence.
    - destruct p1 as [|x1 p1]; [discriminate|]. destruct p2 as [|x2 p2]; [discriminate|].
      cbn [follow child along] in *. apply answers_inv in A1 as (a0 & u1 & -> & Et1 & A1). apply answers_inv in A2 as (a2 & u2 & -> & Et2 & A2). rewrite Et1 in Et2. injection Et2 as <- <-.
      destruct (to_side a0).
      + destruct (IHp _ _ _ _ _ _ _ F1 F2 A1 A2) as (-> & -> & ->). auto.
      + destruct (IHf _ _ _ _ _ _ _ F1 F2 A1 A2) as (-> & -> & ->). auto.
      + destruct (IHm _ _ _ _ _ _ _ F1 F2 A1 A2) as (-> & -> & ->). auto.
  Qed.
End Walk.

(** the test that takes its answers from a list *)
Lemma answers_script {A} (to_side : A -> side) (t : dtree) : forall script r rest, follow t (map to_side script) = Some r ->
  answers (fun (_ : val) (s : list A) => match s with a :: s' => (Ok a, s') | [] => (Raise (PyErr "no answer"), []) end) to_side
    (along t (map to_side script)) (map to_side script) (script ++ rest) rest.
Proof.
  induction t as [v|v p IHp f IHf m IHm]; intros [|a script] r rest F; cbn [map follow] in F; try discriminate; cbn [map along app].
  - constructor.
  - cbn [child] in *. econstructor; [reflexivity|]. destruct (to_side a); eauto.
Qed.

(** predicates *)
Lemma num_ops x y : match num_cmp x y with
  | Some Lt => num_lt x y = true /\ num_eq x y = false /\ num_gt x y = false
  | Some Eq => num_lt x y = false /\ num_eq x y = true /\ num_gt x y = false
  | Some Gt => num_lt x y = false /\ num_eq x y = false /\ num_gt x y = true
  | None => num_lt x y = false /\ num_eq x y = false /\ num_gt x y = false
  end /\ num_le x y = (num_lt x y || num_eq x y)%bool /\ num_ge x y = (num_gt x y || num_eq x y)%bool.
Proof. unfold num_lt, num_eq, num_gt, num_le, num_ge. destruct (num_cmp x y) as [[]|]; auto. Qed.

Section Compound.
  Context {S : Type} (test : val -> M S bool).
  (** the tests are made one after the other, with these results *)
  Inductive tested : list val -> list bool -> S -> S -> Prop :=
  | tested_nil s : tested [] [] s s
  | tested_cons c b cs bs s s1 s2 : test c s = (Ok b, s1) -> tested cs bs s1 s2 -> tested (c :: cs) (b :: bs) s s2.
  Lemma tested_inv c cs bs s s2 : tested (c :: cs) bs s s2 -> exists b bs' s1, bs = b :: bs' /\ test c s = (Ok b, s1) /\ tested cs bs' s1 s2.
  Proof. intros H. inversion H; subst. eauto 8. Qed.
  Lemma tested_length cs bs s s' : tested cs bs s s' -> length cs = length bs.
  Proof. induction 1; cbn; congruence. Qed.

  Lemma all_tests_ok cs : forall s b s', all_tests test cs s = (Ok b, s') <->
    exists done todo bs, cs = done ++ todo /\ tested done bs s s' /\
      ((b = true /\ todo = [] /\ Forall (eq true) bs) \/
       (b = false /\ exists bs', bs = bs' ++ [false] /\ Forall (eq true) bs')).
  Proof.
    induction cs as [|c cs IH]; intros s b s'; cbn [all_tests].
    - split.
      + intros E. injection E as <- <-. exists [], [], []. split; [reflexivity|]. split; [constructor|]. left. auto.
      + intros (done & todo & bs & E & Ht & Hb). symmetry in E. apply app_eq_nil in E as [-> ->]. inversion Ht; subst.
        destruct Hb as [(-> & _)|(_ & bs' & E & _)]; [reflexivity|]. now destruct bs'.
    - unfold bind. destruct (test c s) as [[b1|e] s1] eqn:Et.
      + destruct b1.
        * rewrite IH. split.
          -- intros (done & todo & bs & -> & Ht & Hb). exists (c :: done), todo, (true :: bs). split; [reflexivity|].
             split; [econstructor; eassumption|]. destruct Hb as [(-> & -> & F)|(-> & bs' & -> & F)].
             ++ left. auto.
             ++ right. split; [reflexivity|]. exists (true :: bs'). auto.
          -- intros (done & todo & bs & E & Ht & Hb). destruct done as [|c' done].
             ++ inversion Ht; subst. destruct Hb as [(_ & -> & _)|(_ & bs' & K & _)]; [discriminate|]. now destruct bs'.
             ++ injection E as <- ->. apply tested_inv in Ht as (b' & bs0 & s1' & -> & Et' & Ht). rewrite Et in Et'. injection Et' as <- <-.
                exists done, todo, bs0. split; [reflexivity|]. split; [assumption|].
                destruct Hb as [(-> & -> & F)|(-> & bs' & K & F)].
                ** left. inversion F; subst; auto.
                ** right. split; [reflexivity|]. destruct bs' as [|x bs']; [discriminate|]. injection K as -> ->. exists bs'. inversion F; subst; auto.
        * split.
          -- intros E. injection E as <- <-. exists [c], cs, [false]. split; [reflexivity|]. split; [econstructor; [eassumption|constructor]|].
             right. split; [reflexivity|]. exists []. auto.
          -- intros (done & todo & bs & E & Ht & Hb). destruct done as [|c' done].
             ++ inversion Ht; subst. destruct Hb as [(_ & -> & _)|(_ & bs' & K & _)]; [discriminate|]. now destruct bs'.
             ++ injection E as <- ->. apply tested_inv in Ht as (b' & bs0 & s1' & -> & Et' & Ht). rewrite Et in Et'. injection Et' as <- <-.
                destruct Hb as [(-> & -> & F)|(-> & bs' & K & F)].
                ** inversion F; discriminate.
                ** destruct bs' as [|x bs']; [|injection K as <- _; inversion F; discriminate]. injection K as ->.
                   inversion Ht; subst. reflexivity.
      + split; [discriminate|]. intros (done & todo & bs & E & Ht & Hb). destruct done as [|c' done].
        * inversion Ht; subst. destruct Hb as [(_ & -> & _)|(_ & bs' & K & _)]; [discriminate|]. now destruct bs'.
        * injection E as <- ->. apply tested_inv in Ht as (b' & bs0 & s1' & -> & Et' & Ht). congruence.
  Qed.
  Lemma any_test_ok cs : forall s b s', any_test test cs s = (Ok b, s') <->
    exists done todo bs, cs = done ++ todo /\ tested done bs s s' /\
      ((b = false /\ todo = [] /\ Forall (eq false) bs) \/
       (b = true /\ exists bs', bs = bs' ++ [true] /\ Forall (eq false) bs')).
  Proof.
    induction cs as [|c cs IH]; intros s b s'; cbn [any_test].
    - split.
      + intros E. injection E as <- <-. exists [], [], []. split; [reflexivity|]. split; [constructor|]. left. auto.
      + intros (done & todo & bs & E & Ht & Hb). symmetry in E. apply app_eq_nil in E as [-> ->]. inversion Ht; subst.
        destruct Hb as [(-> & _)|(_ & bs' & E & _)]; [reflexivity|]. now destruct bs'.
    - unfold bind. destruct (test c s) as [[b1|e] s1] eqn:Et.
      + destruct b1.
        * split.
          -- intros E. injection E as <- <-. exists [c], cs, [true]. split; [reflexivity|]. split; [econstructor; [eassumption|constructor]|].
             right. split; [reflexivity|]. exists []. auto.
          -- intros (done & todo & bs & E & Ht & Hb). destruct done as [|c' done].
             ++ inversion Ht; subst. destruct Hb as [(_ & -> & _)|(_ & bs' & K & _)]; [discriminate|]. now destruct bs'.
             ++ injection E as <- ->. apply tested_inv in Ht as (b' & bs0 & s1' & -> & Et' & Ht). rewrite Et in Et'. injection Et' as <- <-.
                destruct Hb as [(-> & -> & F)|(-> & bs' & K & F)].
                ** inversion F; discriminate.
                ** destruct bs' as [|x bs']; [|injection K as <- _; inversion F; discriminate]. injection K as ->.
                   inversion Ht; subst. reflexivity.
        * rewrite IH. split.
          -- intros (done & todo & bs & -> & Ht & Hb). exists (c :: done), todo, (false :: bs). split; [reflexivity|].
             split; [econstructor; eassumption|]. destruct Hb as [(-> & -> & F)|(-> & bs' & -> & F)].
             ++ left. auto.
             ++ right. split; [reflexivity|]. exists (false :: bs'). auto.
          -- intros (done & todo & bs & E & Ht & Hb). destruct done as [|c' done].
             ++ inversion Ht; subst. destruct Hb as [(_ & -> & _)|(_ & bs' & K & _)]; [discriminate|]. now destruct bs'.
             ++ injection E as <- ->. apply tested_inv in Ht as (b' & bs0 & s1' & -> & Et' & Ht). rewrite Et in Et'. injection Et' as <- <-.
                exists done, todo, bs0. split; [reflexivity|]. split; [assumption|].
                destruct Hb as [(-> & -> & F)|(-> & bs' & K & F)].
                ** left. inversion F; subst; auto.
                ** right. split; [reflexivity|]. destruct bs' as [|x bs']; [discriminate|]. injection K as -> ->. exists bs'. inversion F; subst; auto.
      + split; [discriminate|]. intros (done & todo & bs & E & Ht & Hb). destruct done as [|c' done].
        * inversion Ht; subst. destruct Hb as [(_ & -> & _)|(_ & bs' & K & _)]; [discriminate|]. now destruct bs'.
        * injection E as <- ->. apply tested_inv in Ht as (b' & bs0 & s1' & -> & Et' & Ht). congruence.
  Qed.
  Lemma count_tests_ok cs : forall s k n s', count_tests test cs k s = (Ok n, s') <->
    exists bs, tested cs bs s s' /\ n = k + Z.of_nat (count_occ Bool.bool_dec bs true).
  Proof.
    induction cs as [|c cs IH]; intros s k n s'; cbn [count_tests].
    - split.
      + intros E. injection E as <- <-. exists []. split; [constructor|cbn; lia].
      + intros (bs & Ht & ->). inversion Ht; subst. unfold ret. cbn [count_occ Z.of_nat]. do 2 f_equal. lia.
    - unfold bind. destruct (test c s) as [[b1|e] s1] eqn:Et.
      + rewrite IH. split.
        * intros (bs & Ht & ->). exists (b1 :: bs). split; [econstructor; eassumption|]. destruct b1; cbn [count_occ];
            destruct (Bool.bool_dec _ _); try congruence; lia.
        * intros (bs & Ht & ->). apply tested_inv in Ht as (b' & bs0 & s1' & -> & Et' & Ht). rewrite Et in Et'. injection Et' as <- <-. exists bs0. split; [assumption|].
          destruct b1; cbn [count_occ]; destruct (Bool.bool_dec _ _); try congruence; lia.
      + split; [discriminate|]. intros (bs & Ht & _). apply tested_inv in Ht as (b' & bs0 & s1' & -> & Et' & Ht). congruence.
  Qed.
End Compound.
