(** The interpreter's loops against the declarative rules. *)
From Verif Require Import Base ScopeModel CoreModel CoreInv CoreFuel CoreScopes ControlSpec.
Open Scope string_scope.
Open Scope list_scope.
Open Scope Z_scope.

Lemma exec_one E n e s : exec E n [e] s = eval E n e s.
Proof. unfold exec, run, bind. cbn. unfold bind. destruct (eval E n e s) as [[a|x] s1| |]; reflexivity. Qed.
Lemma frames_one E n e fs s : in_frames fs (exec E n [e]) s = in_frames fs (eval E n e) s.
Proof. unfold in_frames. now rewrite exec_one. Qed.
Lemma two_back E n es f1 f2 s v fs s' : in_frames [f1; f2] (exec E n es) s = Done (Ok (v, fs)) s' ->
  exists g1 g2, fs = [g1; g2].
Proof.
  intros H. apply frames_back in H; [|apply (pres_exec _ grows_closed)|discriminate].
  apply sub_length in H. destruct fs as [|g1 [|g2 [|]]]; try discriminate. eauto.
Qed.
Lemma one_back E n es f1 s v fs s' : in_frames [f1] (exec E n es) s = Done (Ok (v, fs)) s' -> exists g1, fs = [g1].
Proof.
  intros H. apply frames_back in H; [|apply (pres_exec _ grows_closed)|discriminate].
  apply sub_length in H. destruct fs as [|g1 [|]]; try discriminate. eauto.
Qed.
Lemma frames_mono {A} fs (m m' : EM A) s x s' : le m m' -> in_frames fs m s = Done x s' -> in_frames fs m' s = Done x s'.
Proof. intros L H. destruct (le_frames fs m m' L s) as [X|X]; congruence. Qed.
Lemma block_mono E n n' fs es s x s' : (n <= n')%nat ->
  in_frames fs (exec E n es) s = Done x s' -> in_frames fs (exec E n' es) s = Done x s'.
Proof. intros Hn. apply frames_mono. now apply le_exec. Qed.

(** *** while *)
Lemma while_sound E n p body m : forall pf bf s r s',
  while_loop E (eval E n) m p body pf bf s = Done r s' -> while_runs E p body pf bf s r s'.
Proof.
  induction m as [|m IH]; intros pf bf s r s' H; [discriminate|]. cbn [while_loop] in H. unfold bind in H at 1.
  destruct (in_frames [pf; bf] (eval E n p) s) as [[[b fs]|e] s1| |] eqn:Hp; try discriminate;
    rewrite <- frames_one in Hp.
  2: { injection H as <- <-. apply while_cond_fails. now exists n. }
  destruct (two_back _ _ _ _ _ _ _ _ _ Hp) as (pf1 & bf1 & ->). cbn in H.
  destruct (truthy b) eqn:Hb.
  2: { injection H as <- <-. eapply while_stop; [exists n; exact Hp|exact Hb]. }
  unfold bind in H at 1. destruct (check_time E s1) as [[[]|e] s2| |] eqn:Ht; try discriminate.
  2: { injection H as <- <-. eapply while_timeout; [exists n; exact Hp|exact Hb|exact Ht]. }
  unfold bind in H at 1.
  change (run (eval E n) body) with (exec E n body) in H.
  destruct (in_frames [bf1] (exec E n body) s2) as [[[v fs]|e] s3| |] eqn:Hbody; try discriminate.
  2: { injection H as <- <-. eapply while_body_fails; [exists n; exact Hp|exact Hb|exact Ht|exists n; exact Hbody]. }
  destruct (one_back _ _ _ _ _ _ _ _ Hbody) as [bf2 ->]. cbn in H. apply IH in H.
  eapply while_again; [exists n; exact Hp|exact Hb|exact Ht|exists n; exact Hbody|exact H].
Qed.
Lemma while_complete E p body pf bf s r s' : while_runs E p body pf bf s r s' ->
  exists n, while_loop E (eval E n) n p body pf bf s = Done r s'.
Proof.
  intros H. induction H as
    [pf bf s b fs s' [n1 Hp] Hb | pf bf s b pf1 bf1 s1 s2 v bf2 s3 r s4 [n1 Hp] Hb Ht [n2 Hbody] Hw [n3 IH]
    | pf bf s e s' [n1 Hp] | pf bf s b fs s1 e s2 [n1 Hp] Hb Ht | pf bf s b pf1 bf1 s1 s2 e s3 [n1 Hp] Hb Ht [n2 Hbody]].
  - exists (S n1). cbn [while_loop]. unfold bind. apply (block_mono E n1 (S n1)) in Hp; [|lia].
    rewrite frames_one in Hp. rewrite Hp. cbn. now rewrite Hb.
  - exists (S (n1 + n2 + n3)). set (N := S (n1 + n2 + n3)). unfold N at 2. cbn [while_loop].
    apply (block_mono E n1 N) in Hp; [|unfold N; lia]. rewrite frames_one in Hp. apply (block_mono E n2 N) in Hbody; [|unfold N; lia].
    unfold bind at 1. rewrite Hp. cbn [nth]. rewrite Hb. unfold bind at 1. rewrite Ht. unfold bind at 1.
    change (run (eval E N) body) with (exec E N body). rewrite Hbody. cbn [snd nth].
    destruct (le_while E (eval E n3) (eval E N) (proj1 (le_eval E n3 N ltac:(unfold N; lia))) p body n3 (n1 + n2 + n3)%nat pf1 bf2
                ltac:(lia) s3) as [X|X]; congruence.
  - exists (S n1). cbn [while_loop]. unfold bind. apply (block_mono E n1 (S n1)) in Hp; [|lia].
    rewrite frames_one in Hp. now rewrite Hp.
  - exists (S n1). cbn [while_loop]. unfold bind. apply (block_mono E n1 (S n1)) in Hp; [|lia].
    rewrite frames_one in Hp. rewrite Hp. cbn. now rewrite Hb, Ht.
  - exists (S (n1 + n2)). set (N := S (n1 + n2)). unfold N at 2. cbn [while_loop].
    apply (block_mono E n1 N) in Hp; [|unfold N; lia]. rewrite frames_one in Hp. apply (block_mono E n2 N) in Hbody; [|unfold N; lia].
    unfold bind at 1. rewrite Hp. cbn [nth]. rewrite Hb. unfold bind at 1. rewrite Ht. unfold bind at 1.
    change (run (eval E N) body) with (exec E N body). now rewrite Hbody.
Qed.

(** *** do-until *)
Lemma until_sound E n p body m : forall pf bf s r s',
  until_loop E (eval E n) m body p pf bf s = Done r s' -> until_runs E body p pf bf s r s'.
Proof.
  induction m as [|m IH]; intros pf bf s r s' H; [discriminate|]. cbn [until_loop] in H. unfold bind in H at 1.
  destruct (check_time E s) as [[[]|e] s1| |] eqn:Ht; try discriminate.
  2: { injection H as <- <-. now apply until_timeout. }
  change (run (eval E n) body) with (exec E n body) in H. unfold bind in H at 1.
  destruct (in_frames [bf] (exec E n body) s1) as [[[v fs]|e] s2| |] eqn:Hbody; try discriminate.
  2: { injection H as <- <-. eapply until_body_fails; [exact Ht|exists n; exact Hbody]. }
  destruct (one_back _ _ _ _ _ _ _ _ Hbody) as [bf1 ->]. cbn in H. unfold bind in H at 1.
  destruct (in_frames [pf; bf1] (eval E n p) s2) as [[[b fs]|e] s3| |] eqn:Hp; try discriminate;
    rewrite <- frames_one in Hp.
  2: { injection H as <- <-. eapply until_cond_fails; [exact Ht|exists n; exact Hbody|exists n; exact Hp]. }
  destruct (two_back _ _ _ _ _ _ _ _ _ Hp) as (pf2 & bf2 & ->). cbn in H.
  destruct (truthy b) eqn:Hb.
  - injection H as <- <-. eapply until_stop; [exact Ht|exists n; exact Hbody|exists n; exact Hp|exact Hb].
  - apply IH in H. eapply until_again; [exact Ht|exists n; exact Hbody|exists n; exact Hp|exact Hb|exact H].
Qed.
Lemma until_complete E p body pf bf s r s' : until_runs E body p pf bf s r s' ->
  exists n, until_loop E (eval E n) n body p pf bf s = Done r s'.
Proof.
  intros H. induction H as
    [pf bf s s1 v bf1 s2 b fs s3 Ht [n1 Hbody] [n2 Hp] Hb
    | pf bf s s1 v bf1 s2 b pf2 bf2 s3 r s4 Ht [n1 Hbody] [n2 Hp] Hb Hw [n3 IH]
    | pf bf s e s1 Ht | pf bf s s1 e s2 Ht [n1 Hbody] | pf bf s s1 v bf1 s2 e s3 Ht [n1 Hbody] [n2 Hp]].
  - exists (S (n1 + n2)). set (N := S (n1 + n2)). unfold N at 2. cbn [until_loop].
    apply (block_mono E n1 N) in Hbody; [|unfold N; lia]. apply (block_mono E n2 N) in Hp; [|unfold N; lia]. rewrite frames_one in Hp.
    unfold bind at 1. rewrite Ht. unfold bind at 1. change (run (eval E N) body) with (exec E N body). rewrite Hbody. cbn [snd nth].
    unfold bind at 1. rewrite Hp. cbn [nth]. now rewrite Hb.
  - exists (S (n1 + n2 + n3)). set (N := S (n1 + n2 + n3)). unfold N at 2. cbn [until_loop].
    apply (block_mono E n1 N) in Hbody; [|unfold N; lia]. apply (block_mono E n2 N) in Hp; [|unfold N; lia]. rewrite frames_one in Hp.
    unfold bind at 1. rewrite Ht. unfold bind at 1. change (run (eval E N) body) with (exec E N body). rewrite Hbody. cbn [snd nth].
    unfold bind at 1. rewrite Hp. cbn [nth]. rewrite Hb.
    destruct (le_until E (eval E n3) (eval E N) (proj1 (le_eval E n3 N ltac:(unfold N; lia))) body p n3 (n1 + n2 + n3)%nat pf2 bf2
                ltac:(lia) s3) as [X|X]; congruence.
  - exists 1%nat. cbn [until_loop]. unfold bind. now rewrite Ht.
  - exists (S n1). set (N := S n1). unfold N at 2. cbn [until_loop].
    apply (block_mono E n1 N) in Hbody; [|unfold N; lia].
    unfold bind at 1. rewrite Ht. unfold bind at 1. change (run (eval E N) body) with (exec E N body). now rewrite Hbody.
  - exists (S (n1 + n2)). set (N := S (n1 + n2)). unfold N at 2. cbn [until_loop].
    apply (block_mono E n1 N) in Hbody; [|unfold N; lia]. apply (block_mono E n2 N) in Hp; [|unfold N; lia]. rewrite frames_one in Hp.
    unfold bind at 1. rewrite Ht. unfold bind at 1. change (run (eval E N) body) with (exec E N body). rewrite Hbody. cbn [snd nth].
    unfold bind at 1. now rewrite Hp.
Qed.

(** *** for *)
Lemma le_upd E n n' upd : (n <= n')%nat ->
  le (vs <== ev_named (eval E n) upd ;; set_vars_m vs) (vs <== ev_named (eval E n') upd ;; set_vars_m vs).
Proof. intros Hn. apply le_bind; [|intros; apply le_refl]. apply le_named. apply le_eval, Hn. Qed.
Lemma upd_back E n upd lf s u fs s' :
  in_frames [lf] (vs <== ev_named (eval E n) upd ;; set_vars_m vs) s = Done (Ok (u, fs)) s' -> u = tt /\ exists lf', fs = [lf'].
Proof.
  intros H. destruct u. split; auto. apply frames_back in H; [| |discriminate].
  - apply sub_length in H. destruct fs as [|g1 [|]]; try discriminate. eauto.
  - apply (pres_bind _ grows_closed); [|intros; apply (pres_set _ grows_closed)].
    apply (pres_named _ grows_closed). apply (pres_eval _ grows_closed).
Qed.
Lemma for_sound E n p upd body m : forall pf bf lf s r s',
  for_loop E (eval E n) m p upd body pf bf lf s = Done r s' -> for_runs E p upd body pf bf lf s r s'.
Proof.
  induction m as [|m IH]; intros pf bf lf s r s' H; [discriminate|]. cbn [for_loop] in H. unfold bind in H at 1.
  destruct (in_frames [pf; lf] (eval E n p) s) as [[[b fs]|e] s1| |] eqn:Hp; try discriminate;
    rewrite <- frames_one in Hp.
  2: { injection H as <- <-. apply for_cond_fails. now exists n. }
  destruct (two_back _ _ _ _ _ _ _ _ _ Hp) as (pf1 & lf1 & ->). cbn in H.
  destruct (truthy b) eqn:Hb.
  2: { injection H as <- <-. eapply for_stop; [exists n; exact Hp|exact Hb]. }
  unfold bind in H at 1. destruct (check_time E s1) as [[[]|e] s2| |] eqn:Ht; try discriminate.
  2: { injection H as <- <-. eapply for_timeout; [exists n; exact Hp|exact Hb|exact Ht]. }
  unfold bind in H at 1. change (run (eval E n) body) with (exec E n body) in H.
  destruct (in_frames [bf; lf1] (exec E n body) s2) as [[[v fs]|e] s3| |] eqn:Hbody; try discriminate.
  2: { injection H as <- <-. eapply for_body_fails; [exists n; exact Hp|exact Hb|exact Ht|exists n; exact Hbody]. }
  destruct (two_back _ _ _ _ _ _ _ _ _ Hbody) as (bf2 & lf2 & ->). cbn [snd nth] in H. unfold bind in H at 1.
  destruct (in_frames [lf2] (vs <== ev_named (eval E n) upd ;; set_vars_m vs) s3) as [[[u fs]|e] s4| |] eqn:Hu; try discriminate.
  2: { injection H as <- <-.
       eapply for_update_fails; [exists n; exact Hp|exact Hb|exact Ht|exists n; exact Hbody|exists n; exact Hu]. }
  destruct (upd_back _ _ _ _ _ _ _ _ Hu) as [-> [lf3 ->]]. cbn [snd nth] in H. apply IH in H.
  eapply for_again; [exists n; exact Hp|exact Hb|exact Ht|exists n; exact Hbody|exists n; exact Hu|exact H].
Qed.
Lemma for_complete E p upd body pf bf lf s r s' : for_runs E p upd body pf bf lf s r s' ->
  exists n, for_loop E (eval E n) n p upd body pf bf lf s = Done r s'.
Proof.
  intros H. induction H as
    [pf bf lf s b fs s' [n1 Hp] Hb
    | pf bf lf s b pf1 lf1 s1 s2 v bf2 lf2 s3 lf3 s4 r s5 [n1 Hp] Hb Ht [n2 Hbody] [n4 Hu] Hw [n3 IH]
    | pf bf lf s e s' [n1 Hp] | pf bf lf s b fs s1 e s2 [n1 Hp] Hb Ht
    | pf bf lf s b pf1 lf1 s1 s2 e s3 [n1 Hp] Hb Ht [n2 Hbody]
    | pf bf lf s b pf1 lf1 s1 s2 v bf2 lf2 s3 e s4 [n1 Hp] Hb Ht [n2 Hbody] [n4 Hu]].
  - exists (S n1). cbn [for_loop]. unfold bind. apply (block_mono E n1 (S n1)) in Hp; [|lia].
    rewrite frames_one in Hp. rewrite Hp. cbn. now rewrite Hb.
  - exists (S (n1 + n2 + n3 + n4)). set (N := S (n1 + n2 + n3 + n4)). unfold N at 2. cbn [for_loop].
    apply (block_mono E n1 N) in Hp; [|unfold N; lia]. rewrite frames_one in Hp. apply (block_mono E n2 N) in Hbody; [|unfold N; lia].
    apply (frames_mono _ _ _ _ _ _ (le_upd E n4 N upd ltac:(unfold N; lia))) in Hu.
    unfold bind at 1. rewrite Hp. cbn [nth]. rewrite Hb. unfold bind at 1. rewrite Ht. unfold bind at 1.
    change (run (eval E N) body) with (exec E N body). rewrite Hbody. cbn [snd nth]. unfold bind at 1. rewrite Hu. cbn [snd nth].
    destruct (le_for E (eval E n3) (eval E N) (proj1 (le_eval E n3 N ltac:(unfold N; lia))) p upd body n3 (n1 + n2 + n3 + n4)%nat pf1 bf2 lf3
                ltac:(lia) s4) as [X|X]; congruence.
  - exists (S n1). cbn [for_loop]. unfold bind. apply (block_mono E n1 (S n1)) in Hp; [|lia].
    rewrite frames_one in Hp. now rewrite Hp.
  - exists (S n1). cbn [for_loop]. unfold bind. apply (block_mono E n1 (S n1)) in Hp; [|lia].
    rewrite frames_one in Hp. rewrite Hp. cbn. now rewrite Hb, Ht.
  - exists (S (n1 + n2)). set (N := S (n1 + n2)). unfold N at 2. cbn [for_loop].
    apply (block_mono E n1 N) in Hp; [|unfold N; lia]. rewrite frames_one in Hp. apply (block_mono E n2 N) in Hbody; [|unfold N; lia].
    unfold bind at 1. rewrite Hp. cbn [nth]. rewrite Hb. unfold bind at 1. rewrite Ht. unfold bind at 1.
    change (run (eval E N) body) with (exec E N body). now rewrite Hbody.
  - exists (S (n1 + n2 + n4)). set (N := S (n1 + n2 + n4)). unfold N at 2. cbn [for_loop].
    apply (block_mono E n1 N) in Hp; [|unfold N; lia]. rewrite frames_one in Hp. apply (block_mono E n2 N) in Hbody; [|unfold N; lia].
    apply (frames_mono _ _ _ _ _ _ (le_upd E n4 N upd ltac:(unfold N; lia))) in Hu.
    unfold bind at 1. rewrite Hp. cbn [nth]. rewrite Hb. unfold bind at 1. rewrite Ht. unfold bind at 1.
    change (run (eval E N) body) with (exec E N body). rewrite Hbody. cbn [snd nth]. unfold bind at 1. now rewrite Hu.
Qed.

(** *** foreach, forkeyval *)
Lemma each_sound E n body items : forall bf lf s r s',
  each_loop E (eval E n) items body bf lf s = Done r s' -> each_runs E body items bf lf s r s'.
Proof.
  induction items as [|bs items IH]; intros bf lf s r s' H; cbn [each_loop] in H.
  - injection H as <- <-. constructor.
  - unfold bind in H at 1. destruct (check_time E s) as [[[]|e] s1| |] eqn:Ht; try discriminate.
    2: { injection H as <- <-. now apply each_timeout. }
    change (run (eval E n) body) with (exec E n body) in H. unfold bind in H at 1.
    destruct (in_frames [bf; frame_let bs lf] (exec E n body) s1) as [[[v fs]|e] s2| |] eqn:Hbody; try discriminate.
    2: { injection H as <- <-. eapply each_fails; [exact Ht|exists n; exact Hbody]. }
    destruct (two_back _ _ _ _ _ _ _ _ _ Hbody) as (bf1 & lf1 & ->). cbn in H. apply IH in H.
    eapply each_turn; [exact Ht|exists n; exact Hbody|exact H].
Qed.
Lemma each_complete E body items bf lf s r s' : each_runs E body items bf lf s r s' ->
  exists n, each_loop E (eval E n) items body bf lf s = Done r s'.
Proof.
  intros H. induction H as
    [bf lf s | bs items bf lf s s1 v bf1 lf1 s2 r s3 Ht [n1 Hbody] He [n2 IH] | bs items bf lf s e s1 Ht
    | bs items bf lf s s1 e s2 Ht [n1 Hbody]].
  - exists 0%nat. reflexivity.
  - exists (n1 + n2)%nat. cbn [each_loop]. apply (block_mono E n1 (n1 + n2)) in Hbody; [|lia].
    unfold bind. rewrite Ht. change (run (eval E (n1 + n2)) body) with (exec E (n1 + n2) body). rewrite Hbody. cbn.
    destruct (le_each E (eval E n2) (eval E (n1 + n2)) (proj1 (le_eval E n2 (n1 + n2) ltac:(lia))) items body bf1 lf1 s2) as [X|X]; congruence.
  - exists 0%nat. cbn [each_loop]. unfold bind. now rewrite Ht.
  - exists n1. cbn [each_loop]. unfold bind. rewrite Ht. change (run (eval E n1) body) with (exec E n1 body). now rewrite Hbody.
Qed.
