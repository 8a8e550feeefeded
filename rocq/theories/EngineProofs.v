(** Lemmas about the engine. *)
From Verif Require Import Base ScopeModel CoreModel CoreInv EngineModel EngineSpec.

Lemma assoc_map_vals {A B} (f : A -> B) k l : assoc k (map_vals f l) = option_map f (assoc k l).
Proof. induction l as [|[k' v] l IH]; cbn; auto. destruct (String.eqb k k'); auto. Qed.
Lemma map_vals_set {A B} (f : A -> B) k x y l : assoc k l = Some x -> f y = f x -> map_vals f (dict_set k y l) = map_vals f l.
Proof.
  intros H Hf. induction l as [|[k' v] l IH]; cbn in *; [discriminate|].
  destruct (String.eqb k k'); cbn.
  - injection H as ->. now rewrite Hf.
  - f_equal. now apply IH.
Qed.
Lemma map_vals_map {A B C} (f : A -> B) (g : B -> C) l : map_vals g (map_vals f l) = map_vals (fun x => g (f x)) l.
Proof. unfold map_vals. rewrite map_map. reflexivity. Qed.
Lemma map_vals_ext {A B} (f g : A -> B) l : (forall x, f x = g x) -> map_vals f l = map_vals g l.
Proof. intros H. unfold map_vals. apply map_ext. intros [k v]. now rewrite H. Qed.

Arguments map_vals : simpl never.
Definition cell_meta (x : cell) := (c_shared x, c_rollback x, c_old x).
Definition pool_meta (x : pool) := (p_shared x, p_rollback x, p_old x).
(** what no evaluation changes *)
Record stable (s s' : st) : Prop := {
  sb_cells : map_vals cell_meta (s_cells s') = map_vals cell_meta (s_cells s);
  sb_pools : map_vals pool_meta (s_pools s') = map_vals pool_meta (s_pools s);
  sb_started : s_started s' = s_started s;
  sb_finished : s_finished s' = s_finished s;
  sb_tally : s_tally s' = s_tally s;
  sb_timeout : s_timeout s' = s_timeout s;
  sb_start : s_start s' = s_start s }.
Lemma stable_closed : closed stable.
Proof.
  destruct (closed_any_scopes stable) as (A1 & A2 & A3 & A4).
  { intros s1 s2 s3 [] []. split; congruence. }
  { intros s x. now split. }
  split; try assumption.
  - intros s. now split.
  - intros s1 s2 s3 [] []. split; congruence.
  - intros s c x v H. split; auto; eapply map_vals_set; eauto.
  - intros s c x v H. split; auto; eapply map_vals_set; eauto.
  - intros s c x v H. split; auto; eapply map_vals_set; eauto.
  - intros s c x v H. split; auto; eapply map_vals_set; eauto.
  - intros s l. now split.
  - intros s l. now split.
  - intros s. now split.
  - intros s l. now split.
  - intros s l. now split.
Qed.
Lemma stable_body E n fs es s r s' : in_root fs (exec E n es) s = Done r s' -> stable s s'.
Proof. apply (pres_root _ stable_closed). apply (pres_exec _ stable_closed). Qed.

(** an entry after the body and the saved entry before it *)
Lemma meta_assoc {A B} (f : A -> B) (l l' : list (string * A)) k :
  map_vals f l' = map_vals f l -> option_map f (assoc k l') = option_map f (assoc k l).
Proof. intros H. rewrite <- !assoc_map_vals. now rewrite H. Qed.

Lemma restored_cells s s1 s2 c x :
  s_cells s1 = map_vals save_cell (s_cells s) -> stable s1 s2 ->
  assoc c (s_cells s) = Some x -> c_rollback x = true ->
  exists y, assoc c (s_cells (restore_all s2)) = Some y /\ c_value y = c_value x.
Proof.
  intros H1 H2 Hx Hr. pose proof (meta_assoc _ _ _ c (sb_cells _ _ H2)) as M.
  rewrite H1, assoc_map_vals, Hx in M. cbn in M.
  destruct (assoc c (s_cells s2)) as [y|] eqn:Hy; [|discriminate]. cbn in M.
  unfold save_cell, cell_meta in M. rewrite Hr in M. cbn in M. injection M as M1 M2 M3.
  exists (restore_cell y). cbn. rewrite assoc_map_vals, Hy. split; auto.
  unfold restore_cell. now rewrite M2.
Qed.
Lemma restored_pools s s1 s2 c x :
  s_pools s1 = map_vals save_pool (s_pools s) -> stable s1 s2 ->
  assoc c (s_pools s) = Some x -> p_rollback x = true ->
  exists y, assoc c (s_pools (restore_all s2)) = Some y /\ p_value y = p_value x.
Proof.
  intros H1 H2 Hx Hr. pose proof (meta_assoc _ _ _ c (sb_pools _ _ H2)) as M.
  rewrite H1, assoc_map_vals, Hx in M. cbn in M.
  destruct (assoc c (s_pools s2)) as [y|] eqn:Hy; [|discriminate]. cbn in M.
  unfold save_pool, pool_meta in M. rewrite Hr in M. cbn in M. injection M as M1 M2 M3.
  exists (restore_pool y). cbn. rewrite assoc_map_vals, Hy. split; auto.
  unfold restore_pool. now rewrite M2.
Qed.
Lemma kept_cells s s1 s2 c x :
  s_cells s1 = map_vals save_cell (s_cells s) -> stable s1 s2 ->
  assoc c (s_cells s) = Some x -> c_rollback x = false ->
  assoc c (s_cells (restore_all s2)) = assoc c (s_cells s2).
Proof.
  intros H1 H2 Hx Hr. pose proof (meta_assoc _ _ _ c (sb_cells _ _ H2)) as M.
  rewrite H1, assoc_map_vals, Hx in M. cbn in M.
  destruct (assoc c (s_cells s2)) as [y|] eqn:Hy; [|discriminate]. cbn in M.
  unfold save_cell, cell_meta in M. rewrite Hr in M. injection M as M1 M2 M3.
  cbn. rewrite assoc_map_vals, Hy. cbn. unfold restore_cell. rewrite M2, Hr. reflexivity.
Qed.
Lemma kept_pools s s1 s2 c x :
  s_pools s1 = map_vals save_pool (s_pools s) -> stable s1 s2 ->
  assoc c (s_pools s) = Some x -> p_rollback x = false ->
  assoc c (s_pools (restore_all s2)) = assoc c (s_pools s2).
Proof.
  intros H1 H2 Hx Hr. pose proof (meta_assoc _ _ _ c (sb_pools _ _ H2)) as M.
  rewrite H1, assoc_map_vals, Hx in M. cbn in M.
  destruct (assoc c (s_pools s2)) as [y|] eqn:Hy; [|discriminate]. cbn in M.
  unfold save_pool, pool_meta in M. rewrite Hr in M. injection M as M1 M2 M3.
  cbn. rewrite assoc_map_vals, Hy. cbn. unfold restore_pool. rewrite M2, Hr. reflexivity.
Qed.

(** ** The flags of the document *)
Definition cell_flags (x : cell) := (c_shared x, c_rollback x).
Definition pool_flags (x : pool) := (p_shared x, p_rollback x).
Record flags_of (D : doc) (s : st) : Prop := {
  fl_cells : map_vals cell_flags (s_cells s) = map_vals (fun d => (cd_shared d, cd_rollback d)) (d_cells D);
  fl_pools : map_vals pool_flags (s_pools s) = map_vals (fun d => (pd_shared d, pd_rollback d)) (d_pools D) }.
Lemma flags_load D : flags_of D (load D).
Proof. split; cbn; rewrite map_vals_map; reflexivity. Qed.
Lemma flags_save D s : flags_of D s -> flags_of D (save_all s).
Proof.
  intros [H1 H2]. split; cbn; rewrite map_vals_map; [rewrite <- H1|rewrite <- H2]; apply map_vals_ext.
  - intros x. unfold save_cell. destruct (c_rollback x) eqn:E; unfold cell_flags; cbn; rewrite ?E; auto.
  - intros x. unfold save_pool. destruct (p_rollback x) eqn:E; unfold pool_flags; cbn; rewrite ?E; auto.
Qed.
Lemma flags_restore D s : flags_of D s -> flags_of D (restore_all s).
Proof.
  intros [H1 H2]. split; cbn; rewrite map_vals_map; [rewrite <- H1|rewrite <- H2]; apply map_vals_ext.
  - intros x. unfold restore_cell. destruct (c_rollback x) eqn:E; unfold cell_flags; cbn; rewrite ?E; auto.
  - intros x. unfold restore_pool. destruct (p_rollback x) eqn:E; unfold pool_flags; cbn; rewrite ?E; auto.
Qed.
Lemma flags_stable D s s' : stable s s' -> flags_of D s -> flags_of D s'.
Proof.
  intros H [H1 H2]. split.
  - rewrite <- H1. pose proof (f_equal (map_vals (fun p => fst p)) (sb_cells _ _ H)) as X. rewrite !map_vals_map in X. exact X.
  - rewrite <- H2. pose proof (f_equal (map_vals (fun p => fst p)) (sb_pools _ _ H)) as X. rewrite !map_vals_map in X. exact X.
Qed.

(** ** One call *)
Lemma action_cases E D n input s r s' : action E D n input s = Done r s' ->
  (exists e, d_check D input = Raise e /\ r = Raise e /\ s' = s) \/
  (exists inp rb sb, d_check D input = Ok inp /\ body_runs E D n inp s rb sb /\ stable (prepare E D s) sb /\
     match rb with
     | Ok last => (r, s') = finish D last sb
     | Raise e => r = Raise e /\ s' = restore_all sb
     end).
Proof.
  unfold action. destruct (d_check D input) as [inp|e] eqn:Hc.
  - intros H. right. destruct (in_root _ _ _) as [rb sb| |] eqn:Hb; try discriminate.
    exists inp, rb, sb. split; auto. split; [|split].
    + exists (prepare E D s). repeat split; auto.
    + eapply stable_body; eauto.
    + destruct rb as [last|e].
      * destruct (finish D last sb). now injection H as -> ->.
      * now injection H as <- <-.
  - intros [= <- <-]. left. eauto.
Qed.
Lemma flags_action E D n input s r s' : action E D n input s = Done r s' -> flags_of D s -> flags_of D s'.
Proof.
  intros H F. apply action_cases in H as [(e & _ & _ & ->)|(inp & rb & sb & _ & _ & Hs & H)]; auto.
  assert (flags_of D sb) as Fb.
  { eapply flags_stable; eauto. unfold prepare. cbn zeta.
    pose proof (flags_save D (start E D RAction s)) as X. destruct X as [X1 X2]; [|split; [apply X1|apply X2]].
    split; apply F. }
  destruct rb as [last|e].
  - unfold finish in H. destruct (d_method D); injection H as -> ->; split; apply Fb.
  - destruct H as [_ ->]. now apply flags_restore.
Qed.
Lemma flags_merge E D n a b s r s' : merge E D n a b s = Done r s' -> flags_of D s -> flags_of D s'.
Proof.
  unfold merge. destruct (d_merge D) as [es|]; [|now intros [= _ <-]].
  intros H F. destruct (in_root _ _ _) as [rb sb| |] eqn:Hb; try discriminate.
  assert (flags_of D sb) as Fb.
  { eapply flags_stable; [eapply stable_body; eauto|]. apply flags_save. split; apply F. }
  destruct rb; injection H as _ <-.
  - split; apply Fb.
  - now apply flags_restore.
Qed.
Lemma stable_begin E D n s r s' : begin E D n s = Done r s' ->
  flags_of D s -> flags_of D s' /\ s_started s' = s_started s /\ s_finished s' = s_finished s /\ s_tally s' = s_tally s.
Proof.
  unfold begin. destruct (d_begin D) as [|e es]; [intros [= _ <-]; auto|].
  intros H F. unfold bind in H. destruct (in_root _ _ _) as [rb sb| |] eqn:Hb; try discriminate.
  assert (s' = sb) as -> by (destruct rb; now injection H).
  pose proof (stable_body _ _ _ _ _ _ _ Hb) as S. split.
  - eapply flags_stable; eauto. split; apply F.
  - destruct S. cbn in *. auto.
Qed.
Lemma stable_end E D n s r s' : end_ E D n s = Done r s' ->
  flags_of D s -> flags_of D s' /\ s_started s' = s_started s /\ s_finished s' = s_finished s /\ s_tally s' = s_tally s.
Proof.
  unfold end_. destruct (d_end D) as [|e es]; [intros [= _ <-]; auto|].
  intros H F. unfold bind in H. destruct (in_root _ _ _) as [rb sb| |] eqn:Hb; try discriminate.
  assert (s' = sb) as -> by (destruct rb; now injection H).
  pose proof (stable_body _ _ _ _ _ _ _ Hb) as S. split.
  - eapply flags_stable; eauto. split; apply F.
  - destruct S. cbn in *. auto.
Qed.
Lemma do_call_flags E D n c s r s' : do_call E D n c s = Done r s' -> flags_of D s -> flags_of D s'.
Proof.
  intros H F. destruct c; cbn [do_call] in H.
  - unfold bind in H. destruct (begin E D n s) as [[]| |] eqn:Hb; try discriminate; injection H as _ <-;
      now apply (stable_begin _ _ _ _ _ _ Hb).
  - eapply flags_action; eauto.
  - eapply flags_merge; eauto.
  - unfold bind in H. destruct (end_ E D n s) as [[]| |] eqn:Hb; try discriminate; injection H as _ <-;
      now apply (stable_end _ _ _ _ _ _ Hb).
Qed.
Lemma history_flags E D n cs : forall s rs s', history E D n cs s = Some (rs, s') -> flags_of D s -> flags_of D s'.
Proof.
  induction cs as [|c cs IH]; intros s rs s' H F; cbn in H.
  - now injection H as _ <-.
  - destruct (do_call E D n c s) as [r s1| |] eqn:Hc; try discriminate.
    destruct (history E D n cs s1) as [[rs1 s2]|] eqn:Hh; [|discriminate]. injection H as _ <-.
    eapply IH; eauto. eapply do_call_flags; eauto.
Qed.
Lemma reachable_flags E D s : reachable E D s -> flags_of D s.
Proof. intros (n & cs & rs & H). eapply history_flags; eauto. apply flags_load. Qed.

Lemma flags_cell D s c d : flags_of D s -> assoc c (d_cells D) = Some d ->
  exists x, assoc c (s_cells s) = Some x /\ c_shared x = cd_shared d /\ c_rollback x = cd_rollback d.
Proof.
  intros [H _] Hd. pose proof (f_equal (assoc c) H) as X. rewrite !assoc_map_vals, Hd in X. cbn in X.
  destruct (assoc c (s_cells s)) as [x|]; [|discriminate]. injection X as X1 X2. eauto.
Qed.
Lemma flags_pool D s c d : flags_of D s -> assoc c (d_pools D) = Some d ->
  exists x, assoc c (s_pools s) = Some x /\ p_shared x = pd_shared d /\ p_rollback x = pd_rollback d.
Proof.
  intros [_ H] Hd. pose proof (f_equal (assoc c) H) as X. rewrite !assoc_map_vals, Hd in X. cbn in X.
  destruct (assoc c (s_pools s)) as [x|]; [|discriminate]. injection X as X1 X2. eauto.
Qed.

(** ** Counters *)
Lemma action_counts E D n input s r s' : action E D n input s = Done r s' ->
  s_started s' = s_started s + (if enters D (CAction input) then 1 else 0) /\
  s_finished s' = s_finished s + (if returns (CAction input, r) then 1 else 0).
Proof.
  intros H. apply action_cases in H as [(e & Hc & -> & ->)|(inp & rb & sb & Hc & _ & Hs & H)].
  - cbn. rewrite Hc. lia.
  - cbn [enters]. rewrite Hc. pose proof (sb_started _ _ Hs) as H1. pose proof (sb_finished _ _ Hs) as H2. cbn in H1, H2.
    destruct rb as [last|e].
    + unfold finish in H. destruct (d_method D); injection H as -> ->; cbn; lia.
    + destruct H as [-> ->]. cbn. lia.
Qed.
Lemma call_counts E D n c s r s' : flags_of D s -> do_call E D n c s = Done r s' ->
  s_started s' = s_started s + (if enters D c then 1 else 0) /\
  s_finished s' = s_finished s + (if returns (c, r) then 1 else 0).
Proof.
  intros F H. destruct c; cbn [do_call] in H.
  - unfold bind in H. destruct (begin E D n s) as [[]| |] eqn:Hb; try discriminate; injection H as <- <-;
      apply (stable_begin _ _ _ _ _ _ Hb) in F as (_ & -> & -> & _); cbn; lia.
  - eapply action_counts; eauto.
  - assert (s_started s' = s_started s /\ s_finished s' = s_finished s) as [-> ->].
    { unfold merge in H. destruct (d_merge D) as [es|]; [|now injection H as _ <-].
      destruct (in_root _ _ _) as [rb sb| |] eqn:Hb; try discriminate.
      apply stable_body in Hb. pose proof (sb_started _ _ Hb) as H1. pose proof (sb_finished _ _ Hb) as H2. cbn in H1, H2.
      destruct rb; injection H as _ <-; cbn; auto. }
    cbn. lia.
  - unfold bind in H. destruct (end_ E D n s) as [[]| |] eqn:Hb; try discriminate; injection H as <- <-;
      apply (stable_end _ _ _ _ _ _ Hb) in F as (_ & -> & -> & _); cbn; lia.
Qed.
Lemma history_counts E D n cs : forall s rs s', flags_of D s -> history E D n cs s = Some (rs, s') ->
  length rs = length cs /\
  s_started s' = s_started s + count (enters D) cs /\
  s_finished s' = s_finished s + count returns (combine cs rs).
Proof.
  induction cs as [|c cs IH]; intros s rs s' F H; cbn in H.
  - injection H as <- <-. cbn. lia.
  - destruct (do_call E D n c s) as [r s1| |] eqn:Hc; try discriminate.
    destruct (history E D n cs s1) as [[rs1 s2]|] eqn:Hh; [|discriminate]. injection H as <- <-.
    pose proof (call_counts _ _ _ _ _ _ _ F Hc) as [C1 C2].
    apply IH in Hh as (L & H1 & H2); [|eapply do_call_flags; eauto].
    cbn [combine count length]. split; [now f_equal|]. lia.
Qed.
Lemma count_nonneg {A} (p : A -> bool) l : 0 <= count p l.
Proof. induction l as [|x l IH]; cbn; [lia|]. destruct (p x); lia. Qed.

(** ** Fold *)
Lemma fold_action E D n input inp s r s' : d_method D = MFold -> d_check D input = Ok inp ->
  action E D n input s = Done r s' ->
  exists rb sb, body_runs E D n inp s rb sb /\ r = rb /\
    s_tally s' = match rb with Ok v => v | Raise _ => s_tally s end.
Proof.
  intros Hm Hc H. apply action_cases in H as [(e & Hc' & _)|(inp' & rb & sb & Hc' & Hb & Hs & H)]; [congruence|].
  assert (inp' = inp) as -> by congruence. exists rb, sb. split; auto.
  pose proof (sb_tally _ _ Hs) as Ht. cbn in Ht. destruct rb as [last|e].
  - unfold finish in H. rewrite Hm in H. injection H as -> ->. auto.
  - destruct H as [-> ->]. cbn. auto.
Qed.
