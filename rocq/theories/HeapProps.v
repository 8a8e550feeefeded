(** C71: values are never changed in place. *)
From Coq Require Import Lia.
From Verif Require Import Base ScopeModel CoreModel HeapModel HeapSpec HeapProofs HeapCalls.
From Verif Require ReadProofs.
Open Scope string_scope.
Open Scope list_scope.
Open Scope Z_scope.

(** Every history of calls without an in-place update does the same with objects as with values: the same calls fail in
    the same way, and in the end variables, cells and pools stand for the values that they have. *)
Theorem C71_refines : forall cs s t, matches false s t -> Forall pure_call cs ->
  fst (hhistory cs s) = fst (vhistory cs t) /\ matches false (snd (hhistory cs s)) (snd (vhistory cs t)).
Proof. intros cs s t Mt F. destruct (history_rel cs s t Mt F) as (A & B & _). auto. Qed.

(** Whatever a reference stands for, it stands for it for ever; and what was held is still held. *)
Theorem C71_immutable : forall cs s t r v, matches false s t -> Forall pure_call cs ->
  denotes (owned false s) (hs_heap s) r v -> denotes (owned false (snd (hhistory cs s))) (hs_heap (snd (hhistory cs s))) r v.
Proof. intros cs s t r v Mt F D. destruct (history_rel cs s t Mt F) as (_ & _ & (C & _)). now apply (denotes_carries _ _ _ _ C). Qed.
Theorem C71_held : forall cs s t i r, matches false s t -> Forall pure_call cs -> nth_error (hs_held s) i = Some r ->
  nth_error (hs_held (snd (hhistory cs s))) i = Some r
  /\ exists v, nth_error (vs_held t) i = Some v /\ denotes (owned false s) (hs_heap s) r v
            /\ denotes (owned false (snd (hhistory cs s))) (hs_heap (snd (hhistory cs s))) r v.
Proof.
  intros cs s t i r Mt F E. destruct (history_rel cs s t Mt F) as (_ & _ & (C & (x & P))). split.
  - rewrite P. rewrite nth_error_app1; auto. eauto using nth_error_length.
  - pose proof (at_rel _ _ _ i (proj1 (all_denote_iff _ _ _ _) (m_held _ _ _ Mt))) as A. unfold at_ in A. rewrite E in A.
    destruct (nth_error (vs_held t) i) as [v|]; [|tauto]. exists v. split; [auto|]. split; [auto|]. now apply (denotes_carries _ _ _ _ C).
Qed.

(** A failing action leaves the cells and the pools marked for rollback with the contents they had. *)
Lemma assoc_map {A B} (f : A -> B) k l : assoc k (map (on_snd f) l) = option_map f (assoc k l).
Proof. induction l as [|[k' x] l IH]; simpl; auto. destruct (String.eqb k k'); auto. Qed.
Lemma assoc_tags {A B} (f : A -> B) k l l' x : map (fun p : string * A => (fst p, f (snd p))) l = map (fun p => (fst p, f (snd p))) l' ->
  assoc k l' = Some x -> exists y, assoc k l = Some y /\ f y = f x.
Proof.
  intros E A'. assert (Q : forall l, assoc k (map (fun p : string * A => (fst p, f (snd p))) l) = option_map f (assoc k l)) by (intros; apply assoc_map).
  pose proof (Q l) as Q1. rewrite E, Q, A' in Q1. destruct (assoc k l) as [y|]; inversion Q1. eauto.
Qed.
Lemma failed_call body s t e s' : matches false s t -> pures body -> hcall (Guarded body) s = (Raise e, s') ->
  exists t', matches false s' (vrestore t') /\ tags t' = tags (vsave t).
Proof.
  intros Mt Pu H. destruct (call_rel (Guarded body) s t Mt Pu) as (E & M' & _). rewrite H in E, M'. simpl in E, M'.
  pose proof (quiet_runs body (vsave t)) as Q. destruct (vruns body (vsave t)) as [[u|e'] t']; simpl in *; [discriminate|]. eauto.
Qed.
Theorem C71_rollback : forall body s t e s', matches false s t -> pures body -> hcall (Guarded body) s = (Raise e, s') ->
  (forall c x, assoc c (hs_cells s) = Some x -> hc_rollback x = true ->
     exists x' v, assoc c (hs_cells s') = Some x' /\ denotes (owned false s) (hs_heap s) (hc_value x) v /\ denotes (owned false s') (hs_heap s') (hc_value x') v)
  /\ (forall p x, assoc p (hs_pools s) = Some x -> hp_rollback x = true ->
     exists x' d, assoc p (hs_pools s') = Some x' /\ dict_denotes (owned false s) (hs_heap s) (hp_value x) d /\ dict_denotes (owned false s') (hs_heap s') (hp_value x') d).
Proof.
  intros body s t e s' Mt Pu H. destruct (failed_call _ _ _ _ _ Mt Pu H) as (t' & M' & T). injection T as Tc Tp. split.
  - intros c x Ex Rx. pose proof (assoc_named _ c _ _ (m_cells _ _ _ Mt)) as K. rewrite Ex in K.
    destruct (assoc c (vs_cells t)) as [y|] eqn:Ey; [|tauto]. destruct K as (R & V & _).
    assert (Es : assoc c (vs_cells (vsave t)) = Some (vsave_cell y)).
    { unfold vsave. simpl. change (fun p : string * vcell => _) with (@on_snd string _ _ vsave_cell). now rewrite assoc_map, Ey. }
    destruct (assoc_tags (fun x => (vc_old x, vc_rollback x)) _ _ _ _ Tc Es) as (z & Ez & Tz).
    pose proof (assoc_named _ c _ _ (m_cells _ _ _ M')) as K'.
    assert (Er : assoc c (vs_cells (vrestore t')) = Some (vrestore_cell z)).
    { unfold vrestore. simpl. change (fun p : string * vcell => _) with (@on_snd string _ _ vrestore_cell). now rewrite assoc_map, Ez. }
    rewrite Er in K'. destruct (assoc c (hs_cells s')) as [x'|]; [|tauto]. destruct K' as (R' & V' & _).
    exists x', (vc_value y). split; [auto|]. split; [auto|]. unfold vsave_cell in Tz; simpl in Tz. rewrite <- R, Rx in Tz. injection Tz as Oz Rz.
    unfold vrestore_cell in V'. rewrite Oz, Rz in V'. exact V'.
  - intros c x Ex Rx. pose proof (assoc_named _ c _ _ (m_pools _ _ _ Mt)) as K. rewrite Ex in K.
    destruct (assoc c (vs_pools t)) as [y|] eqn:Ey; [|tauto]. destruct K as (R & V & _).
    assert (Es : assoc c (vs_pools (vsave t)) = Some (vsave_pool y)).
    { unfold vsave. simpl. change (fun p : string * vpool => _) with (@on_snd string _ _ vsave_pool). now rewrite assoc_map, Ey. }
    destruct (assoc_tags (fun x => (vp_old x, vp_rollback x)) _ _ _ _ Tp Es) as (z & Ez & Tz).
    pose proof (assoc_named _ c _ _ (m_pools _ _ _ M')) as K'.
    assert (Er : assoc c (vs_pools (vrestore t')) = Some (vrestore_pool z)).
    { unfold vrestore. simpl. change (fun p : string * vpool => _) with (@on_snd string _ _ vrestore_pool). now rewrite assoc_map, Ez. }
    rewrite Er in K'. destruct (assoc c (hs_pools s')) as [x'|]; [|tauto]. destruct K' as (R' & V' & _).
    exists x', (vp_value y). split; [auto|]. split; [auto|]. unfold vsave_pool in Tz; simpl in Tz. rewrite <- R, Rx in Tz. injection Tz as Oz Rz.
    unfold vrestore_pool in V'. rewrite Oz, Rz in V'. exact V'.
Qed.

(** The values are those of CoreModel: an update with a value is its update. *)
Theorem C71_update : forall w v path ae me (t : vst) (s : st),
  snd (vupdate (fun _ => mret w) v path ae me t) = t
  /\ update_path (fun _ => CoreModel.ret w) v path ae me s = Done (fst (vupdate (fun _ => mret w) v path ae me t)) s.
Proof.
  intros w v path ae me t s. revert v; induction path as [|k path IH]; intros v; [now split|].
  assert (Rep : forall i (x : val) l, replace i x l = replace_nth i x l).
  { intros i x l; revert i; induction l as [|y l IHl]; intros [|i]; simpl; auto. now rewrite IHl. }
  cbn [vupdate update_path]. destruct v as [| | | | | |l|d], k as [| |i| |kk| | |]; try (now split); try (destruct path; now split).
  - destruct (_ || _)%bool; [now split|]. destruct (_ <=? _); [now split|].
    unfold mbind, CoreModel.bind. destruct (IH (nth (Z.to_nat i) l VNull)) as [A B]. rewrite B.
    destruct (vupdate _ _ path ae me t) as [[x|e] t']; simpl in *; subst; split; auto. now rewrite Rep.
  - destruct (assoc kk d) as [x0|]; [|destruct path; now split].
    unfold mbind, CoreModel.bind. destruct (IH x0) as [A B]. rewrite B.
    destruct (vupdate _ _ path ae me t) as [[x|e] t']; simpl in *; subst; now split.
Qed.

(** Every state of values is the state of some heap: any document can be loaded. *)
Lemma denotes_app h x :
  (forall r v, denotes [] h r v -> denotes [] (h ++ x) r v) /\ (forall l v, all_denote [] h l v -> all_denote [] (h ++ x) l v)
  /\ (forall l v, fields_denote [] h l v -> fields_denote [] (h ++ x) l v).
Proof. apply denotes_carries, carries_app. Qed.
Lemma load_list (l : list val) : (forall v, In v l -> forall h, exists x r, denotes [] (h ++ x) r v) ->
  forall h, exists x rs, all_denote [] (h ++ x) rs l.
Proof.
  induction l as [|v l IH]; intros H h; [exists [], []; constructor|].
  destruct (H v (or_introl eq_refl) h) as (x & r & D). destruct (IH (fun v I => H v (or_intror I)) (h ++ x)) as (y & rs & A).
  exists (x ++ y), (r :: rs). rewrite app_assoc. constructor; auto. now apply denotes_app.
Qed.
Lemma load_dict (d : list (string * val)) : (forall k v, In (k, v) d -> forall h, exists x r, denotes [] (h ++ x) r v) ->
  forall h, exists x rs, fields_denote [] (h ++ x) rs d.
Proof.
  induction d as [|[k v] d IH]; intros H h; [exists [], []; constructor|].
  destruct (H k v (or_introl eq_refl) h) as (x & r & D). destruct (IH (fun k v I => H k v (or_intror I)) (h ++ x)) as (y & rs & A).
  exists (x ++ y), ((k, r) :: rs). rewrite app_assoc. constructor; auto. now apply denotes_app.
Qed.
Lemma load_val v : forall h, exists x r, denotes [] (h ++ x) r v.
Proof.
  induction v as [| | | | | |l H|d H] using ReadProofs.val_ind2; intros h; try (eexists [], (RFlat _); now constructor).
  - destruct (load_list l H h) as (x & rs & A). exists (x ++ [OArr rs]), (RObj (length (h ++ x))). rewrite app_assoc.
    eapply d_arr; [now intros J| apply nth_alloc|now apply denotes_app].
  - destruct (load_dict d H h) as (x & rs & A). exists (x ++ [ODict rs]), (RObj (length (h ++ x))). rewrite app_assoc.
    eapply d_dict; [now intros J| apply nth_alloc|now apply denotes_app].
Qed.
Lemma load_cells (l : list (string * vcell)) : forall h, exists x l', Forall2 (named (cell_matches [] (h ++ x) false)) l' l.
Proof.
  induction l as [|[k y] l IH]; intros h; [exists [], []; constructor|].
  destruct (load_val (vc_value y) h) as (x & r & D). destruct (IH (h ++ x)) as (z & l' & F).
  exists (x ++ z), ((k, HCell r None (vc_rollback y)) :: l'). rewrite app_assoc. constructor; auto. split; simpl; auto.
  split; [auto|]. split; [now apply denotes_app|exact I].
Qed.
Lemma load_pools (l : list (string * vpool)) : forall h, exists x ds, Forall2 (named (fun d y => fields_denote [] (h ++ x) d (vp_value y))) ds l.
Proof.
  induction l as [|[k y] l IH]; intros h; [exists [], []; constructor|].
  destruct (load_dict (vp_value y) (fun _ v _ => load_val v) h) as (x & r & D). destruct (IH (h ++ x)) as (z & ds & F).
  exists (x ++ z), ((k, r) :: ds). rewrite app_assoc. constructor; auto. split; simpl; auto. now apply denotes_app.
Qed.
Fixpoint place (n : nat) (ds : list (string * list (string * ref))) (l : list (string * vpool)) : list (string * hpool) :=
  match ds, l with
  | (k, d) :: ds', (_, y) :: l' => (k, HPool n None (vp_rollback y)) :: place (S n) ds' l'
  | _, _ => []
  end.
Theorem C71_realised : forall t, exists s, matches false s t.
Proof.
  intros t. destruct (load_list (vs_held t) (fun v _ => load_val v) []) as (x1 & rs & A).
  destruct (load_cells (vs_cells t) ([] ++ x1)) as (x2 & cs & C).
  destruct (load_pools (vs_pools t) (([] ++ x1) ++ x2)) as (x3 & ds & P).
  set (h := (([] ++ x1) ++ x2) ++ x3) in *. set (ps := place (length h) ds (vs_pools t)).
  exists (HSt (h ++ map (fun p => ODict (snd p)) ds) rs cs ps).
  assert (L : forall ds l n, map (fun p => hp_value (snd p)) (place n ds l) = seq n (length (place n ds l))).
  { clear. induction ds as [|[k d] ds IH]; intros [|[k' y] l] n; simpl; auto. now rewrite IH. }
  assert (Own : owned false (HSt (h ++ map (fun p => ODict (snd p)) ds) rs cs ps) = seq (length h) (length ps)).
  { unfold owned; simpl. rewrite app_nil_r. unfold ps. apply L. }
  assert (Ca : carries [] h (seq (length h) (length ps)) (h ++ map (fun p => ODict (snd p)) ds)).
  { intros a o _ E. split; [|rewrite nth_error_app1; eauto using nth_error_length]. apply nth_error_length in E. rewrite in_seq. lia. }
  destruct (denotes_carries _ _ _ _ Ca) as (D1 & D2 & D3).
  split; rewrite ?Own; simpl.
  - apply seq_NoDup.
  - apply D2. unfold h. rewrite <- app_assoc. now apply denotes_app.
  - revert C. apply Forall2_impl. intros c y [E Q]; split; auto. eapply carries_cell; [exact Ca|].
    unfold h. eapply carries_cell; [apply carries_app|]. exact Q.
  - unfold ps at 2. clear Own L. generalize (seq (length h) (length ps)) Ca D3. intros own _ D3'. clear Ca D1 D2 D3.
    assert (G : forall ds0 hh, h ++ map (fun p => ODict (snd p)) ds = hh ++ map (fun p => ODict (snd p)) ds0 -> forall l,
              Forall2 (named (fun d y => fields_denote [] h d (vp_value y))) ds0 l ->
              Forall2 (named (pool_matches own (h ++ map (fun p => ODict (snd p)) ds) false)) (place (length hh) ds0 l) l).
    { induction ds0 as [|[k d] ds0 IH]; intros hh E l F; inversion F as [|? [k' y] ? l' [Ek Fk] F']; subst; simpl; [constructor|].
      simpl in Ek; subst k'. constructor.
      - split; simpl; auto. split; [auto|]. split; [|exact I]. exists d. split; [|now apply D3'].
        simpl. rewrite E. simpl. rewrite nth_error_app2 by lia. now rewrite Nat.sub_diag.
      - replace (S (length hh)) with (length (hh ++ [ODict d])) by (rewrite app_length; simpl; lia). apply IH; auto.
        rewrite E. simpl. now rewrite <- app_assoc. }
    now apply G.
Qed.

(** ** Not so with model.reg.updateChi2 *)
(** A cell with a record, marked for rollback. The action takes it out, updates it with updateChi2 and fails. *)
Definition F1 := SpecFloat.S754_finite false 4503599627370496 (-52).
Definition F2 := SpecFloat.S754_finite false 4503599627370496 (-51).
Definition F5 := SpecFloat.S754_finite false 5629499534213120 (-50).
Definition chi_heap : heap := [ODict [("chi2", RFlat (VFlt F1)); ("DOF", RFlat (VInt 1))]].
Definition chi_state : hst := HSt chi_heap [RFlat (VFlt F5); RFlat (VFlt F2)] [("c", HCell (RObj 0) None true)] [].
Definition chi_action : cmds := Then (CellGet "c" []) (Then (SetKey 2 "chi2" 0) (Then (SetKey 2 "DOF" 1) (Then (Fail (UserErr "too far" None)) Done_))).
Definition chi_before := VDict [("chi2", VFlt F1); ("DOF", VInt 1)].
Definition chi_after := VDict [("chi2", VFlt F5); ("DOF", VFlt F2)].
Lemma chi_matches : matches false chi_state (VSt [VFlt F5; VFlt F2] [("c", VCell chi_before None true)] []).
Proof.
  split.
  - constructor.
  - repeat constructor.
  - constructor; [|constructor]. split; [reflexivity|]. split; [reflexivity|]. split; [|exact I].
    eapply d_dict; [intros []|reflexivity|]. repeat constructor.
  - constructor.
Qed.
(** The claim of C71_rollback fails when an in-place update is allowed: the cell that should have been restored holds the new
    numbers (and DOF, declared as an int, has become a float). *)
Theorem C71_in_place_refuted :
  exists s t body s', matches false s t /\ hcall (Guarded body) s = (Raise (UserErr "too far" None), s')
    /\ (exists x, assoc "c" (hs_cells s) = Some x /\ hc_rollback x = true /\ denotes (owned false s) (hs_heap s) (hc_value x) chi_before)
    /\ (exists x, assoc "c" (hs_cells s') = Some x /\ denotes (owned false s') (hs_heap s') (hc_value x) chi_after)
    /\ assoc "c" (vs_cells (snd (vcall (Guarded body) t))) = Some (VCell chi_before (Some chi_before) true).
Proof.
  eexists chi_state, _, chi_action, _. split; [exact chi_matches|]. split; [reflexivity|].
  split; [eexists; split; [reflexivity|]; split; [reflexivity|]|split].
  - eapply d_dict; [intros []|reflexivity|]. repeat constructor.
  - eexists; split; [reflexivity|]. eapply d_dict; [intros []|reflexivity|]. repeat constructor.
  - reflexivity.
Qed.
(** The caller of the engine gets references too. An engine whose action gives the value of a cell gives away the object of the cell:
    when the caller then changes what they were given, here with SetKey between two calls, the cell changes. *)
Theorem C71_caller_refuted :
  exists s t body, matches false s t /\ pures body
    /\ (let s1 := snd (hcall (Guarded body) s) in
        fst (hcall (Guarded body) s) = Ok tt
        /\ (exists x, assoc "c" (hs_cells s1) = Some x /\ denotes (owned false s1) (hs_heap s1) (hc_value x) chi_before)
        /\ let s2 := snd (hrun (SetKey 2 "chi2" 0) s1) in
           exists x, assoc "c" (hs_cells s2) = Some x /\ ~ denotes (owned false s2) (hs_heap s2) (hc_value x) chi_before).
Proof.
  exists chi_state, (VSt [VFlt F5; VFlt F2] [("c", VCell chi_before None true)] []), (Then (CellGet "c" []) Done_).
  split; [exact chi_matches|]. split; [repeat constructor|]. split; [reflexivity|]. split.
  - eexists; split; [reflexivity|]. eapply d_dict; [intros []|reflexivity|]. repeat constructor.
  - eexists; split; [reflexivity|]. intros D. inversion D as [| |? ? ? _ E A]; subst. simpl in E. inversion E; subst.
    inversion A as [|? ? ? ? ? D1]; subst. inversion D1.
Qed.

(** ** Examples *)
(** A state with a pool and a cell, both marked for rollback; held: the number 7 and the array [7]. *)
Definition shop : vst :=
  VSt [VInt 7; VArr [VInt 7]] [("last", VCell (VArr [VInt 1; VInt 2]) None true); ("count", VCell (VInt 0) None false)]
      [("stock", VPool [("tea", VArr [VInt 3; VInt 4]); ("rice", VInt 5)] None true)].
Definition shop_heap : hst :=
  HSt [OArr [RFlat (VInt 7)]; OArr [RFlat (VInt 1); RFlat (VInt 2)]; OArr [RFlat (VInt 3); RFlat (VInt 4)]; ODict [("tea", RObj 2); ("rice", RFlat (VInt 5))]]
      [RFlat (VInt 7); RObj 0] [("last", HCell (RObj 1) None true); ("count", HCell (RFlat (VInt 0)) None false)] [("stock", HPool 3 None true)].
(** take the tea out of the pool, put it into the cell, change the tea in the pool, delete the rice, count, fail *)
Definition sale : cmds :=
  Then (PoolGet "stock" (VStr "tea") []) (Then (CellTo "last" [] (ToVal 2)) (Then (PoolTo "stock" "tea" [VInt 0] (ToVal 0) 0)
    (Then (PoolDel "stock" "rice") (Then (CellTo "count" [] (ToFcn (Then (Flat (VInt 1)) Done_))) Done_)))).
Definition failing_sale : cmds := Then (Try sale) (Then (Get 1 [VInt 9]) Done_).
Lemma shop_matches : matches false shop_heap shop.
Proof.
  split.
  - repeat constructor. intros [].
  - constructor; [now constructor|]. constructor; [|constructor]. eapply d_arr; [intros [H|[]]; discriminate|reflexivity|]. repeat constructor.
  - constructor; [|constructor; [|constructor]]; (split; [reflexivity|]; split; [reflexivity|]; split; [|exact I]).
    + eapply d_arr; [intros [H|[]]; discriminate|reflexivity|]. repeat constructor.
    + now constructor.
  - constructor; [|constructor]. split; [reflexivity|]. split; [reflexivity|]. split; [|exact I].
    eexists; split; [reflexivity|]. constructor; [|repeat constructor].
    eapply d_arr; [intros [H|[]]; discriminate|reflexivity|]. repeat constructor.
Qed.
Example sale_pure : Forall pure_call [Guarded failing_sale; Guarded sale].
Proof. repeat constructor. Qed.
(** the second call sees what the first one had before it *)
Example sale_history :
  let '(rs, t) := vhistory [Guarded failing_sale; Guarded sale] shop in
  rs = [Raise (PFAErr 2000); Ok tt]
  /\ map (fun p => vc_value (snd p)) (vs_cells t) = [VArr [VInt 3; VInt 4]; VInt 1]
  /\ map (fun p => vp_value (snd p)) (vs_pools t) = [[("tea", VArr [VInt 7; VInt 4])]]
  /\ fst (hhistory [Guarded failing_sale; Guarded sale] shop_heap) = rs.
Proof. vm_compute. repeat split. Qed.
Example sale_fails : exists s', hcall (Guarded failing_sale) shop_heap = (Raise (PFAErr 2000), s')
  /\ map (fun p => hc_value (snd p)) (hs_cells s') = [RObj 1; RFlat (VInt 1)] /\ map (fun p => hp_value (snd p)) (hs_pools s') = [4%nat].
Proof. eexists. split; [reflexivity|]. split; reflexivity. Qed.
Print Assumptions C71_refines.
Print Assumptions C71_immutable.
Print Assumptions C71_held.
Print Assumptions C71_rollback.
Print Assumptions C71_update.
Print Assumptions C71_realised.
Print Assumptions C71_in_place_refuted.
Print Assumptions C71_caller_refuted.
