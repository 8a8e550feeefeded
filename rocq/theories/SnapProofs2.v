From Verif Require Import Base PyNum ScopeModel TypeModel TypeSpec TypeProofs TypeProofs2.
From Verif Require Import JsonModel JsonSpec JsonFuel JsonProofs JsonProofs2 SnapModel SnapSpec SnapProofs.
Open Scope string_scope.
Open Scope list_scope.
Open Scope Z_scope.

Lemma NoDup_in {A} (d : list (string * A)) k x : NoDup (map fst d) -> In (k, x) d -> assoc k d = Some x.
Proof. apply assoc_In_NoDup. Qed.
(** a loop over a dict that keeps the keys *)
Lemma rmapM_dict {A B} (f : string * A -> res (string * B)) d d' : NoDup (map fst d) -> (forall p q, f p = Ok q -> fst q = fst p) -> rmapM f d = Ok d' ->
  map fst d' = map fst d /\
  forall k, match assoc k d with Some x => exists y, f (k, x) = Ok (k, y) /\ assoc k d' = Some y | None => assoc k d' = None end.
Proof.
  intros Nd Hf E. apply rmapM_ok_Forall2 in E. induction E as [|[k x] [k' y] d d' Exy F IH]; [split; [reflexivity|intros k; reflexivity]|].
  pose proof (Hf _ _ Exy) as Ek. cbn [fst] in Ek. subst k'. cbn [map fst] in *. inversion_clear Nd as [|? ? Hn Nd']. destruct (IH Nd') as [I1 I2].
  split; [congruence|]. intros k0. cbn [assoc]. destruct (String.eqb_spec k0 k) as [->|]; [eauto|apply I2].
Qed.

Section Engine.
  Context {R : Type} (P : parsers) (fetch : string -> string -> res val).

  Definition cell_of (a : cell_ast) (x : item val) : cell_ast := CellAst (ca_type a) (Text (it_value x)) (it_shared x) (it_rollback x) (it_source x).
  Definition pool_of (a : pool_ast) (x : item (list (string * val))) : pool_ast := PoolAst (pa_type a) (it_value x) (it_shared x) (it_rollback x) (it_source x).
  Definition plain (e : engine R) : Prop :=
    (forall k x, In (k, x) (en_cells e) -> has_bytes (it_value x) = false) /\
    (forall k x i v, In (k, x) (en_pools e) -> In (i, v) (it_value x) -> has_bytes v = false).
  (** what the snapshot says *)
  Definition records (e : engine R) (c : config R) : Prop :=
    map fst (cf_cells c) = map fst (en_cells e) /\ map fst (cf_pools c) = map fst (en_pools e) /\
    (forall k, match assoc k (en_cells e) with
               | Some x => exists a, assoc k (cf_cells (en_config e)) = Some a /\ assoc k (cf_cells c) = Some (cell_of a x)
               | None => assoc k (cf_cells c) = None
               end) /\
    (forall k, match assoc k (en_pools e) with
               | Some x => exists a, assoc k (cf_pools (en_config e)) = Some a /\ assoc k (cf_pools c) = Some (pool_of a x)
               | None => assoc k (cf_pools c) = None
               end) /\
    cf_defs c = cf_defs (en_config e) /\ cf_fold c = cf_fold (en_config e) /\ cf_rest c = cf_rest (en_config e).

  Lemma in_keys {A} k (x : A) (d : list (string * A)) : In (k, x) d -> In k (map fst d).
  Proof. intros H. apply in_map_iff. now exists (k, x). Qed.
  Lemma dumps_all d : (forall i v, In (i, v) d -> has_bytes v = false) ->
    rmapM (fun p : string * val => w <- dumps (snd p) ;; Ok (fst p, w)) d = Ok d.
  Proof.
    induction d as [|[i v] d IH]; intros H; [reflexivity|]. cbn [rmapM fst snd]. unfold dumps at 1. rewrite (H i v) by now left. cbn [rbind].
    rewrite IH by (intros; eapply H; right; eassumption). reflexivity.
  Qed.
  Lemma snapshot_cell_ok (e : engine R) k x : own e -> plain e -> In (k, x) (en_cells e) ->
    exists a, assoc k (cf_cells (en_config e)) = Some a /\ snapshot_cell (en_config e) (k, x) = Ok (k, cell_of a x).
  Proof.
    intros (_ & _ & Kc & _ & Fc & _) [Pc _] H. cbn [snapshot_cell].
    destruct (assoc k (cf_cells (en_config e))) as [a|] eqn:E.
    - exists a. split; [reflexivity|]. unfold dumps. rewrite (Pc k x H). cbn [rbind]. unfold make_cell.
      assert (S : (it_shared x && it_rollback x)%bool = false) by (destruct (it_shared x) eqn:E1; [rewrite (Fc k x H E1); reflexivity|reflexivity]). now rewrite S.
    - apply assoc_None in E. destruct E. apply (Kc k), (in_keys _ x), H.
  Qed.
  Lemma snapshot_pool_ok (e : engine R) k x : own e -> plain e -> In (k, x) (en_pools e) ->
    exists a, assoc k (cf_pools (en_config e)) = Some a /\ snapshot_pool (en_config e) (k, x) = Ok (k, pool_of a x).
  Proof.
    intros (_ & _ & _ & Kc & _ & Fc) [_ Pc] H. cbn [snapshot_pool].
    destruct (assoc k (cf_pools (en_config e))) as [a|] eqn:E.
    - exists a. split; [reflexivity|]. rewrite dumps_all by (intros i v; apply (Pc k x i v H)). cbn [rbind]. unfold make_pool.
      assert (S : (it_shared x && it_rollback x)%bool = false) by (destruct (it_shared x) eqn:E1; [rewrite (Fc k x H E1); reflexivity|reflexivity]). now rewrite S.
    - apply assoc_None in E. destruct E. apply (Kc k), (in_keys _ x), H.
  Qed.
  Lemma snapshot_ok (e : engine R) : own e -> plain e -> exists c, snapshot e = Ok c /\ records e c.
  Proof.
    intros O Pl. unfold snapshot.
    destruct (rmapM_total (snapshot_cell (en_config e)) (en_cells e)) as [cs Ec].
    { intros [k x] H. destruct (snapshot_cell_ok e k x O Pl H) as (a & _ & E). eauto. }
    destruct (rmapM_total (snapshot_pool (en_config e)) (en_pools e)) as [ps Ep].
    { intros [k x] H. destruct (snapshot_pool_ok e k x O Pl H) as (a & _ & E). eauto. }
    rewrite Ec, Ep. cbn [rbind]. eexists. split; [reflexivity|]. destruct O as (Nc & Np & O).
    destruct (fun H => rmapM_dict _ _ _ Nc H Ec) as [K1 G1].
    { intros [k x] q. cbn [snapshot_cell fst]. destruct (assoc k (cf_cells (en_config e))); [|cbn [rbind]; discriminate]. unfold dumps, make_cell, syntax_error. destruct (has_bytes _); [cbn [rbind]; discriminate|]. cbn [rbind].
      destruct (_ && _)%bool; [cbn [rbind]; discriminate|]. cbn [rbind]. now injection 1 as <-. }
    destruct (fun H => rmapM_dict _ _ _ Np H Ep) as [K2 G2].
    { intros [k x] q. cbn [snapshot_pool fst]. destruct (assoc k (cf_pools (en_config e))); [|cbn [rbind]; discriminate]. match goal with |- rbind ?m _ = _ -> _ => destruct m end; [|cbn [rbind]; discriminate]. cbn [rbind].
      unfold make_pool, syntax_error. destruct (it_shared x && it_rollback x)%bool; cbn [rbind]; [discriminate|]. cbn [rbind]. now injection 1 as <-. }
    unfold records. cbn [cf_cells cf_pools cf_defs cf_fold cf_rest]. split; [exact K1|]. split; [exact K2|]. split; [|split; [|auto]].
    - intros k. specialize (G1 k). destruct (assoc k (en_cells e)) as [x|] eqn:E; [|exact G1]. destruct G1 as (y & Ey & Ay).
      destruct (snapshot_cell_ok e k x (conj Nc (conj Np O)) Pl (assoc_In _ _ _ E)) as (a & Ea & E2). exists a. split; [exact Ea|]. rewrite E2 in Ey. injection Ey as <-. exact Ay.
    - intros k. specialize (G2 k). destruct (assoc k (en_pools e)) as [x|] eqn:E; [|exact G2]. destruct G2 as (y & Ey & Ay).
      destruct (snapshot_pool_ok e k x (conj Nc (conj Np O)) Pl (assoc_In _ _ _ E)) as (a & Ea & E2). exists a. split; [exact Ea|]. rewrite E2 in Ey. injection Ey as <-. exact Ay.
  Qed.

  (** *** Loading *)
  Definition empty : shared_state := Shared [] [].
  Section Two.
    Context {A V : Type} (sh : A -> bool) (make : A -> res V).
    Lemma two_ok l : NoDup (map fst l) -> (forall k a, In (k, a) l -> exists v, make a = Ok v) ->
      exists d1 d2, put_all (fun k a d => sh a && missing k d)%bool make l [] = Ok d1 /\ put_all (fun _ a _ => negb (sh a)) make l d1 = Ok d2.
    Proof.
      intros Nd H. destruct (put_ok (fun k a d => sh a && missing k d)%bool make sh l [] Nd) as [d1 E1].
      - intros k a d' _ E. unfold missing. rewrite E. cbn. apply andb_true_r.
      - eauto.
      - destruct (put_ok (fun _ a _ => negb (sh a)) make (fun a => negb (sh a)) l d1 Nd) as [d2 E2]; [auto|eauto|]. eauto.
    Qed.
    Lemma two_inv l d1 d2 : NoDup (map fst l) -> put_all (fun k a d => sh a && missing k d)%bool make l [] = Ok d1 -> put_all (fun _ a _ => negb (sh a)) make l d1 = Ok d2 ->
      forall k, match assoc k l with Some a => exists v, make a = Ok v /\ assoc k d2 = Some v | None => assoc k d2 = None end.
    Proof.
      intros Nd E1 E2 k. assert (G1 := put_inv _ make sh l [] d1 Nd (fun k a d' _ E => eq_trans (f_equal (fun o => andb (sh a) (match o with Some _ => false | None => true end)) E) (andb_true_r _)) E1 k).
      assert (G2 := put_inv _ make (fun a => negb (sh a)) l d1 d2 Nd (fun k a d' _ _ => eq_refl) E2 k).
      destruct (assoc k l) as [a|]; [|now rewrite G2, G1]. destruct (sh a); cbn [negb] in G2; [|exact G2].
      destruct G1 as (v & Ev & A1). exists v. split; [exact Ev|]. congruence.
    Qed.
    Lemma put_keys wanted l : forall d d', NoDup (map fst d) -> put_all wanted make l d = Ok d' -> NoDup (map fst d').
    Proof.
      induction l as [|[k a] l IH]; intros d d' Nd E; cbn [put_all] in E; [injection E as <-; exact Nd|].
      destruct (wanted k a d); [|eauto]. destruct (make a); cbn [rbind] in E; [|discriminate]. apply IH with (2 := E).
      clear - Nd. induction d as [|[k' x] d IH]; cbn [dict_set map fst]; [repeat constructor; cbn; auto|]. inversion_clear Nd as [|? ? Hn Nd'].
      destruct (String.eqb_spec k k') as [->|Ne]; cbn [map fst]; constructor; auto.
      intros Hi. apply Hn. clear - Hi Ne. induction d as [|[k2 x2] d IH]; cbn [dict_set map fst In] in *; [destruct Hi as [E|[]]; congruence|].
      destruct (String.eqb k k2); cbn [map fst In] in Hi; tauto.
    Qed.
  End Two.

  Lemma load_ok n (c : config R) : NoDup (map fst (cf_cells c)) -> NoDup (map fst (cf_pools c)) ->
    (forall k a, In (k, a) (cf_cells c) -> exists v, cell_value P fetch n (cf_defs c) a = Ok v) ->
    (forall k a, In (k, a) (cf_pools c) -> exists v, pool_value P n (cf_defs c) a = Ok v) ->
    (forall t z, cf_fold c = Some (t, z) -> exists v, decode n P (cf_defs c) t z = Ok v) ->
    exists s e, from_ast P fetch n empty c = Ok (s, e).
  Proof.
    intros Nc Np Hc Hp Hz. unfold from_ast. cbn [sh_cells sh_pools empty].
    destruct (two_ok ca_shared (cell_value P fetch n (cf_defs c)) _ Nc Hc) as (c1 & c2 & E1 & E2).
    destruct (two_ok pa_shared (pool_value P n (cf_defs c)) _ Np Hp) as (p1 & p2 & E3 & E4).
    rewrite E1. cbn [rbind]. rewrite E3. cbn [rbind]. rewrite E2. cbn [rbind]. rewrite E4. cbn [rbind].
    destruct (cf_fold c) as [[t z]|]; [|eexists; eexists; reflexivity]. destruct (Hz t z eq_refl) as [v Ev]. rewrite Ev. eexists; eexists; reflexivity.
  Qed.
  Lemma load_inv n (c : config R) s e : NoDup (map fst (cf_cells c)) -> NoDup (map fst (cf_pools c)) -> from_ast P fetch n empty c = Ok (s, e) ->
    en_config e = c /\ NoDup (map fst (en_cells e)) /\ NoDup (map fst (en_pools e)) /\
    (forall k, match assoc k (cf_cells c) with
               | Some a => exists v, cell_value P fetch n (cf_defs c) a = Ok v /\ assoc k (en_cells e) = Some v
               | None => assoc k (en_cells e) = None end) /\
    (forall k, match assoc k (cf_pools c) with
               | Some a => exists v, pool_value P n (cf_defs c) a = Ok v /\ assoc k (en_pools e) = Some v
               | None => assoc k (en_pools e) = None end) /\
    (forall t z, cf_fold c = Some (t, z) -> exists v, decode n P (cf_defs c) t z = Ok v /\ en_tally e = Some v).
  Proof.
    intros Nc Np H. unfold from_ast in H. cbn [sh_cells sh_pools empty] in H.
    destruct (put_all _ _ (cf_cells c) []) as [c1|] eqn:E1; cbn [rbind] in H; [|discriminate].
    destruct (put_all _ _ (cf_pools c) []) as [p1|] eqn:E2; cbn [rbind] in H; [|discriminate].
    destruct (put_all _ _ (cf_cells c) c1) as [c2|] eqn:E3; cbn [rbind] in H; [|discriminate].
    destruct (put_all _ _ (cf_pools c) p1) as [p2|] eqn:E4; cbn [rbind] in H; [|discriminate].
    match type of H with rbind ?m _ = _ => destruct m as [tl|] eqn:E5 end; cbn [rbind] in H; [|discriminate]. injection H as _ <-.
    cbn [en_config en_cells en_pools en_tally]. split; [reflexivity|].
    split; [eapply put_keys; [|exact E3]; eapply put_keys; [|exact E1]; constructor|]. split; [eapply put_keys; [|exact E4]; eapply put_keys; [|exact E2]; constructor|].
    split; [apply (two_inv _ _ _ _ _ Nc E1 E3)|]. split; [apply (two_inv _ _ _ _ _ Np E2 E4)|].
    intros t z Ez. rewrite Ez in E5. destruct (decode n P (cf_defs c) t z) as [v|]; cbn [rbind] in E5; [|discriminate]. injection E5 as <-. eauto.
  Qed.

  (** *** Snapshot and loading *)
  Section Reload.
    Context (e : engine R) (n : nat).
    Let D := cf_defs (en_config e).
    Hypothesis Own : own e.
    Hypothesis Zero : forall t z, cf_fold (en_config e) = Some (t, z) -> exists v, decode n P D t z = Ok v.
    (** Decoding the values gives values related by Q. *)
    Context (Q : val -> val -> Prop).
    Hypothesis Cells : forall k x a, In (k, x) (en_cells e) -> assoc k (cf_cells (en_config e)) = Some a ->
      has_bytes (it_value x) = false /\ exists w, decode n P D (ca_type a) (it_value x) = Ok w /\ Q (it_value x) w.
    Hypothesis Pools : forall k x a i v, In (k, x) (en_pools e) -> assoc k (cf_pools (en_config e)) = Some a -> In (i, v) (it_value x) ->
      has_bytes v = false /\ exists w, decode n P D (pa_type a) v = Ok w /\ Q v w.
    Lemma own_cell k x : In (k, x) (en_cells e) -> exists a, assoc k (cf_cells (en_config e)) = Some a.
    Proof using Own.
      intros H. destruct Own as (_ & _ & K & _). destruct (assoc k (cf_cells (en_config e))) eqn:E; [eauto|]. apply assoc_None in E. destruct E. apply (K k), (in_keys _ x), H.
    Qed.
    Lemma own_pool k x : In (k, x) (en_pools e) -> exists a, assoc k (cf_pools (en_config e)) = Some a.
    Proof using Own.
      intros H. destruct Own as (_ & _ & _ & K & _). destruct (assoc k (cf_pools (en_config e))) eqn:E; [eauto|]. apply assoc_None in E. destruct E. apply (K k), (in_keys _ x), H.
    Qed.
    Lemma is_plain : plain e.
    Proof using Own Cells Pools.
      split.
      - intros k x H. destruct (own_cell k x H) as [a Ea]. apply (Cells k x a H Ea).
      - intros k x i v H Hi. destruct (own_pool k x H) as [a Ea]. apply (Pools k x a i v H Ea Hi).
    Qed.
    Lemma items_decode k x a : In (k, x) (en_pools e) -> assoc k (cf_pools (en_config e)) = Some a ->
      exists d, on_values (decode n P D (pa_type a)) (it_value x) = Ok d /\ Forall2 (fun p q => fst q = fst p /\ Q (snd p) (snd q)) (it_value x) d.
    Proof using Pools.
      intros H Ea. unfold on_values. destruct (rmapM_total (fun kv : string * val => w <- decode n P D (pa_type a) (snd kv) ;; Ok (fst kv, w)) (it_value x)) as [d E].
      { intros [i v] Hi. destruct (Pools k x a i v H Ea Hi) as (_ & w & Ew & _). cbn [fst snd]. rewrite Ew. cbn [rbind]. eauto. }
      exists d. split; [exact E|]. apply rmapM_ok_Forall2 in E. apply (Forall2_both _ _ _ _ E). intros [i v] [j y] Hi Ey. cbn [fst snd] in *.
      destruct (Pools k x a i v H Ea Hi) as (_ & w & Ew & Qw). rewrite Ew in Ey. cbn [rbind] in Ey. injection Ey as <- <-. auto.
    Qed.
    Lemma reload : exists c s e', snapshot e = Ok c /\ from_ast P fetch n empty c = Ok (s, e') /\
      cf_rest (en_config e') = cf_rest (en_config e) /\ cf_defs (en_config e') = D /\
      related Q (en_cells e) (en_cells e') /\
      related (fun d d' => Forall2 (fun p q => fst q = fst p /\ Q (snd p) (snd q)) d d') (en_pools e) (en_pools e').
    Proof using Own Zero Cells Pools.
      destruct (snapshot_ok e Own is_plain) as (c & Sn & Kc & Kp & Rc & Rp & Rd & Rf & Rr). fold D in Rd.
      assert (Nc : NoDup (map fst (cf_cells c))) by (rewrite Kc; apply Own).
      assert (Np : NoDup (map fst (cf_pools c))) by (rewrite Kp; apply Own).
      assert (Vc : forall k x a, assoc k (en_cells e) = Some x -> assoc k (cf_cells (en_config e)) = Some a ->
                   exists w, cell_value P fetch n D (cell_of a x) = Ok (Item _ w (it_shared x) (it_rollback x) (it_source x)) /\ Q (it_value x) w).
      { intros k x a Ex Ea. destruct (Cells k x a (assoc_In _ _ _ Ex) Ea) as (_ & w & Ew & Qw). exists w. split; [|exact Qw].
        unfold cell_value, init_json, cell_of. cbn [ca_init ca_type rbind]. rewrite Ew. reflexivity. }
      assert (Vp : forall k x a, assoc k (en_pools e) = Some x -> assoc k (cf_pools (en_config e)) = Some a ->
                   exists d, pool_value P n D (pool_of a x) = Ok (Item _ d (it_shared x) (it_rollback x) (it_source x)) /\
                             Forall2 (fun p q => fst q = fst p /\ Q (snd p) (snd q)) (it_value x) d).
      { intros k x a Ex Ea. destruct (items_decode k x a (assoc_In _ _ _ Ex) Ea) as (d & Ed & F). exists d. split; [|exact F].
        unfold pool_value, pool_of. cbn [pa_init pa_type decode]. rewrite Ed. reflexivity. }
      destruct (load_ok n c Nc Np) as (s & e' & L).
      { intros k b Hb. apply NoDup_in in Hb; [|exact Nc]. specialize (Rc k). destruct (assoc k (en_cells e)) as [x|] eqn:Ex; [|congruence].
        destruct Rc as (a & Ea & Eb). rewrite Eb in Hb. injection Hb as <-. rewrite Rd. destruct (Vc k x a Ex Ea) as (w & Ew & _). eauto. }
      { intros k b Hb. apply NoDup_in in Hb; [|exact Np]. specialize (Rp k). destruct (assoc k (en_pools e)) as [x|] eqn:Ex; [|congruence].
        destruct Rp as (a & Ea & Eb). rewrite Eb in Hb. injection Hb as <-. rewrite Rd. destruct (Vp k x a Ex Ea) as (w & Ew & _). eauto. }
      { intros t z E. rewrite Rd. apply Zero. congruence. }
      exists c, s, e'. split; [exact Sn|]. split; [exact L|]. destruct (load_inv n c s e' Nc Np L) as (Ec & _ & _ & Ic & Ip & _). rewrite Ec.
      split; [exact Rr|]. split; [exact Rd|]. split.
      - intros k. specialize (Rc k). specialize (Ic k). destruct (assoc k (en_cells e)) as [x|] eqn:Ex.
        + destruct Rc as (a & Ea & Eb). rewrite Eb in Ic. destruct Ic as (v & Ev & ->). destruct (Vc k x a Ex Ea) as (w & Ew & Qw). rewrite Rd, Ew in Ev. injection Ev as <-.
          cbn [it_value it_shared it_rollback it_source]. unfold same_flags. auto.
        + rewrite Rc in Ic. now rewrite Ic.
      - intros k. specialize (Rp k). specialize (Ip k). destruct (assoc k (en_pools e)) as [x|] eqn:Ex.
        + destruct Rp as (a & Ea & Eb). rewrite Eb in Ip. destruct Ip as (v & Ev & ->). destruct (Vp k x a Ex Ea) as (w & Ew & Qw). rewrite Rd, Ew in Ev. injection Ev as <-.
          cbn [it_value it_shared it_rollback it_source]. unfold same_flags. auto.
        + rewrite Rp in Ip. now rewrite Ip.
    Qed.
  End Reload.

  (** *** Writing and reading *)
  Lemma strip_id : forall v, no_marks v -> strip v = v.
  Proof.
    fix IH 1. intros v H. destruct v as [| | | | | |l|d]; try reflexivity.
    - cbn [strip]. f_equal. revert H. induction l as [|x l IHl]; intros H; [reflexivity|]. cbn [map]. cbn [no_marks] in H. destruct H as [Hx Hl].
      rewrite (IH x Hx). f_equal. apply IHl, Hl.
    - cbn [strip]. f_equal. revert H. induction d as [|[k x] d IHd]; intros H; [reflexivity|]. cbn [no_marks] in H. destruct H as (Hk & Hx & Hd).
      apply String.eqb_neq in Hk. rewrite Hk, (IH x Hx). f_equal. apply IHd, Hd.
  Qed.
End Engine.
