(** Proofs about JsonModel: encoding and input checking. *)
From Verif Require Import Base PyNum PyNumProofs NumOrder ScopeModel TypeModel TypeSpec TypeProofs TypeProofs2 JsonModel JsonSpec.
Open Scope string_scope.
Open Scope list_scope.

(** *** Members of unions *)
Lemma separated_union ts : separated (TUnion ts) <-> ForallOrdPairs (fun a b => ~ passes_for a b) ts /\ Forall separated ts.
Proof. cbn [separated]. apply and_iff_compat_l. induction ts as [|t ts IH]; [split; auto|]. rewrite Forall_cons_iff. tauto. Qed.
Lemma null_names_union ts : null_names (TUnion ts) <-> forall t, In t ts -> (tyname t = "null" -> t = TNull) /\ null_names t.
Proof.
  cbn [null_names]. induction ts as [|t ts IH]; [cbn; tauto|]. split.
  - intros (H1 & H2 & H3) u [<-|Hu]; [auto|now apply IH].
  - intros H. destruct (H t (or_introl eq_refl)). split; [auto|]. split; [auto|]. apply IH. intros; apply H; now right.
Qed.
Lemma named_In g ts t : named g ts = Some t -> In t ts /\ tyname t = g.
Proof. intros H. apply find_some in H as [H E]. apply String.eqb_eq in E. auto. Qed.
Lemma named_uniq ts t : NoDup (map tyname ts) -> In t ts -> named (tyname t) ts = Some t.
Proof.
  induction ts as [|u ts IH]; intros N Ht; [destruct Ht|]. cbn in *. inversion N; subst.
  destruct (String.eqb_spec (tyname u) (tyname t)) as [E|E].
  - destruct Ht as [->|Ht]; [reflexivity|]. exfalso. apply H1. rewrite E. now apply in_map.
  - destruct Ht as [->|Ht]; [congruence|]. apply IH; auto.
Qed.
Lemma named_rev ts t : NoDup (map tyname ts) -> In t ts -> named (tyname t) (rev ts) = Some t.
Proof.
  intros N H. apply named_uniq; [|apply -> in_rev; exact H]. rewrite map_rev. now apply NoDup_rev.
Qed.
Lemma rmapM_in {A B} (f : A -> res B) l bs b : rmapM f l = Ok bs -> In b bs -> exists a, In a l /\ f a = Ok b.
Proof.
  intros H Hb. apply rmapM_ok_Forall2 in H. induction H; [destruct Hb|]. destruct Hb as [<-|Hb].
  - eexists. split; [left; reflexivity|eassumption].
  - destruct (IHForall2 Hb) as (a & Ha & E). exists a. split; [now right|exact E].
Qed.
Lemma on_values_in f d d' k x : on_values f d = Ok d' -> In (k, x) d' -> exists y, In (k, y) d /\ f y = Ok x.
Proof.
  intros H Hx. destruct (rmapM_in _ _ _ _ H Hx) as ([k' y] & Hy & E). cbn in E.
  destruct (f y) eqn:Ef; cbn in E; [|discriminate]. injection E as <- <-. eauto.
Qed.
Lemma rmapM_fix {A} (f g : A -> res A) l l' : rmapM f l = Ok l' -> (forall a b, In a l -> f a = Ok b -> g b = Ok b) -> rmapM g l' = Ok l'.
Proof.
  intros H K. apply rmapM_ok_Forall2. apply rmapM_ok_Forall2 in H. induction H; constructor.
  - eapply K; [left; reflexivity|eassumption].
  - apply IHForall2. intros; eapply K; [right; eassumption|eassumption].
Qed.

(** *** Decoded data have no bytes, and the kind of their type *)
Lemma existsb_false {A} (p : A -> bool) l : (forall x, In x l -> p x = false) -> existsb p l = false.
Proof.
  induction l as [|a l IH]; cbn; intros H; [reflexivity|]. rewrite (H a) by now left. apply IH. intros; apply H; now right.
Qed.
Lemma converted_ok {A} v (r : res A) k w : converted v r k = Ok w -> exists a, r = Ok a /\ w = k a.
Proof.
  unfold converted, mismatch. destruct r as [a|[]]; try discriminate; [intros H; injection H as <-; eauto|].
  destruct (_ || _)%bool; [|discriminate]. destruct (has_bytes v); discriminate.
Qed.
Lemma mismatch_ok {A} v (a : A) : mismatch v = Ok a -> False.
Proof. unfold mismatch. destruct (has_bytes v); discriminate. Qed.
Ltac mm := match goal with H : mismatch _ = Ok _ |- _ => destruct (mismatch_ok _ _ H) end.
Lemma decode_no_bytes n P D : forall t j v, decode n P D t j = Ok v -> has_bytes v = false.
Proof.
  induction n as [|n IH]; intros t j v H; [discriminate|]. cbn [decode] in H.
  destruct t; try discriminate;
    try (apply converted_ok in H as (? & _ & ->); reflexivity);
    try (destruct j; try mm; injection H as <-; reflexivity).
  - destruct j; try mm. destruct (Nat.eqb _ _); try mm. injection H as <-. reflexivity.
  - destruct j; try mm. destruct (mem _ _); try mm. injection H as <-. reflexivity.
  - destruct j; try mm. destruct (rmapM _ l) as [l'|] eqn:E; cbn in H; [|discriminate]. injection H as <-. cbn.
    apply existsb_false. intros x Hx. destruct (rmapM_in _ _ _ _ E Hx) as (y & _ & Ey). eauto.
  - destruct j; try mm. destruct (on_values _ d) as [l'|] eqn:E; cbn in H; [|discriminate]. injection H as <-. cbn.
    apply existsb_false. intros [k x] Hx. destruct (on_values_in _ _ _ _ _ E Hx) as (y & _ & Ey). cbn. eauto.
  - destruct j; try mm. destruct (rmapM _ _) as [l'|] eqn:E; cbn [rbind] in H; [|discriminate]. injection H as <-. cbn.
    apply existsb_false. intros [k x] Hx. destruct (rmapM_in _ _ _ _ E Hx) as (f & _ & Ef). cbn.
    match type of Ef with rbind ?m _ = _ => destruct m as [w|] eqn:Em; cbn in Ef; [|discriminate] end. injection Ef as _ <-.
    destruct (assoc (f_name f) d); [eauto|]. destruct (default_of f); [eauto|]. destruct (f_type f); try mm. injection Em as <-. reflexivity.
  - destruct j as [| | | | | | |[|[g x] [|]]]; try mm.
    + destruct (mem _ _); try mm. injection H as <-. reflexivity.
    + destruct (named g (rev types)); try mm. destruct (decode n P D t x) eqn:E; cbn in H; [|discriminate]. injection H as <-. cbn.
      rewrite (IH _ _ _ E). reflexivity.
Qed.
Definition kind_ok (k : kind) (v : val) : Prop :=
  match k, v with
  | KNull, VNull | KBool, VBool _ | KInt, VInt _ | KReal, VFlt _ | KString, VStr _ | KArray, VArr _ | KDict, VDict _ => True
  | _, _ => False
  end.
Lemma decode_kind n P D t j v : is_union t = false -> decode n P D t j = Ok v -> kind_ok (kind_of t) v.
Proof.
  intros U H. destruct n as [|n]; [discriminate|]. cbn [decode] in H.
  destruct t; try discriminate;
    try (apply converted_ok in H as (? & _ & ->); exact I);
    try (destruct j; try mm; injection H as <-; exact I).
  - destruct j; try mm. destruct (Nat.eqb _ _); try mm. injection H as <-. exact I.
  - destruct j; try mm. destruct (mem _ _); try mm. injection H as <-. exact I.
  - destruct j; try mm. destruct (rmapM _ l) as [l'|] eqn:E; cbn in H; [|discriminate]. injection H as <-. exact I.
  - destruct j; try mm. destruct (on_values _ d) as [l'|] eqn:E; cbn in H; [|discriminate]. injection H as <-. exact I.
  - destruct j; try mm. destruct (rmapM _ _) as [l'|] eqn:E; cbn [rbind] in H; [|discriminate]. injection H as <-. exact I.
Qed.
Lemma encode_other n D tg a b v : is_union a = false -> is_union b = false -> ~ passes_for a b -> kind_ok (kind_of b) v -> has_bytes v = false ->
  encode (S n) D tg a v = Raise AvroErr.
Proof.
  intros Ua Ub Np K Hb. assert (M : forall A, @mismatch A v = Raise AvroErr) by (unfold mismatch; now rewrite Hb).
  unfold passes_for in Np. cbn [encode].
  destruct a; try discriminate Ua; destruct v; try apply M; exfalso; destruct b; try discriminate Ub; cbn in K; try tauto; apply Np; cbn; auto.
Qed.
(** *** The round trip *)
Lemma first_type_skip {A} (f : ty -> res A) ts t a : In t ts -> f t = Ok a ->
  ForallOrdPairs (fun u w => w = t -> u = t \/ f u = Raise AvroErr) ts -> first_type f ts = Ok (Some (t, a)).
Proof.
  intros Ht E H. induction H as [|u ts Hu H IH]; [destruct Ht|]. cbn.
  destruct Ht as [->|Ht]; [now rewrite E|]. rewrite Forall_forall in Hu. destruct (Hu t Ht eq_refl) as [->|Eu].
  - now rewrite E.
  - rewrite Eu. auto.
Qed.
Lemma FOP_impl {A} (R Q : A -> A -> Prop) l : (forall a b, In a l -> In b l -> R a b -> Q a b) -> ForallOrdPairs R l -> ForallOrdPairs Q l.
Proof.
  intros H F. induction F as [|a l Ha F IH]; constructor.
  - rewrite Forall_forall in *. intros b Hb. apply H; [now left|now right|auto].
  - apply IH. intros; apply H; auto; now right.
Qed.
Lemma NoDup_assoc {A} (d : list (string * A)) k x : NoDup (map fst d) -> In (k, x) d -> assoc k d = Some x.
Proof.
  induction d as [|[k' y] d IH]; cbn; [tauto|]. intros N. inversion N; subst. intros [E|H].
  - injection E as -> ->. now rewrite String.eqb_refl.
  - destruct (String.eqb_spec k k') as [->|]; [|auto]. exfalso. apply H1. now apply (in_map fst) in H.
Qed.
Section Round.
  Variables (P : parsers) (D : defs).
  Hypothesis WD : wf_defs D.
  Hypothesis SD : defs_sat separated D.
  Hypothesis UD : defs_sat uniq D.
  Hypothesis ND : defs_sat null_names D.
  Lemma roundtrip n : forall t j v, wf t -> uniq t -> separated t -> null_names t -> decode n P D t j = Ok v ->
    exists j', encode (S n) D true t v = Ok j' /\ decode (S n) P D t j' = Ok v.
  Proof.
    induction n as [|n IH]; intros t j v W U Sp Nn H; [discriminate|].
    destruct t; cbn [decode] in H; try discriminate.
    - destruct j; try mm. injection H as <-. exists VNull. split; reflexivity.
    - destruct j; try mm. injection H as <-. eexists; split; reflexivity.
    - apply converted_ok in H as (z & _ & ->). eexists; split; reflexivity.
    - apply converted_ok in H as (z & _ & ->). eexists; split; reflexivity.
    - apply converted_ok in H as (z & _ & ->). eexists; split; reflexivity.
    - apply converted_ok in H as (z & _ & ->). eexists; split; reflexivity.
    - destruct j; try mm. injection H as <-. eexists; split; reflexivity.
    - destruct j; try mm. injection H as <-. eexists; split; reflexivity.
    - destruct j; try mm. destruct (Nat.eqb _ _) eqn:E; try mm. injection H as <-. exists (VStr s). cbn [encode decode]. rewrite E. split; reflexivity.
    - destruct j; try mm. destruct (mem _ _) eqn:E; try mm. injection H as <-. exists (VStr s). cbn [encode decode]. rewrite E. split; reflexivity.
    - destruct j; try mm. destruct (rmapM _ l) as [l'|] eqn:E; cbn [rbind] in H; [|discriminate]. injection H as <-.
      assert (X : exists l'', rmapM (encode (S n) D true t) l' = Ok l'' /\ rmapM (decode (S n) P D t) l'' = Ok l').
      { apply rmapM_ok_Forall2 in E. clear - IH E W U Sp Nn. induction E as [|a b l l' Hab E (l'' & E1 & E2)]; [exists []; split; reflexivity|].
        destruct (IH t a b W U Sp Nn Hab) as (j' & F1 & F2). exists (j' :: l''). cbn [rmapM]. rewrite F1, E1, F2, E2. split; reflexivity. }
      destruct X as (l'' & E1 & E2). exists (VArr l''). remember (S n) as m. cbn [encode decode]. rewrite E1. cbn [rbind]. rewrite E2. split; reflexivity.
    - destruct j; try mm. destruct (on_values _ d) as [l'|] eqn:E; cbn [rbind] in H; [|discriminate]. injection H as <-.
      assert (X : exists l'', on_values (encode (S n) D true t) l' = Ok l'' /\ on_values (decode (S n) P D t) l'' = Ok l').
      { unfold on_values in *. apply rmapM_ok_Forall2 in E. clear - IH E W U Sp Nn. induction E as [|[k a] b l l' Hab E (l'' & E1 & E2)]; [exists []; split; reflexivity|].
        cbn [fst snd] in Hab. destruct (decode n P D t a) as [w|] eqn:Ha; cbn [rbind] in Hab; [|discriminate]. injection Hab as <-.
        destruct (IH t a w W U Sp Nn Ha) as (j' & F1 & F2). exists ((k, j') :: l''). cbn [rmapM fst snd].
        rewrite F1, F2. cbn [rbind]. rewrite E1, E2. split; reflexivity. }
      destruct X as (l'' & E1 & E2). exists (VDict l''). remember (S n) as m. cbn [encode decode]. rewrite E1. cbn [rbind]. rewrite E2. split; reflexivity.
    - destruct j; try mm. destruct (rmapM _ _) as [out|] eqn:E; cbn [rbind] in H; [|discriminate]. injection H as <-.
      destruct (WD name) as [Nd Wf]. pose proof (SD name) as SDn. pose proof (UD name) as UDn. pose proof (ND name) as NDn. remember (fields_of D name) as fs eqn:Efs.
      assert (F : Forall2 (fun f kx => fst kx = f_name f /\ exists y, encode (S n) D true (f_type f) (snd kx) = Ok y /\ decode (S n) P D (f_type f) y = Ok (snd kx)) fs out).
      { apply rmapM_ok_Forall2 in E. clear - E IH Wf SDn UDn NDn. induction E as [|f [k x] fs out Hf E IHE]; constructor; auto.
        2: { apply IHE; intros; [apply Wf|apply SDn|apply UDn|apply NDn]; now right. }
        cbn [fst snd]. match type of Hf with rbind ?m _ = _ => destruct m as [w|] eqn:Em; cbn [rbind] in Hf; [|discriminate] end. injection Hf as <- <-.
        split; [reflexivity|].
        assert (K : forall y, decode n P D (f_type f) y = Ok w -> exists y', encode (S n) D true (f_type f) w = Ok y' /\ decode (S n) P D (f_type f) y' = Ok w).
        { intros y Hy. apply (IH _ y); auto; [apply Wf|apply UDn|apply SDn|apply NDn]; now left. }
        destruct (assoc (f_name f) d); [eauto|]. destruct (default_of f); [eauto|].
        destruct (f_type f) eqn:Et; try mm. injection Em as <-. exists VNull. split; reflexivity. }
      assert (Ek : map fst out = map f_name fs) by (clear - F; induction F as [|f kx ? ? [E _]]; cbn; congruence).
      assert (Nd' : NoDup (map fst out)) by congruence.
      assert (X : exists enc, Forall2 (fun f kx => exists y, kx = (f_name f, y) /\ decode (S n) P D (f_type f) y = Ok (lookup (f_name f) out)) fs enc /\
                    rmapM (fun f => match assoc (f_name f) out with
                                    | Some x => w <- encode (S n) D true (f_type f) x ;; Ok [(f_name f, w)]
                                    | None => match default_of f with Some _ => Ok [] | None => mismatch (VDict out) end
                                    end) fs = Ok (map (fun kx => [kx]) enc)).
      { assert (L : forall kx, In kx out -> assoc (fst kx) out = Some (snd kx)) by (intros [k x] Hk; now apply NoDup_assoc).
        revert L. generalize out at 2 3 4 5 as full. intros full L. clear - F L. induction F as [|f [k x] fs out (E & y & E1 & E2) F IHF].
        - exists []. split; [constructor|reflexivity].
        - destruct IHF as (enc & G1 & G2); [intros; apply L; now right|]. cbn [fst snd] in *. subst k.
          pose proof (L _ (or_introl eq_refl)) as La. cbn [fst snd] in La. exists ((f_name f, y) :: enc). split.
          + constructor; [|exact G1]. exists y. split; [reflexivity|]. unfold lookup. now rewrite La.
          + cbn [rmapM map]. rewrite La, E1. cbn [rbind]. rewrite G2. reflexivity. }
      destruct X as (enc & G1 & G2). exists (VDict enc). split.
      + remember (S n) as m. cbn [encode]. rewrite <- Efs. rewrite G2. cbn [rbind]. f_equal. f_equal. clear. induction enc; cbn; congruence.
      + remember (S n) as m. cbn [decode]. rewrite <- Efs.
        assert (Eke : map fst enc = map f_name fs) by (clear - G1; induction G1 as [|f kx ? ? (y & -> & _)]; cbn; congruence).
        assert (Nde : NoDup (map fst enc)) by congruence.
        assert (R : forall full enc' fs', (forall kx, In kx enc' -> assoc (fst kx) full = Some (snd kx)) ->
                    Forall2 (fun f kx => exists y, kx = (f_name f, y) /\ decode m P D (f_type f) y = Ok (lookup (f_name f) out)) fs' enc' ->
                    rmapM (fun f => w <- match assoc (f_name f) full with
                                       | Some x => decode m P D (f_type f) x
                                       | None => match default_of f with Some x => decode m P D (f_type f) x
                                                 | None => match f_type f with TNull => Ok VNull | _ => mismatch (VDict full) end end end ;;
                                 Ok (f_name f, w)) fs' = Ok (map (fun f => (f_name f, lookup (f_name f) out)) fs')).
        { clear. intros full enc' fs' L G. induction G as [|f kx fs enc (y & -> & E) G1 IHG]; [reflexivity|].
          cbn [rmapM map]. pose proof (L _ (or_introl eq_refl)) as La. cbn [fst snd] in La. rewrite La, E. cbn [rbind].
          rewrite IHG by (intros; apply L; now right). reflexivity. }
        specialize (R enc enc fs (fun kx => match kx with (k, x) => NoDup_assoc enc k x Nde end) G1).
        rewrite R. cbn [rbind]. f_equal. f_equal. clear - F Nd'.
        assert (L : forall kx, In kx out -> lookup (fst kx) out = snd kx) by (intros [k x] Hk; unfold lookup; cbn [fst snd]; now rewrite (NoDup_assoc out k x Nd' Hk)).
        revert L. generalize out at 2 3 as full. intros full L. induction F as [|f [k x] fs out (E & _) F IHF]; [reflexivity|].
        cbn [map]. cbn [fst] in E. subst k. pose proof (L _ (or_introl eq_refl)) as La. cbn [fst snd] in La. rewrite La. f_equal. inversion Nd'; subst. apply IHF; auto. intros; apply L; now right.
    - destruct j as [| | | | | | |[|[g x] [|]]]; try mm.
      + destruct (mem "null" (map tyname types)) eqn:En; try mm. injection H as <-.
        exists VNull.
        assert (Hn : has_null types = true).
        { apply mem_In in En. apply in_map_iff in En as (t & Et & Ht). apply existsb_exists. exists t. split; [exact Ht|].
          destruct (proj1 (null_names_union _) Nn t Ht) as [N0 _]. now rewrite (N0 Et). }
        remember (S n) as m. cbn [encode decode]. rewrite Hn, En. split; reflexivity.
      + destruct (named g (rev types)) as [t|] eqn:En; try mm. destruct (decode n P D t x) as [w|] eqn:Ed; cbn [rbind] in H; [|discriminate]. injection H as <-.
        apply named_In in En as [Ht <-]. apply in_rev in Ht. apply uniq_union in U as [Nd U]. apply separated_union in Sp as [Sp1 Sp2].
        pose proof (proj1 (wf_union _) W) as Wm. rewrite Forall_forall in U, Sp2. destruct (Wm t Ht) as [Wt Ut].
        destruct (IH t x w Wt (U t Ht) (Sp2 t Ht) (proj2 (proj1 (null_names_union _) Nn t Ht)) Ed) as (j' & E1 & E2).
        exists (VDict [(tyname t, j')]). split.
        * remember (S n) as m. cbn [encode]. rewrite andb_false_r. rewrite (first_type_skip _ _ t j' Ht E1); [reflexivity|]. subst m.
          eapply FOP_impl; [|exact Sp1]. intros a b Ha Hb Np ->. right. cbn beta.
          apply encode_other with t; auto; [apply (Wm a Ha)|eapply decode_kind; eauto|eapply decode_no_bytes; eauto].
        * remember (S n) as m. cbn [decode]. rewrite named_rev by auto. rewrite E2. reflexivity.
  Qed.
End Round.
