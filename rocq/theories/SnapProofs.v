From Coq Require Import Reals Lra SpecFloat.
From Flocq Require Import Core.
From Flocq Require Import BinarySingleNaN.
From Verif Require Import Base PyNum PyNumProofs FloatBridge CastProps ScopeModel TypeModel TypeSpec TypeProofs TypeProofs2.
From Verif Require Import JsonModel JsonSpec JsonFuel JsonProofs JsonProofs2 SnapModel SnapSpec.
Open Scope string_scope.
Open Scope list_scope.
Open Scope Z_scope.

(** *** An integer up to 2^53 equals its float *)
Lemma cmp_exact f z : finite f -> fval f = IZR z -> f_cmp_Z f z = Some Eq.
Proof.
  destruct f as [s| | |s m e]; try discriminate; intros _ V; cbn [f_cmp_Z].
  - unfold fval, SF2R in V. f_equal. apply Z.compare_eq_iff. now apply eq_IZR.
  - unfold fval, SF2R, F2R in V. cbn [Fnum Fexp] in V. assert (Es : zsign s (Zpos m) = cond_Zopp s (Zpos m)) by now destruct s. rewrite Es. clear Es.
    set (q := cond_Zopp s (Zpos m)) in *. destruct (Z.leb_spec 0 e) as [He|He].
    + f_equal. apply Z.compare_eq_iff, eq_IZR. rewrite mult_IZR. rewrite <- V. f_equal. destruct e; [reflexivity| |lia]. reflexivity.
    + f_equal. apply Z.compare_eq_iff, eq_IZR. rewrite mult_IZR, <- V. destruct e as [|e|e]; try lia. cbn [Z.opp].
      change (IZR (2 ^ Zpos e)) with (bpow radix2 (Zpos e)). rewrite Rmult_assoc, <- bpow_plus. replace (Zneg e + Zpos e) with 0 by lia. cbn. lra.
Qed.
Lemma float_exact z : Z.abs z <= 2 ^ 53 -> exists f, py_float z = Ok f /\ num_eq (NI z) (NF f) = true.
Proof.
  intros H. assert (Hz : Z.abs z < 2 ^ 64) by (apply Z.le_lt_trans with (1 := H); reflexivity).
  destruct (C66_to_double z Hz) as (f & E & F & _ & V). exists f. split; [exact E|].
  unfold num_eq, num_cmp. rewrite (cmp_exact f z F (V H)). reflexivity.
Qed.

Section Data.
  Context (P : parsers) (D : defs).
  Hypothesis WD : wf_defs D.
  Hypothesis UD : defs_sat uniq D.

  Lemma canonical_decode n : forall t v, wf t -> uniq t -> canonical n D t v -> decode n P D t v = Ok v.
  Proof using WD UD.
    induction n as [|n IH]; intros t w W U H; [destruct H|]. cbn [decode]. cbn [canonical] in H.
    destruct t; try (now destruct W); try (destruct w; try tauto; fail).
    - destruct w; try tauto. rewrite H, Nat.eqb_refl. reflexivity.
    - destruct w; try tauto. apply mem_In in H. now rewrite H.
    - destruct w; try tauto. assert (E : rmapM (decode n P D t) l = Ok l); [|rewrite E; reflexivity].
      induction l as [|x l IHl]; [reflexivity|]. cbn [rmapM]. rewrite (IH t x) by (auto; apply H; now left). cbn [rbind].
      rewrite IHl by (intros; apply H; now right). reflexivity.
    - destruct w; try tauto. assert (E : on_values (decode n P D t) d = Ok d); [|rewrite E; reflexivity].
      unfold on_values. induction d as [|[k x] d IHl]; [reflexivity|]. cbn [rmapM fst snd]. rewrite (IH t x) by (auto; eapply H; now left). cbn [rbind].
      rewrite IHl by (intros; eapply H; right; eassumption). reflexivity.
    - destruct w; try tauto. destruct (WD name) as [Nd Wf]. pose proof (UD name) as UDn.
      remember (fields_of D name) as fs eqn:Efs.
      assert (Ek : map fst d = map f_name fs) by (clear - H; induction H as [|f kx ? ? [E _]]; cbn; congruence).
      assert (Nd' : NoDup (map fst d)) by congruence.
      assert (L : forall kx, In kx d -> assoc (fst kx) d = Some (snd kx)) by (intros [k x] Hk; now apply NoDup_assoc).
      assert (G : forall full bad, (forall kx, In kx d -> assoc (fst kx) full = Some (snd kx)) ->
        rmapM (fun f => w <- match assoc (f_name f) full with
                             | Some x => decode n P D (f_type f) x
                             | None => match default_of f with
                                       | Some x => decode n P D (f_type f) x
                                       | None => match f_type f with TNull => Ok VNull | _ => bad end
                                       end
                             end ;; Ok (f_name f, w)) fs = Ok d); [|rewrite (G d (mismatch (VDict d)) L); reflexivity].
      intros full bad L'. clear L. rename L' into L.
      clear - H IH Wf UDn L. induction H as [|f [k x] fs d [E Hx] F IHF]; [reflexivity|].
      cbn [fst snd] in *. subst k. cbn [rmapM]. pose proof (L _ (or_introl eq_refl)) as La. cbn [fst snd] in La. rewrite La.
      rewrite (IH (f_type f) x) by (first [apply Wf; now left|apply UDn; now left|exact Hx]). cbn [rbind].
      rewrite IHF; [reflexivity|intros; apply Wf; now right|intros ? Hi; apply UDn; now right|intros; apply L; now right].
    - pose proof (proj1 (wf_union _) W) as Wm. apply uniq_union in U as [Nd U].
      rewrite Forall_forall in U. destruct w as [| | | | | | |[|[g x] [|]]]; try tauto.
      + assert (M : mem "null" (map tyname types) = true) by (apply mem_In, in_map_iff; exists TNull; auto). now rewrite M.
      + destruct H as (t & Ht & <- & Hx). rewrite named_rev by auto. rewrite (IH t x) by (auto; apply Wm; auto). reflexivity.
  Qed.

  Lemma decode_canonical n : defs_sat null_names D -> forall t j v, null_names t -> decode n P D t j = Ok v -> canonical (S n) D t v.
  Proof.
    intros ND. induction n as [|n IH]; intros t j v N H; [discriminate|]. cbn [decode] in H. remember (S n) as m eqn:Em. cbn [canonical]. subst m.
    assert (Cv : forall A (r : res A) k, converted j r k = Ok v -> exists a, v = k a).
    { intros A r k E. apply converted_ok in E as (a & _ & ->). eauto. }
    destruct t.
    - destruct j; try (now apply mismatch_ok in H). now injection H as <-.
    - destruct j; try (now apply mismatch_ok in H). now injection H as <-.
    - apply Cv in H as [a ->]. exact I.
    - apply Cv in H as [a ->]. exact I.
    - apply Cv in H as [a ->]. exact I.
    - apply Cv in H as [a ->]. exact I.
    - destruct j; try (now apply mismatch_ok in H). now injection H as <-.
    - destruct j; try (now apply mismatch_ok in H). now injection H as <-.
    - destruct j; try (now apply mismatch_ok in H). destruct (Nat.eqb_spec (str_len s) size); [|now apply mismatch_ok in H]. now injection H as <-.
    - destruct j; try (now apply mismatch_ok in H). destruct (mem s symbols) eqn:M; [|now apply mismatch_ok in H]. injection H as <-. now apply mem_In.
    - destruct j; try (now apply mismatch_ok in H). destruct (rmapM _ l) as [l'|] eqn:E; cbn [rbind] in H; [|discriminate]. injection H as <-.
      intros x Hx. destruct (rmapM_in _ _ _ _ E Hx) as (a & _ & Ha). eauto.
    - destruct j; try (now apply mismatch_ok in H). destruct (on_values _ d) as [l'|] eqn:E; cbn [rbind] in H; [|discriminate]. injection H as <-.
      intros k x Hx. destruct (on_values_in _ _ _ _ _ E Hx) as (a & _ & Ha). eauto.
    - destruct j; try (now apply mismatch_ok in H). match type of H with rbind ?m _ = _ => destruct m as [out|] eqn:E end; cbn [rbind] in H; [|discriminate]. injection H as <-.
      apply rmapM_ok_Forall2 in E. pose proof (ND name) as NDn. remember (fields_of D name) as fs0 eqn:Efs. clear Efs Cv. induction E as [|f kx fs out Hf E IHE]; constructor.
      + destruct (assoc (f_name f) d) as [x|].
        * destruct (decode n P D (f_type f) x) as [w|] eqn:Ew; cbn [rbind] in Hf; [|discriminate]. injection Hf as <-. split; [reflexivity|]. cbn [snd]. eapply IH; [apply NDn; now left|exact Ew].
        * destruct (default_of f) as [x|].
          -- destruct (decode n P D (f_type f) x) as [w|] eqn:Ew; cbn [rbind] in Hf; [|discriminate]. injection Hf as <-. split; [reflexivity|]. cbn [snd]. eapply IH; [apply NDn; now left|exact Ew].
          -- destruct (f_type f); cbn [rbind] in Hf; try (unfold mismatch in Hf; destruct (has_bytes _); discriminate Hf).
             injection Hf as <-. split; [reflexivity|]. exact I.
      + apply IHE. intros g Hg. apply NDn. now right.
    - pose proof (proj1 (null_names_union _) N) as N'. destruct j as [| | | | | | |[|[g x] [|]]]; try (now apply mismatch_ok in H).
      + destruct (mem "null" (map tyname types)) eqn:M; [|now apply mismatch_ok in H]. injection H as <-.
        apply mem_In, in_map_iff in M as (t & E & Ht). destruct (N' t Ht) as [K _]. now rewrite <- (K E).
      + destruct (named g (rev types)) as [t|] eqn:En; [|now apply mismatch_ok in H]. apply named_In in En as [Ht <-]. apply in_rev in Ht.
        destruct (decode n P D t x) as [w|] eqn:Ew; cbn [rbind] in H; [|discriminate]. injection H as <-.
        exists t. split; [exact Ht|]. split; [reflexivity|]. eapply IH; [|exact Ew]. now apply (N' t Ht).
    - discriminate.
  Qed.


  Lemma same_arr l m : same (VArr l) (VArr m) <-> Forall2 same l m.
  Proof.
    cbn [same]. split.
    - revert m. induction l as [|x l IH]; intros [|y m] H; try contradiction; constructor; [apply H|apply IH, H].
    - intros F. induction F; auto.
  Qed.
  Lemma same_dict d e : same (VDict d) (VDict e) <->
    (forall k, assoc k d = None -> assoc k e = None) /\ (forall k x, In (k, x) d -> exists y, assoc k e = Some y /\ same x y).
  Proof.
    cbn [same]. match goal with |- (?A /\ ?B) <-> _ => assert (E : B <-> forall k x, In (k, x) d -> exists y, assoc k e = Some y /\ same x y); [|tauto] end.
    induction d as [|[k x] d IH]; [split; [intros _ ? ? []|auto]|]. rewrite IH. split.
    - intros [H G] k' x' [E|Hi]; [injection E as <- <-; exact H|now apply G].
    - intros H. split; [apply H; now left|intros k' x' Hi; apply H; now right].
  Qed.
  Lemma rmapM_total {A B} (f : A -> res B) l : (forall a, In a l -> exists b, f a = Ok b) -> exists bs, rmapM f l = Ok bs.
  Proof.
    induction l as [|a l IH]; intros H; [eexists; reflexivity|]. destruct (H a (or_introl eq_refl)) as [b Eb].
    destruct IH as [bs Ebs]; [intros x Hx; apply H; now right|]. exists (b :: bs). cbn [rmapM]. now rewrite Eb, Ebs.
  Qed.
  Lemma Forall2_both {A B} (R1 R2 : A -> B -> Prop) l m : Forall2 R1 l m -> (forall a b, In a l -> R1 a b -> R2 a b) -> Forall2 R2 l m.
  Proof. intros F. induction F as [|a b l m Hab F IHF]; intros G; constructor; [apply G; [now left|exact Hab]|apply IHF; intros; apply G; [now right|assumption]]. Qed.
  (** a dict whose values are related one by one *)
  Lemma same_by_position d e : NoDup (map fst d) -> Forall2 (fun a b => fst b = fst a /\ same (snd a) (snd b)) d e ->
    (forall k, assoc k d = None -> assoc k e = None) /\ (forall k x, In (k, x) d -> exists y, assoc k e = Some y /\ same x y).
  Proof.
    intros Nd F. induction F as [|[k x] [k' y] d e [E S] F IH]; [split; [auto|intros ? ? []]|]. cbn [fst snd map] in *. subst k'.
    inversion_clear Nd as [|? ? Hn Nd']. destruct (IH Nd') as [I1 I2]. cbn [assoc]. split.
    - intros k0. destruct (String.eqb k0 k); [discriminate|apply I1].
    - intros k0 x0 [E|Hi].
      + injection E as <- <-. rewrite String.eqb_refl. eauto.
      + destruct (String.eqb_spec k0 k) as [->|]; [|now apply I2]. destruct Hn. apply in_map_iff. now exists (k, x0).
  Qed.

  Lemma stored_decode n : forall t v, wf t -> uniq t -> stored n D t v -> exists w, decode n P D t v = Ok w /\ same v w.
  Proof using WD UD.
    induction n as [|n IH]; intros t v W U H; [destruct H|]. cbn [decode]. cbn [stored] in H.
    destruct t; try (now destruct W).
    - destruct v; try tauto. eexists; split; reflexivity.
    - destruct v; try tauto. eexists; split; [reflexivity|reflexivity].
    - destruct v; try tauto. eexists; split; [reflexivity|now left].
    - destruct v; try tauto. eexists; split; [reflexivity|now left].
    - destruct v; try tauto; [|eexists; split; reflexivity]. destruct (float_exact z H) as (f & E & Q). exists (VFlt f). unfold to_float. rewrite E. split; [reflexivity|]. right. eauto.
    - destruct v; try tauto; [|eexists; split; reflexivity]. destruct (float_exact z H) as (f & E & Q). exists (VFlt f). unfold to_float. rewrite E. split; [reflexivity|]. right. eauto.
    - destruct v; try tauto. eexists; split; reflexivity.
    - destruct v; try tauto. eexists; split; reflexivity.
    - destruct v; try tauto. rewrite H, Nat.eqb_refl. eexists; split; reflexivity.
    - destruct v; try tauto. apply mem_In in H. rewrite H. eexists; split; reflexivity.
    - destruct v; try tauto. destruct (rmapM_total (decode n P D t) l) as [l' E].
      { intros a Ha. destruct (IH t a W U (H a Ha)) as (w & Ew & _). eauto. }
      rewrite E. exists (VArr l'). split; [reflexivity|]. apply same_arr. apply rmapM_ok_Forall2 in E. apply (Forall2_both _ _ _ _ E).
      intros a b Ha Eb. destruct (IH t a W U (H a Ha)) as (w & Ew & S). congruence.
    - destruct v; try tauto. destruct H as [Nd H]. unfold on_values.
      destruct (rmapM_total (fun kv : string * val => w <- decode n P D t (snd kv);; Ok (fst kv, w)) d) as [d' E].
      { intros [k x] Ha. destruct (IH t x W U (H k x Ha)) as (w & Ew & _). cbn [fst snd]. rewrite Ew. cbn [rbind]. eauto. }
      rewrite E. exists (VDict d'). split; [reflexivity|]. apply same_dict. apply same_by_position; [exact Nd|].
      apply rmapM_ok_Forall2 in E. apply (Forall2_both _ _ _ _ E).
      intros [k x] [k' y] Ha Eb. cbn [fst snd] in *. destruct (IH t x W U (H k x Ha)) as (w & Ew & S). rewrite Ew in Eb. cbn [rbind] in Eb. injection Eb as <- <-. auto.
    - destruct v; try tauto. destruct H as (Nd & Hk & H). destruct (WD name) as [Ndf Wf]. pose proof (UD name) as UDn.
      remember (fields_of D name) as fs eqn:Efs.
      assert (V : forall f, In f fs -> exists x w, assoc (f_name f) d = Some x /\ decode n P D (f_type f) x = Ok w /\ same x w).
      { intros f Hf. destruct (assoc (f_name f) d) as [x|] eqn:Ea.
        - destruct (IH (f_type f) x (Wf f Hf) (UDn f Hf) (H f x Hf Ea)) as (w & Ew & S). eauto.
        - exfalso. apply assoc_None in Ea. apply Ea, Hk, in_map_iff. eauto. }
      match goal with |- exists w, rbind (rmapM ?F fs) _ = _ /\ _ => destruct (rmapM_total F fs) as [out E] end.
      { intros f Hf. destruct (V f Hf) as (x & w & Ea & Ew & _). rewrite Ea, Ew. cbn [rbind]. eauto. }
      rewrite E. exists (VDict out). split; [reflexivity|]. apply rmapM_ok_Forall2 in E.
      assert (E2 : Forall2 (fun f kx => fst kx = f_name f /\ exists x, assoc (f_name f) d = Some x /\ same x (snd kx)) fs out).
      { apply (Forall2_both _ _ _ _ E). intros f kx Hf Eb. destruct (V f Hf) as (x & w & Ea & Ew & S). rewrite Ea, Ew in Eb. cbn [rbind] in Eb. injection Eb as <-. cbn [fst snd]. eauto. }
      assert (Ek : map fst out = map f_name fs) by (clear - E2; induction E2 as [|f kx ? ? [Ee _]]; cbn; congruence).
      apply same_dict. split.
      + intros k Hn. apply assoc_None. unfold keys. rewrite Ek. rewrite <- Hk. now apply assoc_None.
      + intros k x Hx. assert (Hf : In k (map f_name fs)) by (apply Hk, in_map_iff; exists (k, x); auto).
        assert (Ax : assoc k d = Some x) by now apply NoDup_assoc.
        assert (Nd2 : NoDup (map fst out)) by congruence. clear - E2 Hf Ax Nd2. induction E2 as [|f [k' y] fs out [Ee (z & Ea & S)] E2 IH]; [destruct Hf|].
        cbn [fst snd map assoc] in *. subst k'. destruct (String.eqb_spec k (f_name f)) as [->|Ne].
        * exists y. split; [reflexivity|]. congruence.
        * destruct Hf as [|Hf]; [congruence|]. inversion_clear Nd2. now apply IH.
    - pose proof (proj1 (wf_union _) W) as Wm. apply uniq_union in U as [Nd U].
      rewrite Forall_forall in U. destruct v as [| | | | | | |[|[g x] [|]]]; try tauto.
      + assert (M : mem "null" (map tyname types) = true) by (apply mem_In, in_map_iff; exists TNull; auto). rewrite M. eexists; split; reflexivity.
      + destruct H as (t & Ht & <- & Hx). rewrite named_rev by auto. destruct (IH t x) as (w & Ew & S); [apply Wm; auto|auto|exact Hx|]. rewrite Ew.
        exists (VDict [(tyname t, w)]). split; [reflexivity|]. apply same_dict. split.
        * intros k. cbn [assoc]. destruct (String.eqb k (tyname t)); [discriminate|auto].
        * intros k y [E|[]]. injection E as <- <-. cbn [assoc]. rewrite String.eqb_refl. eauto.
  Qed.

  Lemma stored_plain n : forall t v, stored n D t v -> has_bytes v = false.
  Proof using.
    induction n as [|n IH]; intros t v H; [destruct H|]. cbn [stored] in H. destruct t, v; try tauto; cbn [has_bytes]; try reflexivity.
    - apply existsb_false. intros x Hx. eapply IH, H, Hx.
    - destruct H as [_ H]. apply existsb_false. intros [k x] Hx. eapply IH, H, Hx.
    - destruct H as (Nd & Hk & H). apply existsb_false. intros [k x] Hx.
      assert (Hf : In k (map f_name (fields_of D name))) by (apply Hk, in_map_iff; exists (k, x); auto).
      apply in_map_iff in Hf as (f & <- & Hf). eapply (IH (f_type f)), H; [exact Hf|]. now apply NoDup_assoc.
    - destruct d as [|[g x] [|]]; try tauto. destruct H as (t & _ & _ & Hx). cbn [existsb snd]. rewrite (IH _ _ Hx). reflexivity.
  Qed.
  Lemma canonical_plain n : forall t v, canonical n D t v -> has_bytes v = false.
  Proof using.
    induction n as [|n IH]; intros t v H; [destruct H|]. cbn [canonical] in H. destruct t, v; try tauto; cbn [has_bytes]; try reflexivity.
    - apply existsb_false. intros x Hx. eapply IH, H, Hx.
    - apply existsb_false. intros [k x] Hx. eapply IH, H, Hx.
    - apply existsb_false. intros kx Hx. clear - H Hx IH. induction H as [|f y fs d [_ Hc] F IHF]; [destruct Hx|]. destruct Hx as [<-|Hx]; [eapply IH, Hc|auto].
    - destruct d as [|[g x] [|]]; try tauto. destruct H as (t & _ & _ & Hx). cbn [existsb snd]. rewrite (IH _ _ Hx). reflexivity.
  Qed.
End Data.

(** *** Dicts filled by a loop *)
Section Put.
  Context {A V : Type} (wanted : string -> A -> list (string * V) -> bool) (make : A -> res V) (w : A -> bool).
  Lemma put_ok l : forall d, NoDup (map fst l) ->
    (forall k a d', In (k, a) l -> assoc k d' = assoc k d -> wanted k a d' = w a) ->
    (forall k a, In (k, a) l -> w a = true -> exists v, make a = Ok v) ->
    exists d', put_all wanted make l d = Ok d'.
  Proof.
    induction l as [|[k a] l IH]; intros d Nd Hw Hm; [eexists; reflexivity|]. cbn [put_all]. inversion_clear Nd as [|? ? Hn Nd'].
    rewrite (Hw k a d (or_introl eq_refl) eq_refl). destruct (w a) eqn:Wa.
    - destruct (Hm k a (or_introl eq_refl) Wa) as [v Ev]. rewrite Ev. cbn [rbind]. apply IH; [exact Nd'| |].
      + intros k' a' d' Hi E. apply Hw; [now right|]. rewrite E. apply assoc_set_neq. intros ->. apply Hn, in_map_iff. now exists (k, a').
      + intros k' a' Hi. apply (Hm k'). now right.
    - apply IH; [exact Nd'| |]; [intros k' a' d' Hi; apply Hw; now right|intros k' a' Hi; apply (Hm k'); now right].
  Qed.
  Lemma put_inv l : forall d d', NoDup (map fst l) ->
    (forall k a d', In (k, a) l -> assoc k d' = assoc k d -> wanted k a d' = w a) ->
    put_all wanted make l d = Ok d' ->
    forall k, match assoc k l with
              | Some a => if w a then exists v, make a = Ok v /\ assoc k d' = Some v else assoc k d' = assoc k d
              | None => assoc k d' = assoc k d
              end.
  Proof.
    induction l as [|[k a] l IH]; intros d d' Nd Hw E k0; [injection E as <-; reflexivity|]. cbn [put_all] in E. cbn [assoc]. inversion_clear Nd as [|? ? Hn Nd'].
    rewrite (Hw k a d (or_introl eq_refl) eq_refl) in E. assert (Hn' : assoc k l = None) by now apply assoc_None. destruct (w a) eqn:Wa.
    - destruct (make a) as [v|] eqn:Ev; cbn [rbind] in E; [|discriminate].
      assert (Hw' : forall k1 a0 d'0, In (k1, a0) l -> assoc k1 d'0 = assoc k1 (dict_set k v d) -> wanted k1 a0 d'0 = w a0).
      { intros k' a' d1 Hi E1. apply Hw; [now right|]. rewrite E1. apply assoc_set_neq. intros ->. apply Hn, in_map_iff. now exists (k, a'). }
      specialize (IH _ _ Nd' Hw' E). destruct (String.eqb_spec k0 k) as [->|Ne].
      + rewrite Wa. specialize (IH k). rewrite Hn', assoc_set_eq in IH. eauto.
      + specialize (IH k0). now rewrite assoc_set_neq in IH.
    - specialize (IH _ _ Nd' (fun k' a' d1 Hi => Hw k' a' d1 (or_intror Hi)) E). destruct (String.eqb_spec k0 k) as [->|Ne]; [|apply IH].
      rewrite Wa. specialize (IH k). now rewrite Hn' in IH.
  Qed.
End Put.
