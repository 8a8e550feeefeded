(** Signatures accept what matches: completeness for direct patterns. *)
From Verif Require Import Base Effects ScopeModel TypeModel TypeSpec TypeProofs TypeProofs2 TypeProps VersionModel SigModel SigSpec SigProofs SigProofs2.
From Coq Require Import Permutation Lia.
Open Scope string_scope.
Open Scope list_scope.
Open Scope nat_scope.

Lemma plain_inj p q t : plain p t -> plain q t -> p = q.
Proof. intros H1 H2. inversion H1; subst; inversion H2; reflexivity. Qed.
Lemma perms_first {A} : forall (l : list A), exists ps, perms (length l) l = l :: ps.
Proof.
  induction l as [|x l [ps IH]]; [exists []; reflexivity|]. cbn [length perms selections flat_map fst snd]. rewrite IH. cbn [map app]. eauto.
Qed.
Lemma Forall2_length' {A B} (R : A -> B -> Prop) l m : Forall2 R l m -> length l = length m.
Proof. induction 1; cbn; congruence. Qed.
Lemma somes_map {A} (l : list A) : somes (map Some l) = l.
Proof. induction l; cbn; congruence. Qed.

Lemma dict_set_in {V} k (v : V) d x y : In (x, y) (dict_set k v d) -> x = k /\ y = v \/ In (x, y) d.
Proof.
  induction d as [|[k' v'] d IH]; cbn [dict_set].
  - intros [H|[]]. injection H as -> ->. now left.
  - destruct (String.eqb_spec k k') as [->|N].
    + intros [H|H]; [injection H as -> ->; now left|right; now right].
    + intros [H|H]; [right; now left|]. apply IH in H as [H|H]; [now left|right; now right].
Qed.
Section Complete.
  Variable D : defs.
  Variable W : string -> ptype -> Prop.
  Notation Mw := (matches D false (fun _ => W) (fun _ _ => False)).
  (** every label has members, all of them allowed *)
  Definition J (ld : labels) : Prop := forall l d, In (l, d) ld ->
    SigModel.members d <> [] /\ (forall a, In a (SigModel.members d) -> W l a) /\ expectedFields d = None.
  Definition yes (m : L bool) : Prop := forall ld, J ld -> exists ld', m ld = (Ok true, ld') /\ J ld'.
  Lemma yes_ret : yes (ret true).
  Proof using. intros ld H. exists ld. now split. Qed.
  Lemma yes_and m k : yes m -> yes k -> yes (b <~ m ;; if b then k else ret false).
  Proof using. intros H1 H2 ld H. destruct (H1 ld H) as (ld1 & E1 & J1). destruct (H2 ld1 J1) as (ld2 & E2 & J2). exists ld2. unfold bind. rewrite E1. now split. Qed.
  Lemma yes_all {A} (f : A -> L bool) l : (forall x, In x l -> yes (f x)) -> yes (allM (map f l)).
  Proof using. induction l as [|x l IH]; intros H; [apply yes_ret|]. cbn [map allM]. apply yes_and; [apply H; now left|]. apply IH. intros. apply H. now right. Qed.
  Lemma yes_member l a k : W l a -> yes k -> yes (_ <~ add_member l a ;; k).
  Proof using.
    intros Hw Hk ld H. unfold bind, add_member. apply Hk. intros l' d Hd. apply dict_set_in in Hd as [[-> ->]|Hd].
    - cbn [SigModel.members expectedFields]. destruct (assoc l ld) as [d0|] eqn:E.
      + destruct (H l d0 (assoc_In _ _ _ E)) as (A & B & C). split; [destruct (SigModel.members d0); discriminate|]. split; [|exact C].
        intros x Hx. apply in_app_or in Hx as [Hx|[<-|[]]]; auto.
      + split; [discriminate|]. split; [|reflexivity]. intros x [<-|[]]. exact Hw.
    - now apply H.
  Qed.
  Lemma plain_check q t u r : plain q u -> check D q (PVal t) true r = ret (ty_eqb t u).
  Proof using. intros H. inversion H; subst; destruct t; try reflexivity; destruct r; reflexivity. Qed.
  Lemma strict_plain q t r : is_plain q = true -> Mw true r q (PVal t) -> plain q t.
  Proof using. intros H Hm. inversion Hm; subst; try discriminate; assumption. Qed.
  Lemma plain_of q : is_plain q = true -> exists u, plain q u.
  Proof using. destruct q; try discriminate; intros _; eexists; constructor. Qed.
  Lemma ty_eqb_refl_plain q t : plain q t -> ty_eqb t t = true.
  Proof using. now destruct 1. Qed.
  Lemma take_plain r t : forall (aq : list (option pat)) q, Forall (fun o => match o with Some p => is_plain p = true | None => True end) aq ->
    In q (somes aq) -> plain q t -> forall ld, exists aq', take (map (option_map (check D)) aq) t r ld = (Ok (Some (map (option_map (check D)) aq')), ld) /\
      Permutation (somes aq) (q :: somes aq') /\ Forall (fun o => match o with Some p => is_plain p = true | None => True end) aq'.
  Proof using.
    induction aq as [|o aq IH]; intros q F Hin Hp ld; [destruct Hin|]. inversion F as [|? ? Fo F']; subst. destruct o as [p|]; cbn [map option_map take somes].
    - destruct (plain_of p Fo) as [u Hu]. unfold bind. rewrite (plain_check p t u r Hu). cbn [ret]. destruct (ty_eqb t u) eqn:E.
      + apply ty_eqb_eq in E. subst u. exists (None :: aq). split; [reflexivity|]. rewrite (plain_inj q p t Hp Hu). split; [reflexivity|]. now constructor.
      + cbn [somes] in Hin. destruct Hin as [->|Hin].
        * assert (u = t) by (inversion Hu; subst; inversion Hp; reflexivity). subst. now rewrite (ty_eqb_refl_plain q t Hp) in E.
        * destruct (IH q F' Hin Hp ld) as (aq' & Et & Pm & F''). unfold ret. rewrite Et. cbn [option_map]. exists (Some p :: aq'). split; [reflexivity|].
          cbn [somes]. split; [rewrite Pm; apply perm_swap|now constructor].
    - cbn [somes] in Hin. destruct (IH q F' Hin Hp ld) as (aq' & Et & Pm & F''). unfold bind. rewrite Et. exists (None :: aq'). split; [reflexivity|].
      cbn [somes]. split; [exact Pm|now constructor].
  Qed.
  Lemma one_perm_plain r : forall ts (aq : list (option pat)) used left, Forall (fun o => match o with Some p => is_plain p = true | None => True end) aq ->
    Permutation (somes aq) (used ++ left) -> Forall2 plain used ts -> forall ld, one_perm (map (option_map (check D)) aq) ts r ld = (Ok true, ld).
  Proof using.
    induction ts as [|t ts IH]; intros aq used left F Pm F2 ld; [reflexivity|]. inversion F2 as [|q ? used' ? Hq F2']; subst. cbn [one_perm].
    destruct (take_plain r t aq q F) with (ld := ld) as (aq' & Et & Pm' & F').
    - eapply Permutation_in; [apply Permutation_sym, Pm|]. now left.
    - exact Hq.
    - unfold bind. rewrite Et. apply (IH aq' used' left); [exact F'| |exact F2']. cbn [app] in Pm. rewrite Pm' in Pm. now apply Permutation_cons_inv in Pm.
  Qed.
  Lemma has_field_type n k t : NoDup (field_names D n) -> has_field D n k t -> field_type D n k = Some t.
  Proof using.
    unfold field_names, field_type, has_field. intros Hn (f & Hf & <- & <-). induction (fields_of D n) as [|g fs IH]; [destruct Hf|].
    cbn [map] in Hn. inversion Hn as [|? ? N Hn']; subst. cbn [find]. destruct Hf as [->|Hf]; [now rewrite String.eqb_refl|].
    destruct (String.eqb_spec (f_name g) (f_name f)) as [E|]; [|now apply IH]. exfalso. apply N. rewrite E. now apply in_map.
  Qed.
  Hypothesis WD : wf_defs D.
  Lemma names_nodup n : NoDup (field_names D n).
  Proof using WD. apply WD. Qed.
  Lemma check_complete : forall p, direct p = true -> forall a s r, Mw s r p a -> yes (check D p a s r).
  Proof using WD.
    assert (Fields : forall fs, Forall (fun kq => direct (snd kq) = true -> forall a s r, Mw s r (snd kq) a -> yes (check D (snd kq) a s r)) fs ->
      forallb (fun kq : string * pat => match kq with (_, q) => direct q end) fs = true -> forall n r,
      Forall (fun kq => exists t, has_field D n (fst kq) t /\ Mw true r (snd kq) (PVal t)) fs ->
      forallb (fun k => mem k (field_names D n)) (map fst fs) = true /\
      yes (allM (map (fun kq : string * pat => match kq with (k, q) => match field_type D n k with Some u => check D q (PVal u) true r | None => raise (PyErr "KeyError") end end) fs))).
    { intros fs IH Hd n r F. rewrite Forall_forall in IH, F. rewrite forallb_forall in Hd. split.
      - apply forallb_forall. intros k Hk. apply in_map_iff in Hk as (kq & <- & Hkq). destruct (F _ Hkq) as (t & (f & Hf & Hn & _) & _). apply mem_In. rewrite <- Hn. now apply in_map.
      - apply yes_all. intros [k q] Hkq. destruct (F _ Hkq) as (t & Hf & Hm). cbn [fst snd] in *. rewrite (has_field_type n k t (names_nodup n) Hf).
        apply (IH _ Hkq); [apply (Hd _ Hkq)|exact Hm]. }
    induction p using pat_induct; intros Hd a s' r Hm.
    1-8: inversion Hm; subst; match goal with Hp : plain _ _ |- _ => inversion Hp; subst end;
       try match goal with Hp : widens _ _ |- _ => inversion Hp; subst end; try destruct s'; try destruct r; apply yes_ret.
    - inv_match Hm. cbn [check direct] in *. auto.
    - inv_match Hm. cbn [check direct] in *. auto.
    - cbn [direct] in Hd. rewrite forallb_forall in Hd. inv_match Hm.
      + cbn [check]. match goal with Hp : Permutation _ _ |- _ => rename Hp into Pm end. match goal with Hf : Forall2 _ _ _ |- _ => rename Hf into F2 end.
        intros ld HJ. exists ld. split; [|exact HJ]. unfold check_union. destruct (perms_first ts) as [ps ->]. cbn [try_perms].
        replace (map Some (map (fun q => check D q) qs)) with (map (option_map (check D)) (map Some qs)) by (rewrite !map_map; reflexivity).
        rewrite (one_perm_plain r ts (map Some qs) used left); [reflexivity| | |].
        * apply Forall_map, Forall_forall. intros q Hq. now apply Hd.
        * now rewrite somes_map.
        * eapply Forall2_in_impl; [|exact F2]. intros q t Hq. apply strict_plain. apply Hd. eapply Permutation_in; [apply Permutation_sym, Pm|apply in_or_app; now left].
      + match goal with Hq : In _ qs |- _ => rename Hq into Hq0 end. match goal with Hu : is_union t = false |- _ => rename Hu into Nu end.
        assert (E : check D (QUnion qs) (PVal t) s' r = anyM (map (fun q => check D q (PVal t) s' r) qs)) by (destruct t; try reflexivity; discriminate || congruence).
        rewrite E. intros ld HJ. exists ld. split; [|exact HJ].
        assert (Pure : forall q', In q' qs -> exists b, check D q' (PVal t) s' r = ret b).
        { intros q' Hq'. apply Hd in Hq'. destruct q'; try discriminate; destruct t; try (eexists; reflexivity). }
        assert (Yq : check D q (PVal t) s' r = ret true).
        { destruct (Pure q Hq0) as [b Eb]. assert (Yes : yes (check D q (PVal t) s' r)).
          { rewrite Forall_forall in H. apply (H q Hq0); [|assumption]. specialize (Hd q Hq0). now destruct q. }
          rewrite Eb in *. destruct (Yes ld HJ) as (ld' & Ey & _). unfold ret in Ey. injection Ey as ->. reflexivity. }
        clear -Pure Yq Hq0. induction qs as [|q1 qs IH]; [destruct Hq0|]. cbn [map anyM]. destruct (Pure q1 (or_introl eq_refl)) as [b Eb]. unfold bind. rewrite Eb.
        cbn [ret]. unfold ret. destruct b; [reflexivity|]. destruct Hq0 as [->|Hq0]; [rewrite Eb in Yq; exfalso; assert (C : ret false ld = (ret true : L bool) ld) by (now rewrite Yq); discriminate C|].
        apply IH; [exact Hq0|intros; apply Pure; now right].
    - inv_match Hm; cbn [check opt_name]; [rewrite Nat.eqb_refl|rewrite String.eqb_refl]; apply yes_ret.
    - inv_match Hm; cbn [check opt_name]; [destruct (list_eq_dec _ _ _); [|congruence]|rewrite String.eqb_refl]; apply yes_ret.
    - inv_match Hm; cbn [check opt_name]; [rewrite String.eqb_refl; apply yes_ret|].
      match goal with Hf : Forall _ fs, Hf' : Forall _ fs |- _ => destruct (Fields fs Hf Hd n r Hf') as [F1 F2] end. rewrite F1. cbn [andb].
      replace (forallb (fun k => mem k (map fst fs)) (field_names D n)) with true; [exact F2|]. symmetry. apply forallb_forall. intros k Hk. apply mem_In.
      apply in_map_iff in Hk as (f & <- & Hf). auto.
    - inv_match Hm. cbn [check]. cbn [direct] in Hd. apply andb_prop in Hd as [Hq Hr]. rewrite forallb_forall in Hq. rewrite Forall_forall in H.
      apply yes_and; [|now apply IHp].
      replace (combine (map (fun q => check D q) qs) ts) with (map (fun qt => (check D (fst qt), snd qt)) (combine qs ts)).
      + rewrite map_map. apply yes_all. intros [q t] Hqt. cbn [fst snd]. match goal with Hf : Forall _ (combine qs ts) |- _ => rewrite Forall_forall in Hf; specialize (Hf _ Hqt); cbn [fst snd] in Hf end.
        pose proof (in_combine_l _ _ _ _ Hqt). apply H; auto.
      + clear. revert ts. induction qs as [|q qs IH]; intros [|t ts]; cbn; try reflexivity. now rewrite IH.
    - inv_match Hm.
      + assert (E : check D (QWild l None) a s' r = (_ <~ add_member l a ;; ret true)) by (destruct a as [t|]; [destruct t; try reflexivity; congruence|reflexivity]).
        rewrite E. apply yes_member; [assumption|apply yes_ret].
      + match goal with N0 : t <> TExc |- _ => rename N0 into N end.
        assert (E : check D (QWild l (Some ts)) (PVal t) s' r = (if existsb (ty_eqb t) ts then _ <~ add_member l (PVal t) ;; ret true else ret false)) by (destruct t; try reflexivity; congruence).
        rewrite E. replace (existsb (ty_eqb t) ts) with true; [apply yes_member; [assumption|apply yes_ret]|]. symmetry. apply existsb_exists. exists t. split; [assumption|].
        clear. revert t. fix IH 1. intros t. destruct t; cbn [ty_eqb]; try reflexivity; try apply String.eqb_refl; try apply IH.
        * now rewrite String.eqb_refl, Nat.eqb_refl.
        * rewrite String.eqb_refl. destruct (list_eq_dec _ _ _); [reflexivity|congruence].
        * induction types as [|x xs IHx]; [reflexivity|]. now rewrite IH, IHx.
    - inv_match Hm. cbn [check]. match goal with Hf : Forall _ fs, Hf' : Forall _ fs |- _ => destruct (Fields fs Hf Hd n r Hf') as [F1 F2] end.
      rewrite F1. now apply yes_member.
    - inv_match Hm. assert (E : check D (QWildEnum l) a s' r = (_ <~ add_member l a ;; ret true)) by (destruct a as [t|]; [destruct t; try reflexivity; congruence|reflexivity]).
      rewrite E. apply yes_member; [assumption|apply yes_ret].
    - inv_match Hm. assert (E : check D (QWildFixed l) a s' r = (_ <~ add_member l a ;; ret true)) by (destruct a as [t|]; [destruct t; try reflexivity; congruence|reflexivity]).
      rewrite E. apply yes_member; [assumption|apply yes_ret].
    - discriminate.
  Qed.
End Complete.

(** *** the common type of copies of one type *)
Section Copies.
  Variable D : defs.
  Hypothesis WD : wf_defs D.
  Lemma subst_first_nodup c out : ~ In c out -> NoDup out -> NoDup (subst_first D c out).
  Proof using.
    intros N H. induction H as [|y out Hy H IH]; cbn [subst_first]; [constructor; [exact N|constructor]|].
    destruct (accepts D D c y); constructor.
    - intros Hc. apply N. now right.
    - exact H.
    - intros Hc. apply subst_first_sub in Hc as [->|Hc]; [apply N; now left|now apply Hy].
    - apply IH. intros Hc. apply N. now right.
  Qed.
  Lemma add_type_nodup c out : wf c -> NoDup out -> NoDup (add_type D c out).
  Proof using WD.
    intros Wc H. unfold add_type. destruct (existsb _ _) eqn:E; [exact H|]. apply subst_first_nodup; [|exact H]. intros Hc.
    assert (existsb (fun y => accepts D D y c) out = true) by (apply existsb_exists; exists c; split; [exact Hc|now apply C10_refl]). congruence.
  Qed.
  Lemma distinct_nodup cs : Forall wf cs -> NoDup (distinct_types D cs).
  Proof using WD.
    intros Wc. unfold distinct_types. rewrite distinct_eq by assumption.
    assert (Fm : Forall wf (flat_map TypeProofs2.members cs)).
    { apply Forall_flat_map. eapply Forall_impl; [|exact Wc]. intros c Hc. eapply Forall_impl; [|apply members_flat, Hc]. now intros x [H _]. }
    assert (N : NoDup (@nil ty)) by constructor. revert N. generalize (@nil ty). induction Fm as [|c ms Hc _ IH]; intros out N; cbn [fold_left]; [exact N|].
    apply IH. now apply add_type_nodup.
  Qed.
  Lemma count_le (f : ty -> bool) l m : NoDup l -> incl l m -> length (filter f l) <= length (filter f m).
  Proof using.
    intros N Hi. apply NoDup_incl_length; [now apply NoDup_filter|]. intros x Hx. apply filter_In in Hx as [H1 H2]. apply filter_In. auto.
  Qed.
  Lemma forallb_copies {A} (f : A -> bool) t k : forallb f (repeat t (S k)) = f t.
  Proof using. induction k as [|k IH]; [cbn; now rewrite andb_true_r|]. cbn [repeat forallb] in *. rewrite IH. now destruct (f t). Qed.
  Lemma all_some_copies {A B} (f : A -> option B) t k : all_some f (repeat t (S k)) = option_map (fun b => repeat b (S k)) (f t).
  Proof using. induction k as [|k IH]; [cbn; now destruct (f t)|]. cbn [repeat all_some] in *. rewrite IH. now destruct (f t). Qed.
  Lemma same_name_copies sel t k : same_name sel (repeat t (S k)) = match sel t with Some _ => Some (Ok t) | None => None end.
  Proof using.
    unfold same_name. rewrite all_some_copies. destruct (sel t) as [n|]; [|reflexivity]. cbn [option_map repeat].
    replace (forallb (String.eqb n) (repeat n k)) with true; [reflexivity|]. symmetry. apply forallb_forall. intros x Hx. apply repeat_spec in Hx as ->. apply String.eqb_refl.
  Qed.
  Lemma broadest_copies t : wf t -> modest t = true -> forall n k, broadest D n (repeat t (S k)) <> incompatible.
  Proof using WD.
    revert t. fix IH 1. intros t Wt Mt n k. destruct n as [|n]; [discriminate|].
    assert (Eq : repeat t (S k) = t :: repeat t k) by reflexivity.
    cbn [broadest]. rewrite Eq at 1. unfold isb. rewrite !forallb_copies, !all_some_copies, !same_name_copies.
    destruct t; cbn [option_map items_of values_of fixed_name enum_name record_name]; try (cbn; discriminate).
    - specialize (IH t Wt Mt n k). destruct (broadest D n (repeat t (S k))) as [u|e]; [discriminate|]. cbn [rbind]. intros E. apply IH. unfold incompatible in *. congruence.
    - specialize (IH t Wt Mt n k). destruct (broadest D n (repeat t (S k))) as [u|e]; [discriminate|]. cbn [rbind]. intros E. apply IH. unfold incompatible in *. congruence.
    - clear IH. set (cs := repeat (TUnion types) (S k)).
      assert (Wc : Forall wf cs) by (apply Forall_forall; intros x Hx; apply repeat_spec in Hx as ->; exact Wt).
      destruct (distinct_ok D WD cs Wc) as (_ & _ & Sub). cbv zeta in Sub. pose proof (distinct_nodup cs Wc) as Nd.
      assert (Hi : incl (distinct_types D cs) types).
      { intros y Hy. destruct (Sub y Hy) as (c & Hc & Hm). apply repeat_spec in Hc as ->. exact Hm. }
      cbn [modest] in Mt. apply andb_prop in Mt as [M1 M2]. apply Nat.leb_le in M1, M2. unfold count in M1, M2.
      pose proof (count_le is_fixed _ _ Nd Hi) as L1. pose proof (count_le is_enum _ _ Nd Hi) as L2.
      change (fun t => match t with TFixed _ _ => true | _ => false end) with is_fixed in M1. change (fun t => match t with TEnum _ _ => true | _ => false end) with is_enum in M2.
      destruct (Nat.ltb_spec 1 (length (filter is_fixed (distinct_types D cs)))); [lia|].
      destruct (Nat.ltb_spec 1 (length (filter is_enum (distinct_types D cs)))); [lia|].
      unfold make_union. destruct (negb _); [discriminate|]. destruct (mem _ _); discriminate.
    - destruct Wt.
  Qed.
  Definition modestp (a : ptype) : Prop := match a with PVal t => wf t /\ modest t = true | PFcn _ _ => True end.
  Lemma ty_eqb_refl : forall t, ty_eqb t t = true.
  Proof using.
    fix IH 1. intros t. destruct t; cbn [ty_eqb]; try reflexivity; try apply String.eqb_refl; try apply IH.
    - now rewrite String.eqb_refl, Nat.eqb_refl.
    - rewrite String.eqb_refl. destruct (list_eq_dec _ _ _); [reflexivity|congruence].
    - induction types as [|x xs IHx]; [reflexivity|]. now rewrite IH, IHx.
  Qed.
  Lemma fcn_eqb_refl f : fcn_eqb f f = true.
  Proof using. unfold fcn_eqb. rewrite ty_eqb_refl, andb_true_r. induction (fst f) as [|x xs IH]; [reflexivity|]. cbn. now rewrite ty_eqb_refl, IH. Qed.
  Lemma broadest_ptype_copies a k : modestp a -> broadest_ptype D fcn_eqb (repeat a (S k)) <> incompatible.
  Proof using WD.
    intros Ha. unfold broadest_ptype. destruct a as [t|ps r].
    - destruct Ha as [Wt Mt]. rewrite filter_all.
      2:{ intros x Hx. apply repeat_spec in Hx as ->. destruct t; try reflexivity. destruct Wt. }
      unfold vals_of. rewrite all_some_copies. cbn [option_map]. unfold broadestType. rewrite filter_all.
      2:{ intros x Hx. apply repeat_spec in Hx as ->. destruct t; try reflexivity. destruct Wt. }
      pose proof (broadest_copies t Wt Mt (S (list_max (map depth (repeat t (S k))))) k) as Q.
      destruct (broadest D (S (list_max (map depth (repeat t (S k))))) (repeat t (S k))) as [u|e]; [discriminate|]. cbn [rbind]. intros E. apply Q. unfold incompatible in *. congruence.
    - rewrite filter_all by (intros x Hx; now apply repeat_spec in Hx as ->). unfold vals_of, fcns_of. rewrite !all_some_copies. cbn [option_map repeat].
      replace (forallb _ _) with true; [discriminate|]. symmetry. apply forallb_forall. intros x Hx. apply repeat_spec in Hx as ->. apply fcn_eqb_refl.
  Qed.
  Lemma determine_all_copies sigma ld : (forall l a, sigma l = Some a -> modestp a) -> J (fun l a => sigma l = Some a) ld -> determine_all D ld <> incompatible.
  Proof using WD.
    intros Hs. unfold incompatible. induction ld as [|[k d] ld IH]; intros HJ; [discriminate|]. cbn [determine_all].
    assert (Q : determine D d <> incompatible).
    { destruct (HJ k d) as (N & A & E); [now left|]. unfold determine. rewrite E.
      destruct (SigModel.members d) as [|a ms] eqn:Em; [congruence|].
      assert (Es : a :: ms = repeat a (S (length ms))).
      { change (S (length ms)) with (length (a :: ms)). apply Forall_eq_repeat. apply Forall_forall. intros x Hx.
        pose proof (A a (or_introl eq_refl)). pose proof (A x Hx). congruence. }
      rewrite Es. pose proof (broadest_ptype_copies a (length ms) (Hs k a (A a (or_introl eq_refl)))) as Q. cbv zeta in *.
      destruct (broadest_ptype D fcn_eqb (repeat a (S (length ms)))) as [u|e]; [discriminate|]. cbn [rbind]. exact Q. }
    destruct (determine D d) as [t|e]; cbn [rbind]; [|unfold incompatible in Q; intros Ee; apply Q; congruence].
    assert (Q' : determine_all D ld <> Raise (PyErr "IncompatibleTypes")) by (apply IH; intros l0 d0 H0; apply HJ; now right).
    destruct (determine_all D ld) as [rest|e]; [discriminate|]. intros Ee. apply Q'. cbn [rbind] in Ee. congruence.
  Qed.
  Lemma assign_ret_incompatible asg p : assign_ret p asg <> Raise (PyErr "IncompatibleTypes").
  Proof using.
    induction p using pat_induct; try discriminate; try (cbn [assign_ret]; unfold assigned; destruct (assoc _ asg); discriminate).
    - cbn [assign_ret]. destruct (assign_ret p asg) as [[t|]|e]; cbn; congruence.
    - cbn [assign_ret]. destruct (assign_ret p asg) as [[t|]|e]; cbn; congruence.
    - rewrite assign_ret_union. assert (Q : ret_union asg qs <> Raise (PyErr "IncompatibleTypes")).
      { induction H as [|q qs Hq F IH]; [discriminate|]. cbn [ret_union]. destruct (assign_ret q asg) as [[t|]|e]; cbn [rbind must_avro]; try congruence.
        destruct (ret_union asg qs); cbn [rbind]; congruence. }
      destruct (ret_union asg qs) as [ts|]; cbn [rbind]; [|congruence]. unfold make_union. destruct (negb _); [discriminate|]. destruct (mem _ _); discriminate.
    - destruct o; discriminate.
    - destruct o; discriminate.
    - destruct o; discriminate.
  Qed.
End Copies.

(** A direct signature does not turn down a call whose labels each stand for one type throughout. *)
Lemma sig_accepts_complete D sizes symbols s args v sigma : document D sizes symbols -> Forall (doc_ptype sizes symbols) args ->
  Forall (fun kp => direct (snd kp) = true) (s_params s) -> (forall l a, sigma l = Some a -> modestp a) ->
  (current (s_life s) v || deprecated (s_life s) v)%bool = true ->
  Forall2 (fun p a => matches D false (fun _ l a => sigma l = Some a) (fun _ _ => False) false false p a) (map snd (s_params s)) args ->
  sig_accepts D s args v <> Ok None.
Proof.
  intros DOC Hargs Hd Hs Hv F H. unfold sig_accepts in H. rewrite Hv in H.
  assert (Hl : length (s_params s) = length args) by (erewrite <- map_length; apply (Forall2_length' _ _ _ F)).
  rewrite Hl, Nat.eqb_refl in H. cbn [negb] in H.
  assert (Y : yes (fun l a => sigma l = Some a) (check_all D (map snd (s_params s)) args)).
  { unfold check_all. apply yes_all. intros [p a] Hin. cbn [fst snd]. apply check_complete; [apply DOC| |].
    - rewrite Forall_forall in Hd. apply in_combine_l in Hin. apply in_map_iff in Hin as (kp & <- & Hk). now apply Hd.
    - clear -F Hin. induction F as [|q b qs bs Hm F IH]; [destruct Hin|]. destruct Hin as [E|Hin]; [injection E as -> ->; exact Hm|now apply IH]. }
  destruct (Y []) as (ld & Ec & HJ); [intros l d []|]. rewrite Ec in H.
  assert (R : resolve D s args ld <> Raise (PyErr "IncompatibleTypes")).
  { unfold resolve. pose proof (determine_all_copies D (proj1 DOC) sigma ld Hs HJ) as Q. unfold incompatible in Q.
    destruct (determine_all D ld) as [asg|e] eqn:Ed; cbn [rbind]; [|congruence].
    apply (check_all_spec D sizes symbols DOC) in Ec; [|now rewrite map_length|exact Hargs]. destruct Ec as [I1 F1].
    pose proof (determine_all_solves D sizes symbols DOC ld asg I1 Ed) as Sv.
    assert (F' : Forall2 (fun p a => matches D false (stands D false (fun l => assoc l asg)) (fun _ _ => False) false false p a) (map snd (s_params s)) args).
    { eapply Forall2_in_impl; [|exact F1]. intros p a _. apply matches_impl; [tauto| |unfold noE; tauto]. intros r l a0. now apply solves_stands. }
    destruct (assign_all_spec D sizes symbols DOC asg _ _ _ Hargs F') as (ts' & A & _). rewrite A. cbn [rbind].
    pose proof (assign_ret_incompatible asg (s_ret s)) as Q'. destruct (assign_ret (s_ret s) asg); cbn [rbind]; congruence. }
  destruct (resolve D s args ld) as [r|e]; [discriminate|]. destruct e; try discriminate.
  match type of H with context [String.eqb ?x ?y] => destruct (String.eqb_spec x y) as [E|E] end; [subst; now apply R|discriminate].
Qed.
