(** The constructor of schemas does what the specification says. *)
From Verif Require Import Base PyNum ScopeModel TypeModel TypeSpec TypeProofs DeclModel DeclSpec.
From Coq Require Import Permutation.
Open Scope string_scope.
Open Scope list_scope.

Lemma desc_rect2 (P : desc -> Prop) :
  (forall s, P (DName s)) -> (forall d, P d -> P (DArray d)) -> (forall d, P d -> P (DMap d)) ->
  (forall ds, Forall P ds -> P (DUnion ds)) -> (forall n fs, Forall P (map snd fs) -> P (DRecord n fs)) ->
  (forall n s, P (DEnum n s)) -> (forall n k, P (DFixed n k)) -> forall d, P d.
Proof.
  intros HN HA HM HU HR HE HF. fix IH 1. intros [s|d|d|ds|n fs|n s|n k]; [apply HN|apply HA, IH|apply HM, IH| | |apply HE|apply HF].
  - apply HU. revert ds. fix IHl 1. intros [|d ds]; constructor; [apply IH|apply IHl].
  - apply HR. revert fs. fix IHl 1. intros [|[p d] fs]; cbn [map snd]; constructor; [apply IH|apply IHl].
Qed.

(** *** Scoping *)
Lemma scoped_ext K K' l : (forall x, In x K <-> In x K') -> scoped K l <-> scoped K' l.
Proof.
  revert K K'. induction l as [|[n|n] l IH]; intros K K' E; cbn [scoped]; [tauto| |].
  - rewrite (E n), (IH (n :: K) (n :: K')); [tauto|]. intros x. cbn. rewrite (E x). tauto.
  - rewrite (E n), (IH K K' E). tauto.
Qed.
Lemma scoped_app K a b : scoped K (a ++ b) <-> scoped K a /\ scoped (K ++ defined a) b.
Proof.
  revert K. induction a as [|[n|n] a IH]; intros K; cbn [app scoped defined flat_map].
  - rewrite app_nil_r. tauto.
  - rewrite IH. rewrite (scoped_ext ((n :: K) ++ defined a) (K ++ n :: defined a) b); [tauto|]. intros x. cbn. rewrite !in_app_iff. cbn. tauto.
  - rewrite IH. tauto.
Qed.
Lemma defined_app a b : defined (a ++ b) = defined a ++ defined b.
Proof. apply flat_map_app. Qed.
Lemma scoped_defined K l : scoped K l -> NoDup (defined l) /\ forall n, In n (defined l) -> ~ In n K.
Proof.
  revert K. induction l as [|[n|n] l IH]; intros K H; cbn [scoped defined flat_map app] in *.
  - split; [constructor|intros ? []].
  - destruct H as [Hn H]. destruct (IH _ H) as [U D]. split.
    + constructor; [|exact U]. intros X. apply (D n X). now left.
    + intros x [<-|Hx]; [exact Hn|]. intros X. apply (D x Hx). now right.
  - destruct H as [_ H]. exact (IH _ H).
Qed.
Lemma scoped_weaken K K' l : scoped K l -> incl K K' -> (forall n, In n (defined l) -> ~ In n K') -> scoped K' l.
Proof.
  revert K K'. induction l as [|[n|n] l IH]; intros K K' H I D; cbn [scoped defined flat_map app] in *; [exact Logic.I| |].
  - destruct H as [Hn H]. split; [apply D; now left|]. pose proof (scoped_defined _ _ H) as [_ Dn].
    apply (IH (n :: K)); [exact H|intros x [<-|X]; [now left|right; now apply I]|]. intros x Hx [<-|X]; [apply (Dn n Hx); now left|]. apply (D x); [now right|exact X].
  - destruct H as [Hn H]. split; [now apply I|]. now apply (IH K).
Qed.

(** *** Names and labels *)
Definition wellnamed (N : names) : Prop := forall n t, In (n, t) (nm_types N) -> named_type t = Some n.
Definition label_ty (t : ty) : label :=
  match named_type t with Some n => Named n | None => if DeclModel.is_union t then Nested else Unnamed (tyname t) end.
Lemma distinct_NoDup l : distinct l = true <-> NoDup l.
Proof.
  induction l as [|x l IH]; cbn [distinct]; [split; [constructor|reflexivity]|].
  rewrite andb_true_iff, negb_true_iff, IH. split.
  - intros [H U]. constructor; [|exact U]. intros X. apply mem_In in X. congruence.
  - intros U. inversion U; subst. split; [|assumption]. destruct (mem x l) eqn:E; [apply mem_In in E; contradiction|reflexivity].
Qed.
Lemma nested_union t : named_type t = None -> label_ty t = Nested <-> DeclModel.is_union t = true.
Proof. unfold label_ty. intros ->. destruct (DeclModel.is_union t); split; congruence. Qed.
Lemma union_ok_spec ts : union_ok ts = true <-> NoDup (map label_ty ts) /\ ~ In Nested (map label_ty ts).
Proof.
  unfold union_ok. rewrite !andb_true_iff, negb_true_iff, !distinct_NoDup.
  assert (HN : ~ In Nested (map label_ty ts) <-> existsb DeclModel.is_union ts = false).
  { induction ts as [|t ts IH]; cbn [map In existsb]; [tauto|]. rewrite orb_false_iff, <- IH.
    assert (label_ty t = Nested <-> DeclModel.is_union t = true) by (unfold label_ty; destruct t; cbn; split; congruence).
    destruct (DeclModel.is_union t); intuition congruence. }
  rewrite HN. cut (existsb DeclModel.is_union ts = false -> (NoDup (map label_ty ts) <->
    NoDup (somes (map named_type ts)) /\ NoDup (map tyname (filter (fun t => match named_type t with None => true | Some _ => false end) ts)))); [tauto|].
  clear HN. induction ts as [|t ts IH]; cbn [map existsb somes filter]; [intros _; split; [split; constructor|constructor]|].
  intros E. apply orb_false_iff in E as [Et E]. specialize (IH E).
  assert (IN : forall n, In (Named n) (map label_ty ts) <-> In n (somes (map named_type ts))).
  { intros n. clear. induction ts as [|t ts IH]; cbn [map In somes]; [tauto|]. rewrite IH. unfold label_ty at 1. destruct (named_type t) as [m|]; cbn [In].
    - split; intros [X|X]; auto; left; congruence.
    - split; [|now right]. intros [X|X]; [|exact X]. destruct (DeclModel.is_union t); discriminate. }
  assert (IU : forall n, In (Unnamed n) (map label_ty ts) <-> In n (map tyname (filter (fun t => match named_type t with None => true | Some _ => false end) ts))).
  { intros n. clear - E. induction ts as [|t ts IH]; cbn [map In filter]; [tauto|]. cbn [existsb] in E. apply orb_false_iff in E as [Et E]. rewrite (IH E).
    unfold label_ty at 1. rewrite Et. destruct (named_type t) as [m|]; cbn [map In].
    - split; [|now right]. intros [X|X]; [discriminate|exact X].
    - split; intros [X|X]; auto; left; congruence. }
  unfold label_ty at 1. rewrite Et. destruct (named_type t) as [n|] eqn:En; cbn [map somes].
  - split.
    + intros U. inversion U; subst. apply IH in H2 as [U1 U2]. split; [|exact U2]. constructor; [|exact U1]. rewrite <- IN. exact H1.
    + intros [U1 U2]. inversion U1; subst. constructor; [rewrite IN; assumption|]. apply IH. auto.
  - split.
    + intros U. inversion U; subst. apply IH in H2 as [U1 U2]. split; [exact U1|]. constructor; [|exact U2]. rewrite <- IU. exact H1.
    + intros [U1 U2]. inversion U2; subst. constructor; [rewrite IU; assumption|]. apply IH. auto.
Qed.
Lemma prim_unnamed s t : prim_of s = Some t -> label_ty t = Unnamed s.
Proof.
  unfold prim_of. repeat (match goal with |- context [if String.eqb s ?k then _ else _] => destruct (String.eqb_spec s k) as [->|] end; [intros [= <-]; reflexivity|]). discriminate.
Qed.

Lemma declared_defined d : map fst (declared d) = defined (events d).
Proof.
  induction d as [s|d IH|d IH|ds IH|n fs IH|n s|n k] using desc_rect2; cbn [declared events map defined flat_map fst app]; auto.
  - destruct (prim_of s); reflexivity.
  - induction IH as [|d ds H _ IHl]; [reflexivity|]. cbn [flat_map]. rewrite map_app, defined_app, H, IHl. reflexivity.
  - f_equal. induction fs as [|[p d] fs IHl]; [reflexivity|]. inversion IH; subst. cbn [flat_map snd]. rewrite map_app. cbn [snd map] in *. rewrite H1, IHl by assumption. unfold defined. now rewrite flat_map_app.
Qed.
Lemma declared_all {A} (f : A -> desc) l : map fst (flat_map (fun x => declared (f x)) l) = defined (flat_map (fun x => events (f x)) l).
Proof. induction l as [|x l IH]; [reflexivity|]. cbn [flat_map]. now rewrite map_app, defined_app, declared_defined, IH. Qed.
Lemma declared_named d n t : In (n, t) (declared d) -> named_type t = Some n.
Proof.
  induction d as [s|d IH|d IH|ds IH|m fs IH|m s|m k] using desc_rect2; cbn [declared]; auto.
  - intros [].
  - induction IH as [|d ds H _ IHl]; [intros []|]. cbn [flat_map]. rewrite in_app_iff. intros [X|X]; auto.
  - intros [[= <- <-]|X]; [reflexivity|]. induction fs as [|[p d] fs IHl]; [destruct X|]. inversion IH; subst. cbn [flat_map snd map] in *. apply in_app_iff in X as [X|X]; auto.
  - intros [[= <- <-]|[]]. reflexivity.
  - intros [[= <- <-]|[]]. reflexivity.
Qed.

(** *** build *)
Definition agrees (T : string -> ty) (l : list (string * ty)) : Prop := forall n t, assoc n l = Some t -> T n = t.
Definition built (d : desc) (N : names) (r : res (ty * names)) : Prop :=
  match r with
  | Ok (t, N') => sane d /\ scoped (map fst (nm_types N)) (events d) /\ nm_types N' = nm_types N ++ declared d /\ label_ty t = label_of d /\
      (forall T, agrees T (nm_types N') -> t = means T d /\ nm_defs N' = nm_defs N ++ records T d)
  | Raise e => ~ (sane d /\ scoped (map fst (nm_types N)) (events d)) /\ (e = parse_exception \/ e = AvroErr /\ ~ sane d)
  end.
Definition built_all (ds : list desc) (N : names) (r : res (list ty * names)) : Prop :=
  match r with
  | Ok (ts, N') => fold_right (fun x P => sane x /\ P) True ds /\ scoped (map fst (nm_types N)) (flat_map events ds) /\
      nm_types N' = nm_types N ++ flat_map declared ds /\ map label_ty ts = map label_of ds /\
      (forall T, agrees T (nm_types N') -> ts = map (means T) ds /\ nm_defs N' = nm_defs N ++ flat_map (records T) ds)
  | Raise e => ~ (fold_right (fun x P => sane x /\ P) True ds /\ scoped (map fst (nm_types N)) (flat_map events ds)) /\
      (e = parse_exception \/ e = AvroErr /\ ~ fold_right (fun x P => sane x /\ P) True ds)
  end.
Lemma wellnamed_app N l D : wellnamed N -> (forall n t, In (n, t) l -> named_type t = Some n) -> wellnamed (Names (nm_types N ++ l) D).
Proof. intros W H n t X. cbn in X. apply in_app_iff in X as [X|X]; auto. Qed.
Lemma wellnamed_types N l N' : wellnamed N -> (forall n t, In (n, t) l -> named_type t = Some n) -> nm_types N' = nm_types N ++ l -> wellnamed N'.
Proof. intros W H E n t X. rewrite E in X. apply in_app_iff in X as [X|X]; auto. Qed.
Lemma assoc_app {A} n (l l' : list (string * A)) : assoc n (l ++ l') = match assoc n l with Some a => Some a | None => assoc n l' end.
Proof. induction l as [|[k a] l IH]; cbn [app assoc]; [reflexivity|]. destruct (String.eqb n k); auto. Qed.
Lemma agrees_app T l l' : agrees T (l ++ l') -> agrees T l.
Proof. intros A n t E. apply A. now rewrite assoc_app, E. Qed.

Lemma in_keys_assoc {A} n (l : list (string * A)) : In n (map fst l) <-> exists a, assoc n l = Some a.
Proof.
  destruct (assoc n l) as [a|] eqn:E.
  - split; [eauto|]. intros _. apply assoc_In in E. apply (in_map fst) in E. exact E.
  - apply assoc_None in E. split; [contradiction|intros [a X]; discriminate].
Qed.
Lemma register_spec n t N :
  match register n t N with
  | Ok N' => reserved n = false /\ ~ In n (map fst (nm_types N)) /\ N' = Names (nm_types N ++ [(n, t)]) (nm_defs N)
  | Raise e => e = parse_exception /\ (reserved n = true \/ In n (map fst (nm_types N)))
  end.
Proof.
  unfold register. destruct (reserved n) eqn:R; cbn [orb]; [auto|]. destruct (assoc n (nm_types N)) as [u|] eqn:E.
  - split; [reflexivity|]. right. apply in_keys_assoc. eauto.
  - split; [reflexivity|]. split; [|reflexivity]. now apply assoc_None in E.
Qed.
Lemma seq_build ds : Forall (fun d => forall N, wellnamed N -> built d N (build d N)) ds -> forall N, wellnamed N -> built_all ds N (seq build ds N).
Proof.
  induction 1 as [|d ds H _ IH]; intros N W; cbn [seq].
  - cbn [built_all fold_right flat_map map scoped]. rewrite app_nil_r. repeat split; auto. now rewrite app_nil_r.
  - specialize (H N W). destruct (build d N) as [[t N1]|e]; cbn [rbind built fst snd] in *.
    + destruct H as (Sd & Sc & Ty & Lb & M).
      assert (W1 : wellnamed N1) by (eapply wellnamed_types; [exact W| |exact Ty]; apply declared_named).
      assert (SX : scoped (map fst (nm_types N)) (flat_map events (d :: ds)) <-> scoped (map fst (nm_types N1)) (flat_map events ds)).
      { cbn [flat_map]. rewrite scoped_app, Ty, map_app, declared_defined. tauto. }
      specialize (IH N1 W1). destruct (seq build ds N1) as [[ts N2]|e]; cbn [rbind fst snd] in *.
      * cbn [built_all] in IH |- *. destruct IH as (Sds & Scs & Tys & Lbs & Ms). cbn [fold_right map flat_map]. split; [auto|].
        split; [now apply SX|]. split; [now rewrite Tys, Ty, app_assoc|]. split; [now rewrite Lb, Lbs|].
        intros T A. destruct (Ms T A) as [-> ->]. rewrite Tys in A. apply agrees_app in A. destruct (M T A) as [<- ->]. now rewrite app_assoc.
      * cbn [built_all] in IH |- *. cbn [fold_right]. rewrite SX. destruct IH as [I1 [I2|[I2 I3]]]; split; tauto.
    + cbn [built_all fold_right flat_map]. rewrite scoped_app. destruct H as [I1 [I2|[I2 I3]]]; split; tauto.
Qed.
Definition mk (p : (string * option val) * desc) (t : ty) : field := Field (fst (fst p)) t (snd (fst p)) None.
Fixpoint zip_fields (fs : list ((string * option val) * desc)) (ts : list ty) : list field :=
  match fs, ts with p :: fs', t :: ts' => mk p t :: zip_fields fs' ts' | _, _ => [] end.
Lemma seq_fields fs N :
  seq (fun p M => y <- build (snd p) M ;; Ok (Field (fst (fst p)) (fst y) (snd (fst p)) None, snd y)) fs N =
  (x <- seq build (map snd fs) N ;; Ok (zip_fields fs (fst x), snd x)).
Proof.
  revert N. induction fs as [|p fs IH]; intros N; [reflexivity|]. cbn [seq map]. destruct (build (snd p) N) as [[t N1]|e]; cbn [rbind fst snd]; [|reflexivity].
  rewrite IH. destruct (seq build (map snd fs) N1) as [[ts N2]|e]; reflexivity.
Qed.
Lemma flat_map_snd {B} (f : desc -> list B) fs : flat_map f (map snd fs) = flat_map (fun p : (string * option val) * desc => f (snd p)) fs.
Proof. induction fs as [|p fs IH]; [reflexivity|]. cbn [map flat_map]. now rewrite IH. Qed.
Lemma sane_snd (fs : list ((string * option val) * desc)) :
  fold_right (fun x P => sane x /\ P) True (map snd fs) = fold_right (fun p P => sane (snd p) /\ P) True fs.
Proof. induction fs as [|p fs IH]; [reflexivity|]. cbn [map fold_right]. now rewrite IH. Qed.
Lemma zip_names fs ts : length ts = length fs -> map f_name (zip_fields fs ts) = map (fun p => fst (fst p)) fs.
Proof. revert ts. induction fs as [|p fs IH]; intros [|t ts] L; try discriminate; [reflexivity|]. cbn [zip_fields map mk f_name]. f_equal. apply IH. now injection L. Qed.
Lemma zip_means T fs : zip_fields fs (map (means T) (map snd fs)) = map (fun p => Field (fst (fst p)) (means T (snd p)) (snd (fst p)) None) fs.
Proof. induction fs as [|p fs IH]; [reflexivity|]. cbn [map zip_fields]. now rewrite IH. Qed.

Lemma build_spec d : forall N, wellnamed N -> built d N (build d N).
Proof.
  induction d as [s|d IH|d IH|ds IH|n fs IH|n s|n k] using desc_rect2; intros N W; cbn [build].
  - destruct (prim_of s) as [t|] eqn:P.
    + cbn [built sane events declared label_of means records]. rewrite P, app_nil_r. split; [exact I|]. split; [exact I|]. split; [reflexivity|]. split; [now apply prim_unnamed|]. intros T _. now rewrite app_nil_r.
    + destruct (assoc s (nm_types N)) as [t|] eqn:E; cbn [built sane events declared label_of means records]; rewrite P.
      * rewrite app_nil_r. cbn [scoped]. split; [exact I|]. split; [split; [apply in_keys_assoc; eauto|exact I]|]. split; [reflexivity|]. split.
        -- apply assoc_In in E. apply W in E. unfold label_ty. now rewrite E.
        -- intros T A. rewrite app_nil_r. split; [symmetry; now apply A|reflexivity].
      * cbn [scoped]. split; [|now left]. apply assoc_None in E. unfold keys in E. tauto.
  - specialize (IH N W). destruct (build d N) as [[t N']|e]; cbn [rbind built fst snd sane events declared means records label_of] in *.
    + destruct IH as (A & B & C & D & F). do 3 (split; [assumption|]). split; [reflexivity|]. intros T X. destruct (F T X) as [<- ->]. auto.
    + exact IH.
  - specialize (IH N W). destruct (build d N) as [[t N']|e]; cbn [rbind built fst snd sane events declared means records label_of] in *.
    + destruct IH as (A & B & C & D & F). do 3 (split; [assumption|]). split; [reflexivity|]. intros T X. destruct (F T X) as [<- ->]. auto.
    + exact IH.
  - pose proof (seq_build ds IH N W) as H. destruct (seq build ds N) as [[ts N']|e]; cbn [rbind fst snd]; cbn [built_all] in H.
    + destruct H as (A & B & C & D & F). destruct (union_ok ts) eqn:U.
      * apply union_ok_spec in U. rewrite D in U. cbn [built sane events declared means records label_of]. split; [tauto|]. split; [exact B|]. split; [exact C|]. split; [reflexivity|].
        intros T X. destruct (F T X) as [<- ->]. auto.
      * assert (NU : ~ (NoDup (map label_of ds) /\ ~ In Nested (map label_of ds))) by (rewrite <- D, <- union_ok_spec; congruence).
        cbn [built sane]. split; [tauto|]. right. split; [reflexivity|tauto].
    + cbn [built sane events]. destruct H as [H1 [H2|[H2 H3]]]; split; tauto.
  - pose proof (register_spec n (TRecord n) N) as Rg. destruct (register n (TRecord n) N) as [N1|e]; cbn [rbind].
    + destruct Rg as (Rs & Nn & ->). set (N1 := Names (nm_types N ++ [(n, TRecord n)]) (nm_defs N)) in *.
      assert (W1 : wellnamed N1) by (apply wellnamed_app; [exact W|]; intros m t [[= <- <-]|[]]; reflexivity).
      pose proof (seq_build (map snd fs) IH N1 W1) as H. rewrite seq_fields.
      assert (SX : forall l, scoped (map fst (nm_types N1)) l <-> scoped (n :: map fst (nm_types N)) l).
      { intros l. apply scoped_ext. intros x. unfold N1. cbn [nm_types]. rewrite map_app, in_app_iff. cbn. tauto. }
      destruct (seq build (map snd fs) N1) as [[ts N2]|e]; cbn [rbind fst snd]; cbn [built_all] in H; rewrite !flat_map_snd, sane_snd, SX in H.
      * destruct H as (A & B & C & D & F).
        assert (Ln : length ts = length fs) by (apply (f_equal (@length _)) in D; rewrite !map_length in D; exact D).
        destruct (distinct (map f_name (zip_fields fs ts))) eqn:U.
        -- apply distinct_NoDup in U. rewrite (zip_names _ _ Ln) in U. cbn [built sane events declared scoped means records label_of nm_types nm_defs]. split; [auto|]. split; [auto|].
           split; [rewrite C; unfold N1; cbn [nm_types]; now rewrite <- app_assoc|]. split; [reflexivity|]. intros T X. destruct (F T X) as [-> ->]. rewrite flat_map_snd, zip_means. unfold N1. cbn [nm_defs]. now rewrite <- app_assoc.
        -- assert (NU : ~ NoDup (map (fun p => fst (fst p)) fs)) by (rewrite <- (zip_names _ _ Ln), <- distinct_NoDup; congruence). cbn [built sane]. split; [tauto|now left].
      * cbn [built sane events scoped]. destruct H as [H1 [H2|[H2 H3]]]; split; tauto.
    + destruct Rg as [-> Rg]. cbn [built sane events scoped]. split; [|now left]. intros [(A & _) (B & _)]. destruct Rg; [congruence|contradiction].
  - destruct (distinct s) eqn:U; cbn [rbind].
    + apply distinct_NoDup in U. pose proof (register_spec n (TEnum n s) N) as Rg. destruct (register n (TEnum n s) N) as [N1|e]; cbn [rbind].
      * destruct Rg as (Rs & Nn & ->). cbn [built sane events declared scoped means records label_of nm_types nm_defs]. do 4 (split; [now auto|]). intros T _. now rewrite app_nil_r.
      * destruct Rg as [-> Rg]. cbn [built sane events scoped]. split; [|now left]. intros [(A & _) (B & _)]. destruct Rg; [congruence|contradiction].
    + assert (NU : ~ NoDup s) by (rewrite <- distinct_NoDup; congruence). cbn [built sane]. split; [tauto|]. right. tauto.
  - pose proof (register_spec n (TFixed n k) N) as Rg. destruct (register n (TFixed n k) N) as [N1|e]; cbn [rbind].
    + destruct Rg as (Rs & Nn & ->). cbn [built sane events declared scoped means records label_of nm_types nm_defs]. do 4 (split; [now auto|]). intros T _. now rewrite app_nil_r.
    + destruct Rg as [-> Rg]. cbn [built sane events scoped]. split; [|now left]. intros [A (B & _)]. destruct Rg; [congruence|contradiction].
Qed.
