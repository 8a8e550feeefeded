(** Programs of assignments. *)
From Verif Require Import Base PyNum ScopeModel ScopeProofs ChainModel PexModel PexSpec PexProofs PexProofs2.
Open Scope string_scope.
Open Scope list_scope.

(** *** dictionaries that are filled one by one *)
Section Fill.
  Variable A : Type.
  Definition fill (l : list (string * A)) (d : list (string * A)) : list (string * A) := fold_left (fun e kv => dict_set (fst kv) (snd kv) e) l d.
  Lemma set_in_place x (v w : A) y d : x <> y -> has_key x d = true -> dict_set x v (dict_set y w d) = dict_set y w (dict_set x v d).
  Proof.
    intros N. induction d as [|[k z] d IH]; unfold has_key; cbn; [discriminate|]. destruct (String.eqb_spec x k) as [<-|Nk].
    - intros _. destruct (String.eqb_spec y x) as [->|Ny]; [easy|]. cbn. rewrite String.eqb_refl. cbn. apply String.eqb_neq in Ny. now rewrite Ny.
    - intros H. destruct (String.eqb_spec y k) as [<-|Ny].
      + cbn. apply String.eqb_neq in N as N'. rewrite N'. cbn. now rewrite String.eqb_refl.
      + cbn. apply String.eqb_neq in Nk as Nk'. rewrite Nk'. cbn. apply String.eqb_neq in Ny as Ny'. rewrite Ny'. f_equal. now apply IH.
  Qed.
  Lemma has_set x (v : A) y d : has_key x (dict_set y v d) = true <-> x = y \/ has_key x d = true.
  Proof.
    unfold has_key. destruct (String.eqb_spec x y) as [->|N]; [rewrite assoc_set_eq; tauto|]. rewrite assoc_set_neq by auto. destruct (assoc x d); split; auto. intros [H|H]; [contradiction|exact H].
  Qed.
  Lemma fill_set x (v : A) l : ~ In x (map fst l) -> forall d, has_key x d = true -> dict_set x v (fill l d) = fill l (dict_set x v d).
  Proof.
    induction l as [|[k z] l IH]; intros N d H; [reflexivity|]. change (dict_set x v (fill l (dict_set k z d)) = fill l (dict_set k z (dict_set x v d))). cbn [map fst] in N. rewrite IH.
    - f_equal. apply set_in_place; [intros ->; apply N; now left|exact H].
    - intros I. apply N. now right.
    - apply has_set. now right.
  Qed.
  Lemma set_split x (v : A) d : NoDup (map fst d) ->
    (~ In x (map fst d) /\ dict_set x v d = d ++ [(x, v)]) \/ exists p w q, d = p ++ (x, w) :: q /\ ~ In x (map fst p) /\ ~ In x (map fst q) /\ dict_set x v d = p ++ (x, v) :: q.
  Proof.
    induction d as [|[k z] d IH]; intros N; [left; now split|]. inversion N as [|? ? Nk Nd]; subst. cbn [dict_set map fst]. destruct (String.eqb_spec x k) as [<-|Nx].
    - right. exists [], z, d. repeat split; auto.
    - destruct (IH Nd) as [[H1 H2]|(p & w & q & -> & Hp & Hq & E)].
      + left. rewrite H2. split; [|reflexivity]. intros [Hk|H]; [cbn in Hk; congruence|auto].
      + right. exists ((k, z) :: p), w, q. rewrite E. repeat split; auto. intros [Hk|H]; [cbn in Hk; congruence|auto].
  Qed.
  Lemma set_nodup x (v : A) d : NoDup (map fst d) -> NoDup (map fst (dict_set x v d)).
  Proof. exact (keys_set_NoDup x v d). Qed.
  Lemma fill_nodup l : forall d, NoDup (map fst d) -> NoDup (map fst (fill l d)).
  Proof. induction l as [|[k z] l IH]; intros d N; [exact N|]. apply IH. now apply set_nodup. Qed.
  Lemma fill_app l r d : fill (l ++ r) d = fill r (fill l d).
  Proof. unfold fill. apply fold_left_app. Qed.
  Lemma fill_has x l : forall d, has_key x (fill l d) = true <-> In x (map fst l) \/ has_key x d = true.
  Proof.
    induction l as [|[k z] l IH]; intros d; [cbn; tauto|]. change (fill ((k, z) :: l) d) with (fill l (dict_set k z d)). rewrite IH, has_set. cbn [map fst In]. split; intros; intuition congruence.
  Qed.
  (** filling by way of an empty dictionary makes no difference *)
  Lemma fill_twice l d : fill (fill l []) d = fill l d.
  Proof.
    induction l as [|[x v] l IH] using rev_ind; [reflexivity|]. rewrite !fill_app. change (fill [(x, v)] (fill l [])) with (dict_set x v (fill l [])). change (fill [(x, v)] (fill l d)) with (dict_set x v (fill l d)).
    rewrite <- IH. destruct (set_split x v (fill l [])) as [[H E]|(p & w & q & E0 & Hp & Hq & E)]; [apply fill_nodup; constructor| |].
    - rewrite E, fill_app. reflexivity.
    - rewrite E, E0, !fill_app. change (fill ((x, v) :: q) (fill p d)) with (fill q (dict_set x v (fill p d))). change (fill ((x, w) :: q) (fill p d)) with (fill q (dict_set x w (fill p d))).
      rewrite (fill_set x v q); [now rewrite dict_set_twice|exact Hq|]. apply has_set. now left.
  Qed.
End Fill.
Lemma has_key_in {A} x (d : list (string * A)) : has_key x d = true <-> In x (map fst d).
Proof.
  unfold has_key. destruct (assoc x d) as [a|] eqn:E; [apply assoc_In in E; split; auto; intros _; apply in_map_iff; now exists (x, a)|]. apply assoc_None in E. split; [discriminate|]. intros H. now destruct E.
Qed.
Definition vmap {A B} (f : A -> B) (d : list (string * A)) : list (string * B) := map (fun kx => (fst kx, f (snd kx))) d.
Lemma vmap_set {A B} (f : A -> B) k x d : vmap f (dict_set k x d) = dict_set k (f x) (vmap f d).
Proof. induction d as [|[k' y] d IH]; [reflexivity|]. cbn [dict_set vmap map fst snd]. destruct (String.eqb k k'); [reflexivity|]. cbn [map fst snd]. f_equal. exact IH. Qed.
Lemma vmap_fill {A B} (f : A -> B) l : forall d, vmap f (fill A l d) = fill B (vmap f l) (vmap f d).
Proof. induction l as [|[k x] l IH]; intros d; [reflexivity|]. change (fill A ((k, x) :: l) d) with (fill A l (dict_set k x d)). rewrite IH, vmap_set. reflexivity. Qed.
Lemma vmap_combine {A B} (f : A -> B) ns : forall l, vmap f (combine ns l) = combine ns (map f l).
Proof. induction ns as [|n ns IH]; intros [|x l]; try reflexivity. cbn [combine vmap map fst snd]. f_equal. apply IH. Qed.
Lemma vmap_keys {A B} (f : A -> B) d : map fst (vmap f d) = map fst d.
Proof. unfold vmap. rewrite map_map. reflexivity. Qed.
Lemma sd_vmap d : ~ In "@" (map fst d) -> sd d = vmap strip d.
Proof.
  induction d as [|[k x] d IH]; intros N; [reflexivity|]. cbn [map fst] in N. cbn [sd flat_map fst snd vmap map]. destruct (String.eqb_spec k "@") as [->|_]; [destruct N; now left|]. cbn. f_equal. apply IH. intros H. apply N. now right.
Qed.
Lemma fill_keys {A} x l (d : list (string * A)) : In x (map fst (fill A l d)) <-> In x (map fst l) \/ In x (map fst d).
Proof. rewrite <- (has_key_in x (fill A l d)), fill_has, has_key_in. tauto. Qed.

(** *** tuples *)
Lemma names_of_list l : names_of l = name_list l.
Proof. induction l as [|[] l IH]; cbn; try reflexivity; now rewrite IH. Qed.
Lemma assign_spec st values : forall names symbols lets sets out r, assign_tuple st symbols names values lets sets out = Ok r ->
  exists js sy l s, r = (sy, l, s, fill val (combine names js) out) /\ length (combine names js) = length (combine names values) /\
    (length names = length values -> rmapM (expression st) values = Ok js) /\
    (lets <= l)%nat /\ (sets <= s)%nat /\ (forall x, In x sy <-> In x (map fst (combine names js)) \/ In x symbols) /\
    (s = sets -> NoDup (map fst (combine names js)) /\ forall x, In x (map fst (combine names js)) -> ~ In x symbols) /\
    (l = lets -> incl (map fst (combine names js)) symbols) /\ (l + s = lets + sets + length (combine names js))%nat.
Proof.
  induction values as [|v values IH]; intros [|x names] symbols lets sets out r H; cbn [assign_tuple] in H.
  - injection H as <-. exists [], symbols, lets, sets. cbn. repeat split; auto; try tauto; try constructor; try easy.
  - injection H as <-. exists [], symbols, lets, sets. cbn. repeat split; auto; try tauto; try constructor; try easy.
  - injection H as <-. exists [], symbols, lets, sets. cbn. repeat split; auto; try tauto; try constructor; try easy.
  - destruct (expression st v) as [j|] eqn:Ej; [|discriminate]. cbn [rbind] in H. destruct (memb x symbols) eqn:M; apply IH in H as (js & sy & l & s & -> & L1 & L2 & Hl & Hs & S1 & S2 & S3 & S4);
    exists (j :: js), sy, l, s; cbn [combine map fst length].
    + apply memb_in in M. repeat split; try lia.
      * intros L. cbn [rmapM]. rewrite Ej. cbn [rbind]. rewrite L2 by lia. reflexivity.
      * intros Hx. apply S1 in Hx. cbn. tauto.
      * intros [[->|Hx]|Hx]; apply S1; auto.
      * intros E y [<-|Hy]; [exact M|]. now apply S3.
    + apply memb_false in M. repeat split; try lia.
      * intros L. cbn [rmapM]. rewrite Ej. cbn [rbind]. rewrite L2 by lia. reflexivity.
      * intros Hx. apply S1 in Hx. cbn in *. tauto.
      * intros [[->|Hx]|Hx]; apply S1; cbn; auto.
      * destruct (S2 H) as [N D]. constructor; [|exact N]. intros I. apply (D x I). now left.
      * destruct (S2 H) as [N D]. intros y [<-|Hy]; [exact M|]. intros I. apply (D y Hy). now right.
Qed.
Lemma strip_let st n k (d : list (string * val)) : k <> "@" -> ~ In "@" (map fst d) -> strip (form st n [(k, VDict d)]) = VDict [(k, VDict (vmap strip d))].
Proof. intros Hk N. rewrite strip_form. cbn [sd flat_map fst snd]. apply String.eqb_neq in Hk. rewrite Hk. cbn [app]. now rewrite strip_dict, sd_vmap. Qed.
Lemma fill_no_at {A} names (js : list A) : ~ In "@" names -> ~ In "@" (map fst (fill A (combine names js) [])).
Proof. intros N H. apply fill_keys in H as [H|[]]. apply N. apply in_map_iff in H as ([a b] & <- & H). now apply in_combine_l in H. Qed.

(** *** names are declared before they are changed, and once *)
Lemma scoped_statements st : forall prog symbols docs known, statements st symbols prog = Ok docs -> Forall named prog -> (forall x, In x symbols <-> In x known) -> scoped known (map strip docs).
Proof.
  induction prog as [|s prog IH]; intros symbols docs known H F K; cbn [statements] in H; [injection H as <-; constructor|].
  destruct (statement st symbols s) as [[sy j]|] eqn:E; [|discriminate]. cbn [rbind fst snd] in H. destruct (statements st sy prog) as [js|] eqn:Es; [|discriminate]. injection H as <-. inversion F as [|? ? Fs Fr]; subst. cbn [map].
  unfold statement in E. destruct s as [n targets value|n]; [|discriminate]. destruct targets as [|t [|? ?]]; try (now destruct value); [destruct t; try discriminate|destruct t; now destruct value].
  - destruct (expression st value) as [v|] eqn:Ev; [|discriminate]. cbn [rbind] in E. injection E as <- <-. cbn in Fs. rewrite strip_let; [|now destruct (memb s symbols)|cbn; intuition congruence].
    destruct (memb s symbols) eqn:M.
    + apply memb_in in M. apply scoped_set; cbn; [discriminate|repeat constructor; auto|intros y [<-|[]]; now apply K|]. apply (IH _ _ known Es Fr). intros x. rewrite <- K. cbn. split; [intros [->|Hx]; auto|auto].
    + apply memb_false in M. apply scoped_let; cbn; [discriminate|repeat constructor; auto|intros y [<-|[]]; now rewrite <- K|]. apply (IH _ _ (s :: known) Es Fr). intros x. cbn. now rewrite K.
  - destruct value; try discriminate. destruct (name_list l) as [names|] eqn:En; [|discriminate]. cbn in Fs. rewrite names_of_list, En in Fs.
    destruct (assign_tuple st symbols names l0 0 0 []) as [r|] eqn:Ea; [|discriminate]. cbn [rbind] in E. apply assign_spec in Ea as (vs & sy' & le & se & -> & L1 & L2 & Hl & Hs & S1 & S2 & S3 & S4).
    assert (Ne : (0 < le + se)%nat -> vmap strip (fill val (combine names vs) []) <> []).
    { intros P Z. apply (f_equal (map fst)) in Z. rewrite vmap_keys in Z. destruct (combine names vs) as [|[a b] c] eqn:Ec; [cbn in S4; lia|]. rewrite <- Ec in Z. enough (I : In a (map fst (fill val (combine names vs) []))) by (rewrite Z in I; destruct I).
      apply fill_keys. left. rewrite Ec. now left. }
    assert (Nd : NoDup (map fst (vmap strip (fill val (combine names vs) [])))) by (rewrite vmap_keys; apply fill_nodup; constructor).
    assert (Kk : forall x, In x (map fst (vmap strip (fill val (combine names vs) []))) <-> In x (map fst (combine names vs))) by (intros x; rewrite vmap_keys, fill_keys; cbn; tauto).
    pose proof (fill_no_at names vs Fs) as Na.
    destruct le as [|le], se as [|se]; try discriminate; injection E as <- <-; rewrite strip_let by (auto; discriminate).
    + apply scoped_set; [apply Ne; lia|exact Nd|intros x Hx; apply K, S3; [lia|now apply Kk]|]. apply (IH _ _ known Es Fr). intros x. rewrite S1, <- K. split; [intros [Hx|Hx]; auto; apply S3; auto; lia|auto].
    + apply scoped_let; [apply Ne; lia|exact Nd|intros x Hx; rewrite <- K; apply S2; [lia|now apply Kk]|]. apply (IH _ _ _ Es Fr). intros x. rewrite S1, in_app_iff, K, Kk. tauto.
Qed.
