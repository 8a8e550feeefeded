From Verif Require Import Base ScopeModel XtnModel XtnSpec.
Open Scope string_scope.
Open Scope list_scope.

Lemma is_text_eq v s : is_text v s = true -> v = VStr s.
Proof. destruct v as [| | | |t| | |]; cbn; try discriminate. intro H. apply String.eqb_eq in H. now subst. Qed.
Lemma lookup_at doc sec name o : lookup doc sec name = Some (VDict o) -> is_at doc sec name o.
Proof.
  unfold lookup, section, is_at. destruct (assoc sec doc) as [v|] eqn:E; [|discriminate].
  destruct v as [| | | | | | |c]; try discriminate.
  destruct (assoc name c) as [x|] eqn:F; [|discriminate]. intro H. exists c. split; [reflexivity|].
  destruct x; try discriminate; congruence.
Qed.
Lemma at_lookup doc sec name o : is_at doc sec name o -> lookup doc sec name = Some (VDict o).
Proof. intros (c & A & B). unfold lookup, section. now rewrite A, B. Qed.
Lemma find_lookup doc name cell sec o : find doc name cell = Some (sec, o) -> lookup doc sec name = Some o.
Proof.
  unfold find. destruct cell; [destruct (lookup doc "cells" name) eqn:A|destruct (lookup doc "pools" name) eqn:A];
    [|destruct (lookup doc "pools" name) eqn:B| |destruct (lookup doc "cells" name) eqn:B]; intro H; inversion H; subst; auto.
Qed.
Lemma put_same doc sec name o x : is_at doc sec name o -> same_but sec name doc (put doc sec name x).
Proof.
  intros (c & A & B). split.
  - intros k N. unfold put. now apply assoc_set_neq.
  - exists c, (dict_set name x c). split; [exact A|]. split.
    + unfold put, section. rewrite A. apply assoc_set_eq.
    + intros k N. now apply assoc_set_neq.
Qed.
Lemma put_at doc sec name o x : is_at doc sec name o -> is_at (put doc sec name (VDict x)) sec name x.
Proof.
  intros (c & A & B). exists (dict_set name (VDict x) c). unfold put, section. rewrite A. split; apply assoc_set_eq.
Qed.
Lemma lookup_other doc sec name o x s n : is_at doc sec name o -> (s, n) <> (sec, name) -> lookup (put doc sec name x) s n = lookup doc s n.
Proof.
  intros (c & A & B) N. unfold lookup, section, put. destruct (String.eqb s sec) eqn:E.
  - apply String.eqb_eq in E. subst s. rewrite assoc_set_eq, A. unfold section. rewrite A. rewrite assoc_set_neq; [reflexivity|congruence].
  - apply String.eqb_neq in E. now rewrite assoc_set_neq.
Qed.
Lemma find_put doc name cell sec o x : find doc name cell = Some (sec, VDict o) -> find (put doc sec name (VDict x)) name cell = Some (sec, VDict x).
Proof.
  intro F. pose proof (find_lookup _ _ _ _ _ F) as L. apply lookup_at in L. pose proof (at_lookup _ _ _ _ (put_at _ _ _ _ x L)) as P.
  assert (Q : forall s, s <> sec -> lookup (put doc sec name (VDict x)) s name = lookup doc s name) by (intros s N; eapply lookup_other; eauto; congruence).
  unfold find in *. destruct cell.
  - destruct (lookup doc "cells" name) as [v|] eqn:A.
    + inversion F; subst. now rewrite P.
    + destruct (lookup doc "pools" name) as [v|] eqn:B; [|discriminate]. inversion F; subst.
      rewrite (Q "cells") by discriminate. now rewrite A, P.
  - destruct (lookup doc "pools" name) as [v|] eqn:A.
    + inversion F; subst. now rewrite P.
    + destruct (lookup doc "cells" name) as [v|] eqn:B; [|discriminate]. inversion F; subst.
      rewrite (Q "pools") by discriminate. now rewrite A, P.
Qed.
Lemma same_other doc doc' sec name s n o : same_but sec name doc doc' -> (s, n) <> (sec, name) -> is_at doc s n o -> is_at doc' s n o.
Proof.
  intros [K (c & c' & A & B & C)] N (d & D & E). destruct (String.eqb s sec) eqn:Q.
  - apply String.eqb_eq in Q. subst s. rewrite A in D. inversion D; subst d. exists c'. split; [exact B|]. rewrite C by congruence. exact E.
  - apply String.eqb_neq in Q. exists d. rewrite K by exact Q. now split.
Qed.

Lemma externalize_inv w doc name file cell doc' w' : externalize w doc name file cell = Ok (doc', w') ->
  exists sec o, find doc name cell = Some (sec, VDict o) /\ source o = VStr "embedded" /\ write w file (init o) = Ok w' /\
    doc' = put doc sec name (VDict (dict_set "init" (VStr file) (dict_set "source" (VStr "json") o))).
Proof.
  unfold externalize. destruct (find doc name cell) as [[sec v]|] eqn:F; [|discriminate].
  destruct v as [| | | | | | |o]; try discriminate. destruct (is_text (source o) "embedded") eqn:S0; [|discriminate].
  destruct (write w file (init o)) as [w1|e] eqn:W; [|discriminate]. cbn [rbind]. intro H. inversion H; subst.
  exists sec, o. apply is_text_eq in S0. auto.
Qed.
Lemma internalize_inv w doc name cell doc' : internalize w doc name cell = Ok doc' ->
  exists sec o u x, find doc name cell = Some (sec, VDict o) /\ source o = VStr "json" /\ init o = VStr u /\ fetch w u = Ok x /\
    doc' = put doc sec name (VDict (dict_set "init" x (dict_del "source" o))).
Proof.
  unfold internalize. destruct (find doc name cell) as [[sec v]|] eqn:F; [|discriminate].
  destruct v as [| | | | | | |o]; try discriminate. destruct (is_text (source o) "json") eqn:S0; [|discriminate].
  destruct (init o) as [| | | |u| | |] eqn:I; try discriminate. destruct (fetch w u) as [x|e] eqn:X; [|discriminate]. cbn [rbind].
  intro H. inversion H; subst. exists sec, o, u, x. apply is_text_eq in S0. auto.
Qed.
Lemma write_inv w file x w' : write w file x = Ok w' -> content w' (place w file) = Ok x /\ only_written w w' file /\ writable w' = writable w.
Proof.
  unfold write. destruct (writable w file); [|discriminate]. intro H. inversion H; subst; cbn. rewrite String.eqb_refl.
  split; [reflexivity|]. split; [|reflexivity]. split; [|repeat split]. intros p N. apply String.eqb_neq in N. cbn. now rewrite N.
Qed.
Lemma fetch_written w file x w' : write w file x = Ok w' -> is_url file = false -> fetch w' file = Ok x.
Proof. intros H U. destruct (write_inv _ _ _ _ H) as (A & (B & C & D) & _). unfold fetch. rewrite U, C. exact A. Qed.
Lemma fetch_kept w w' file u : only_written w w' file -> is_url u = true \/ place w u <> place w file -> fetch w' u = fetch w u.
Proof.
  intros (A & B & C & D) [U|N]; unfold fetch.
  - rewrite U. now rewrite C.
  - rewrite B, C. destruct (is_url u); [reflexivity|]. now apply A.
Qed.
Lemma external_fields o file : let o' := dict_set "init" (VStr file) (dict_set "source" (VStr "json") o) in
  same_fields o o' /\ assoc "source" o' = Some (VStr "json") /\ assoc "init" o' = Some (VStr file).
Proof.
  cbn. split; [|split].
  - intros k A B. rewrite assoc_set_neq by exact B. now apply assoc_set_neq.
  - rewrite assoc_set_neq by discriminate. apply assoc_set_eq.
  - apply assoc_set_eq.
Qed.
Lemma internal_fields o x : a_dict o -> let o' := dict_set "init" x (dict_del "source" o) in
  same_fields o o' /\ assoc "source" o' = None /\ assoc "init" o' = Some x.
Proof.
  intro N. cbn. split; [|split].
  - intros k A B. rewrite assoc_set_neq by exact B. now apply assoc_del_neq.
  - rewrite assoc_set_neq by discriminate. now apply assoc_del_eq.
  - apply assoc_set_eq.
Qed.

Lemma externalize_does w doc name file cell doc' w' : externalize w doc name file cell = Ok (doc', w') ->
  exists sec o o', (sec = "cells" \/ sec = "pools") /\ is_at doc sec name o /\ same_but sec name doc doc' /\ is_at doc' sec name o' /\ same_fields o o' /\
    (assoc "source" o = None \/ assoc "source" o = Some (VStr "embedded")) /\
    assoc "source" o' = Some (VStr "json") /\ assoc "init" o' = Some (VStr file) /\
    content w' (place w file) = Ok (match assoc "init" o with Some x => x | None => VNull end) /\ only_written w w' file.
Proof.
  intro H. destruct (externalize_inv _ _ _ _ _ _ _ H) as (sec & o & F & S0 & W & E). subst doc'.
  pose proof (find_lookup _ _ _ _ _ F) as L. apply lookup_at in L. destruct (write_inv _ _ _ _ W) as (A & B & _).
  destruct (external_fields o file) as (F1 & F2 & F3).
  exists sec, o, (dict_set "init" (VStr file) (dict_set "source" (VStr "json") o)).
  split; [|split; [exact L|split; [eapply put_same; exact L|split; [eapply put_at; exact L|split; [exact F1|split; [|split; [exact F2|split; [exact F3|split; [exact A|exact B]]]]]]]]].
  - unfold find in F. destruct cell; [destruct (lookup doc "cells" name)|destruct (lookup doc "pools" name)];
      [|destruct (lookup doc "pools" name)| |destruct (lookup doc "cells" name)]; inversion F; auto.
  - unfold source in S0. destruct (assoc "source" o) as [v|]; [right; congruence|now left].
Qed.
Lemma read_kept w w' file o : only_written w w' file -> ~ uses w o file -> read_cell w' o = read_cell w o.
Proof.
  intros W N. unfold read_cell. destruct (source o) as [| | | |s| | |] eqn:S0; try reflexivity.
  destruct (assoc "init" o) as [i|] eqn:I; [|reflexivity].
  destruct (String.eqb s "avro"); [destruct W as (_ & _ & _ & D); now rewrite D|].
  destruct (String.eqb s "json") eqn:J; [|reflexivity]. apply String.eqb_eq in J. subst s.
  destruct i as [| | | |u| | |]; try reflexivity. apply (fetch_kept _ _ file); [exact W|].
  destruct (is_url u) eqn:U; [now left|right]. intro P. apply N. exists u. repeat split; auto.
  unfold source in S0. destruct (assoc "source" o) as [v|]; [now subst|discriminate].
Qed.
Lemma start_kept w doc name file cell doc' w' sec n o : externalize w doc name file cell = Ok (doc', w') -> is_url file = false ->
  is_at doc sec n o -> (exists x, read_cell w o = Ok x) -> ~ uses w o file -> exists o', is_at doc' sec n o' /\ read_cell w' o' = read_cell w o.
Proof.
  intros H U L (x & X) N. destruct (externalize_inv _ _ _ _ _ _ _ H) as (sec0 & o0 & F & S0 & W & E). subst doc'.
  pose proof (find_lookup _ _ _ _ _ F) as L0. apply lookup_at in L0.
  assert (D : (sec, n) = (sec0, name) \/ (sec, n) <> (sec0, name)).
  { destruct (string_dec sec sec0); [destruct (string_dec n name)|]; [left; congruence|right; congruence|right; congruence]. }
  destruct D as [D|D].
  - inversion D; subst sec0 name. pose proof (at_lookup _ _ _ _ L) as A1. pose proof (at_lookup _ _ _ _ L0) as A2. rewrite A1 in A2. inversion A2; subst o0. clear A1 A2.
    eexists. split; [eapply put_at; exact L|]. destruct (external_fields o file) as (F1 & F2 & F3).
    unfold read_cell at 1. unfold source. rewrite F2, F3. cbn [String.eqb Ascii.eqb Bool.eqb].
    rewrite (fetch_written _ _ _ _ W U). unfold read_cell. rewrite S0. unfold read_cell in X. rewrite S0 in X. unfold init.
    destruct (assoc "init" o) as [i|]; [reflexivity|discriminate].
  - exists o. split; [eapply same_other; [eapply put_same; exact L0|exact D|exact L]|]. destruct (write_inv _ _ _ _ W) as (A & B & _).
    eapply read_kept; eauto.
Qed.
Lemma internalize_does w doc name cell doc' : (forall sec n o, is_at doc sec n o -> a_dict o) -> internalize w doc name cell = Ok doc' ->
  exists sec o o' u x, is_at doc sec name o /\ same_but sec name doc doc' /\ is_at doc' sec name o' /\ same_fields o o' /\
    assoc "source" o = Some (VStr "json") /\ assoc "init" o = Some (VStr u) /\ fetch w u = Ok x /\ assoc "source" o' = None /\ assoc "init" o' = Some x /\
    read_cell w o = Ok x /\ read_cell w o' = Ok x.
Proof.
  intros D H. destruct (internalize_inv _ _ _ _ _ H) as (sec & o & u & x & F & S0 & I & X & E). subst doc'.
  pose proof (find_lookup _ _ _ _ _ F) as L. apply lookup_at in L. destruct (internal_fields o x (D _ _ _ L)) as (F1 & F2 & F3).
  assert (S1 : assoc "source" o = Some (VStr "json")) by (unfold source in S0; destruct (assoc "source" o) as [v|]; [now subst|discriminate]).
  assert (I1 : assoc "init" o = Some (VStr u)) by (unfold init in I; destruct (assoc "init" o) as [v|]; [now subst|discriminate]).
  exists sec, o, (dict_set "init" x (dict_del "source" o)), u, x.
  split; [exact L|]. split; [eapply put_same; exact L|]. split; [eapply put_at; exact L|]. split; [exact F1|].
  split; [exact S1|]. split; [exact I1|]. split; [exact X|]. split; [exact F2|]. split; [exact F3|].
  unfold read_cell, source. rewrite S1, I1, F2, F3. cbn [String.eqb Ascii.eqb Bool.eqb]. split; [exact X|reflexivity].
Qed.
Lemma round_trip w doc name file cell doc' w' : (forall sec n o, is_at doc sec n o -> a_dict o) -> externalize w doc name file cell = Ok (doc', w') -> is_url file = false ->
  exists doc'' sec o o'', internalize w' doc' name cell = Ok doc'' /\ is_at doc sec name o /\ same_but sec name doc doc'' /\ is_at doc'' sec name o'' /\ same_fields o o'' /\
    assoc "source" o'' = None /\ assoc "init" o'' = Some (match assoc "init" o with Some x => x | None => VNull end).
Proof.
  intros D H U. destruct (externalize_inv _ _ _ _ _ _ _ H) as (sec & o & F & S0 & W & E).
  pose proof (find_lookup _ _ _ _ _ F) as L. apply lookup_at in L. destruct (external_fields o file) as (F1 & F2 & F3).
  pose proof (find_put _ _ _ _ _ (dict_set "init" (VStr file) (dict_set "source" (VStr "json") o)) F) as G. rewrite <- E in G.
  set (o1 := dict_set "init" (VStr file) (dict_set "source" (VStr "json") o)) in *.
  assert (N1 : a_dict o1) by (unfold a_dict, o1; apply keys_set_NoDup, keys_set_NoDup; exact (D _ _ _ L)).
  destruct (internal_fields o1 (init o) N1) as (G1 & G2 & G3).
  assert (P : is_at doc' sec name o1) by (subst doc'; eapply put_at; exact L).
  exists (put doc' sec name (VDict (dict_set "init" (init o) (dict_del "source" o1)))), sec, o, (dict_set "init" (init o) (dict_del "source" o1)).
  split; [|split; [exact L|split; [|split; [eapply put_at; exact P|split; [|split; [exact G2|exact G3]]]]]].
  - unfold internalize. rewrite G. unfold source at 1. rewrite F2. cbn [is_text String.eqb Ascii.eqb Bool.eqb].
    unfold init at 1. rewrite F3. rewrite (fetch_written _ _ _ _ W U). reflexivity.
  - destruct (put_same _ _ _ _ (VDict o1) L) as [A (c & c' & B1 & B2 & B3)]. rewrite <- E in A, B2.
    destruct (put_same _ _ _ _ (VDict (dict_set "init" (init o) (dict_del "source" o1))) P) as [A' (d & d' & B1' & B2' & B3')].
    rewrite B2 in B1'. inversion B1'; subst d. split.
    + intros k N. rewrite A' by exact N. now apply A.
    + exists c, d'. split; [exact B1|]. split; [exact B2'|]. intros k N. rewrite B3' by exact N. now apply B3.
  - intros k A B. rewrite G1 by assumption. now apply F1.
Qed.
Lemma pool_lost w o : assoc "source" o = Some (VStr "json") -> exists e, read_pool w o = Raise e.
Proof.
  intro H. unfold read_pool, source. rewrite H. destruct (assoc "init" o) as [v|]; [destruct v|]; cbn; eexists; reflexivity.
Qed.
Definition preferred (cell : bool) : string := if cell then "cells" else "pools".
Definition other (cell : bool) : string := if cell then "pools" else "cells".
Lemma find_preferred doc name cell o : is_at doc (preferred cell) name o -> find doc name cell = Some (preferred cell, VDict o).
Proof. intro L. apply at_lookup in L. unfold find, preferred in *. destruct cell; now rewrite L. Qed.
Lemma find_other doc name cell o : lookup doc (preferred cell) name = None -> is_at doc (other cell) name o -> find doc name cell = Some (other cell, VDict o).
Proof. intros N L. apply at_lookup in L. unfold find, preferred, other in *. destruct cell; rewrite N; now rewrite L. Qed.
Lemma externalize_ends w doc name file cell sec o : find doc name cell = Some (sec, VDict o) ->
  (assoc "source" o = None \/ assoc "source" o = Some (VStr "embedded")) -> writable w file = true -> exists doc' w', externalize w doc name file cell = Ok (doc', w') /\ same_but sec name doc doc'.
Proof.
  intros F S0 W. pose proof (find_lookup _ _ _ _ _ F) as L. apply lookup_at in L. unfold externalize. rewrite F.
  assert (S1 : is_text (source o) "embedded" = true) by (unfold source; destruct S0 as [A|A]; rewrite A; reflexivity). rewrite S1. unfold write. rewrite W. cbn [rbind].
  eexists _, _. split; [reflexivity|]. eapply put_same. exact L.
Qed.
Definition has_char (c : Ascii.ascii) (l : list Ascii.ascii) : bool := existsb (Ascii.eqb c) l.
Lemma has_char_In c l : has_char c l = true <-> In c l.
Proof.
  unfold has_char. rewrite existsb_exists. split.
  - intros (x & A & B). apply Ascii.eqb_eq in B. now subst.
  - intro H. exists c. split; [exact H|apply Ascii.eqb_refl].
Qed.
Lemma letter_char c : letter c = has_char c (chars alphabet).
Proof. destruct c as [b0 b1 b2 b3 b4 b5 b6 b7]; destruct b0, b1, b2, b3, b4, b5, b6, b7; vm_compute; reflexivity. Qed.
Lemma scheme_char_char c : scheme_char c = has_char c (chars (alphabet ++ "0123456789+-.")%string).
Proof. destruct c as [b0 b1 b2 b3 b4 b5 b6 b7]; destruct b0, b1, b2, b3, b4, b5, b6, b7; vm_compute; reflexivity. Qed.
Lemma prefix_app p : forall s, String.prefix p s = true <-> exists r, s = (p ++ r)%string.
Proof.
  induction p as [|c p IH]; intro s.
  - split; [intros _; now exists s|intros _; now destruct s].
  - destruct s as [|d s]; [split; [discriminate|intros (r & H); discriminate]|].
    assert (Q : String.prefix (String c p) (String d s) = if Ascii.ascii_dec c d then String.prefix p s else false) by reflexivity. rewrite Q. clear Q.
    destruct (Ascii.ascii_dec c d) as [Q|Q].
    + subst d. rewrite IH. split; intros (r & H); exists r; [now rewrite H|now inversion H].
    + split; [discriminate|]. intros (r & H). inversion H. congruence.
Qed.
Lemma scheme_end_spec s : scheme_end s = true <-> exists a r, s = (a ++ "://" ++ r)%string /\ forall x, In x (chars a) -> scheme_char x = true.
Proof.
  induction s as [|c s IH].
  - split; [discriminate|]. intros (a & r & H & _). destruct a; discriminate.
  - cbn [scheme_end]. destruct (scheme_char c) eqn:Q.
    + rewrite IH. split; intros (a & r & H & P).
      * exists (String c a), r. split; [cbn; now rewrite H|]. intros x [X|X]; [now subst|now apply P].
      * destruct a as [|d a].
        -- inversion H; subst. discriminate.
        -- inversion H; subst d. exists a, r. split; [reflexivity|]. intros x X. apply P. now right.
    + rewrite prefix_app. split.
      * intros (r & H). exists "", r. split; [exact H|]. intros x [].
      * intros (a & r & H & P). destruct a as [|d a]; [now exists r|]. inversion H; subst d. rewrite (P c) in Q; [discriminate|now left].
Qed.
Lemma is_url_spec s : is_url s = true <-> url s.
Proof.
  unfold url. destruct s as [|c s]; cbn [is_url].
  - split; [discriminate|]. intros (c & a & r & H & _). discriminate.
  - rewrite andb_true_iff, scheme_end_spec, letter_char, has_char_In. split.
    + intros (L & a & r & H & P). exists c, a, r. split; [now rewrite H|]. split; [exact L|]. intros x X. apply has_char_In. rewrite <- scheme_char_char. now apply P.
    + intros (d & a & r & H & L & P). inversion H; subst d. split; [exact L|]. exists a, r. split; [reflexivity|]. intros x X. rewrite scheme_char_char. apply has_char_In. now apply P.
Qed.
