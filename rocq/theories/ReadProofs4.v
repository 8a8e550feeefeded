(** Position marks do not change what is read (C45), and which exceptions the reader raises (C46). *)
From Verif Require Import Base PyNum ScopeModel ReadModel ReadSpec ReadProofs ReadProofs2 ReadProofs3.
From Coq Require Import Ascii.
Open Scope string_scope.
Open Scope list_scope.
Open Scope Z_scope.

Lemma rmapM_map {A B C} (f : B -> res C) (g : A -> B) l : rmapM f (map g l) = rmapM (fun a => f (g a)) l.
Proof. induction l as [|a l IH]; [reflexivity|]. cbn [map rmapM]. now rewrite IH. Qed.
Lemma rmapM_ext {A B} (f g : A -> res B) l : (forall a, In a l -> f a = g a) -> rmapM f l = rmapM g l.
Proof.
  induction l as [|a l IH]; intros H; [reflexivity|]. cbn [rmapM]. rewrite (H a) by (simpl; auto). rewrite IH; [reflexivity|].
  intros b I. apply H. right; auto.
Qed.
Definition sd (d : list (string * val)) : list (string * val) := map (fun p => (fst p, strip (snd p))) (unmarked d).
Lemma strip_dict' d : strip (VDict d) = VDict (sd d).
Proof. apply strip_dict. Qed.
Lemma unmarked_sd d : unmarked (sd d) = sd d.
Proof.
  apply unmarked_id. intros k v I. apply in_map_iff in I as ((k' & v') & Eq & I). injection Eq as -> _. now apply unmarked_in in I as [_ I].
Qed.
Lemma assoc_sd k d : assoc k (sd d) = option_map strip (assoc k (unmarked d)).
Proof.
  unfold sd. induction (unmarked d) as [|[k' v] l IH]; [reflexivity|]. cbn [map assoc fst snd]. destruct (String.eqb k k'); auto.
Qed.
Lemma keys_sd d : keys (sd d) = keys (unmarked d).
Proof. unfold sd, keys. rewrite map_map. apply map_ext. reflexivity. Qed.

Section Marks.
  Context (E : outside).
  Section OneReader.
    Context (reader : val -> res node).
    Hypothesis RS : forall v, reader (strip v) = reader v.
    Lemma expr_strip v : read_expr reader (strip v) = read_expr reader v.
    Proof using RS. unfold read_expr. now rewrite RS. Qed.
    Lemma array_strip {A} (f : val -> res A) v : (forall v, f (strip v) = f v) -> read_array f (strip v) = read_array f v.
    Proof. intros H. destruct v; try reflexivity. rewrite strip_arr. cbn [read_array]. rewrite rmapM_map. apply rmapM_ext. auto. Qed.
    Lemma map_strip {A} (f : val -> res A) v : (forall v, f (strip v) = f v) -> read_map f (strip v) = read_map f v.
    Proof.
      intros H. destruct v; try reflexivity. rewrite strip_dict'. cbn [read_map]. rewrite unmarked_sd. unfold sd. rewrite rmapM_map.
      apply rmapM_ext. intros p _. cbn [fst snd]. now rewrite H.
    Qed.
    Lemma single_strip {A} (f : val -> res A) v : (forall v, f (strip v) = f v) -> read_single f (strip v) = read_single f v.
    Proof. intros H. unfold read_single. now rewrite map_strip. Qed.
    Lemma string_strip v : read_string (strip v) = read_string v.
    Proof. destruct v; reflexivity. Qed.
    Lemma body_strip v : read_body reader (strip v) = read_body reader v.
    Proof using RS.
      assert (H : (a <- read_expr reader (strip v) ;; Ok [a]) = (a <- read_expr reader v ;; Ok [a])) by now rewrite expr_strip.
      destruct v; try exact H. rewrite strip_arr. cbn [read_body]. rewrite rmapM_map. apply rmapM_ext. intros; apply expr_strip.
    Qed.
    Lemma param_strip v : read_param (strip v) = read_param v.
    Proof.
      destruct v; try reflexivity. rewrite strip_dict'. cbn [read_param]. rewrite unmarked_sd. unfold sd.
      destruct (unmarked d) as [|[x t] [|]]; try reflexivity. cbn [map fst snd]. now rewrite strip_twice.
    Qed.
    Lemma case_strip v : read_case reader (strip v) = read_case reader v.
    Proof using RS.
      destruct v; try reflexivity. rewrite strip_dict'. cbn [read_case]. rewrite unmarked_sd. unfold sd. rewrite rmapM_map.
      rewrite (rmapM_ext _ (case_field reader)); [reflexivity|]. intros [k v] _. unfold case_field. cbn [fst snd].
      now rewrite strip_twice, string_strip, body_strip.
    Qed.
    Lemma kind_strip k v : read_kind E reader k (strip v) = read_kind E reader k v.
    Proof using RS.
      destruct k; cbn [read_kind]; rewrite ?string_strip, ?strip_twice, ?body_strip, ?expr_strip, ?RS; try reflexivity.
      - destruct v; reflexivity.
      - destruct v; reflexivity.
      - destruct v; reflexivity.
      - now rewrite map_strip by apply expr_strip.
      - now rewrite array_strip by apply expr_strip.
      - now rewrite array_strip by apply expr_strip.
      - now rewrite array_strip by apply case_strip.
      - destruct v; reflexivity.
      - destruct v; try reflexivity.
        + pose proof (array_strip (read_expr reader) (VArr l) expr_strip) as H. rewrite strip_arr in *. now rewrite H.
        + pose proof (map_strip (read_expr reader) (VDict d) expr_strip) as H. rewrite strip_dict' in *. now rewrite H.
      - now rewrite array_strip by apply param_strip.
      - now rewrite map_strip by apply RS.
      - rewrite array_strip; [reflexivity|]. intros []; reflexivity.
      - rewrite array_strip; [reflexivity|]. intros. apply single_strip, string_strip.
      - destruct v; try reflexivity. rewrite strip_arr, rmapM_map. rewrite (rmapM_ext _ (read_single (read_expr reader))); [reflexivity|].
        intros. apply single_strip, expr_strip.
    Qed.
    Lemma field_strip p : read_field E reader (fst p, strip (snd p)) = read_field E reader p.
    Proof using RS.
      destruct p as [k v]. unfold read_field. cbn [fst snd]. destruct (assoc k kinds); [now rewrite kind_strip|].
      assert (One : (a <- reader (strip v) ;; Ok (k, SCall [a])) = (a <- reader v ;; Ok (k, SCall [a]))) by now rewrite RS.
      destruct v; try exact One. rewrite strip_arr, rmapM_map. rewrite (rmapM_ext _ reader); [reflexivity|]. auto.
    Qed.
  End OneReader.
  Theorem read_strip n : forall v, read E n (strip v) = read E n v.
  Proof.
    induction n as [|n IH]; intros v; [reflexivity|]. destruct v; try reflexivity.
    - rewrite strip_arr. destruct l as [|u [|]]; try reflexivity; [destruct u; reflexivity|]. cbn [map read].
      destruct u; try reflexivity.
    - rewrite strip_dict'. cbn [read]. unfold read_dict. rewrite unmarked_sd. unfold sd. rewrite rmapM_map.
      rewrite (rmapM_ext _ (read_field E (read E n))); [reflexivity|]. intros. now apply field_strip.
  Qed.

  Lemma fcn_strip n v : read_fcn (read E n) (strip v) = read_fcn (read E n) v.
  Proof.
    destruct v; try reflexivity. rewrite strip_dict'. cbn [read_fcn]. rewrite unmarked_sd. unfold sd. rewrite rmapM_map.
    rewrite (rmapM_ext _ (fcn_field (read E n))); [reflexivity|]. intros [k v] _. unfold fcn_field. cbn [fst snd].
    now rewrite strip_twice, (body_strip _ (read_strip n)), (array_strip read_param v param_strip).
  Qed.
  Lemma named_strip {A} valid (f : val -> res A) d : (forall v, f (strip v) = f v) -> read_named valid f (sd d) = read_named valid f d.
  Proof.
    intros H. unfold read_named. rewrite unmarked_sd, keys_sd. destruct (forallb _ _); [|reflexivity]. unfold sd. rewrite rmapM_map.
    apply rmapM_ext. intros p _. cbn [fst snd]. now rewrite H.
  Qed.
  Lemma flag_strip k d : flag k (sd d) = flag k (unmarked d).
  Proof. unfold flag. rewrite assoc_sd. destruct (assoc k (unmarked d)) as [[]|]; reflexivity. Qed.
  Lemma source_strip d : source_of (sd d) = source_of (unmarked d).
  Proof. unfold source_of. rewrite assoc_sd. destruct (assoc "source" (unmarked d)) as [[]|]; reflexivity. Qed.
  Lemma known_strip d : known_keys (sd d) = known_keys (unmarked d).
  Proof. unfold known_keys. now rewrite keys_sd. Qed.
  Lemma json_map_strip v : json_map (strip v) = json_map v.
  Proof.
    destruct v; try reflexivity. rewrite strip_dict'. cbn [json_map]. rewrite unmarked_sd. unfold sd. rewrite map_map. f_equal.
    apply map_ext. intros p. cbn [fst snd]. now rewrite strip_twice.
  Qed.
  Lemma cell_strip v : read_cell (strip v) = read_cell v.
  Proof.
    destruct v; try reflexivity. rewrite strip_dict'. cbn [read_cell]. rewrite unmarked_sd, !flag_strip, source_strip, known_strip, !assoc_sd.
    destruct (assoc "type" (unmarked d)); [|reflexivity]. destruct (assoc "init" (unmarked d)); [|reflexivity]. cbn [option_map].
    now rewrite !strip_twice.
  Qed.
  Lemma pool_strip v : read_pool (strip v) = read_pool v.
  Proof.
    destruct v; try reflexivity. rewrite strip_dict'. cbn [read_pool]. rewrite unmarked_sd, !flag_strip, source_strip, known_strip, !assoc_sd.
    destruct (assoc "init" (unmarked d)); cbn [option_map]; rewrite ?json_map_strip;
      (destruct (assoc "type" (unmarked d)); [|reflexivity]); cbn [option_map]; now rewrite !strip_twice.
  Qed.
  Lemma opt_strip {A} k (f : val -> res A) d : (forall v, f (strip v) = f v) -> opt_field k f (sd d) = opt_field k f (unmarked d).
  Proof. intros H. unfold opt_field. rewrite assoc_sd. destruct (assoc k (unmarked d)); [|reflexivity]. cbn [option_map]. now rewrite H. Qed.
  (** the document without its marks; the mark of the document itself has to be text *)
  Theorem doc_strip n fresh d : (forall v, assoc "@" d = Some v -> exists s, v = VStr s) ->
    read_doc E n fresh (strip (VDict d)) = read_doc E n fresh (VDict d).
  Proof.
    intros M. rewrite strip_dict'. unfold read_doc. rewrite unmarked_sd, keys_sd.
    rewrite !opt_strip.
    { assert (H1 : assoc "@" (sd d) = None).
      { rewrite assoc_sd. destruct (assoc "@" (unmarked d)) eqn:A; [|reflexivity]. apply assoc_In, unmarked_in in A as [_ A]. congruence. }
      rewrite H1. destruct (assoc "@" d) as [v|]; [|reflexivity]. destruct (M v eq_refl) as [s ->]. reflexivity. }
    all: intros v; rewrite ?strip_twice; try reflexivity; rewrite ?json_map_strip; try reflexivity.
    all: try (destruct v; reflexivity).
    all: try (apply body_strip, read_strip).
    - apply map_strip. apply string_strip.
    - destruct v; try reflexivity. rewrite strip_dict'. cbn [read_pools]. apply named_strip, pool_strip.
    - destruct v; try reflexivity. rewrite strip_dict'. cbn [read_cells]. apply named_strip, cell_strip.
    - destruct v; try reflexivity. rewrite strip_dict'. cbn [read_fcns]. apply named_strip, fcn_strip.
  Qed.
End Marks.
