(** C104: externalizing and internalizing cells and pools in pfainspector. *)
From Verif Require Import Base ScopeModel XtnModel XtnSpec XtnProofs.
Open Scope string_scope.
Open Scope list_scope.

(** What externalize does: the one cell or pool gets source json and the name of the file, the file holds what init was, and no other place and no other file is changed. *)
Theorem C104_externalize : forall w doc name file cell doc' w', run_externalize w doc name file cell = (None, doc', w') ->
  exists sec o o', (sec = "cells" \/ sec = "pools") /\ is_at doc sec name o /\ same_but sec name doc doc' /\ is_at doc' sec name o' /\ same_fields o o' /\
    (assoc "source" o = None \/ assoc "source" o = Some (VStr "embedded")) /\
    assoc "source" o' = Some (VStr "json") /\ assoc "init" o' = Some (VStr file) /\
    content w' (place w file) = Ok (match assoc "init" o with Some x => x | None => VNull end) /\ only_written w w' file.
Proof.
  intros w doc name file cell doc' w' H. apply (externalize_does w doc name file cell). unfold run_externalize in H.
  destruct (externalize w doc name file cell) as [[d x]|e]; inversion H; now subst.
Qed.
(** It is done whenever the cell (with cell=false: the pool) of that name is embedded and the file can be written; if there is none, the pool (the cell) of that name is taken. *)
Theorem C104_which : forall w doc name file (cell : bool) o, writable w file = true -> (assoc "source" o = None \/ assoc "source" o = Some (VStr "embedded")) ->
  let first := if cell then "cells" else "pools" in let second := if cell then "pools" else "cells" in
  (is_at doc first name o -> exists doc' w', run_externalize w doc name file cell = (None, doc', w') /\ same_but first name doc doc') /\
  ((forall c, assoc first doc = Some (VDict c) -> assoc name c = None) -> is_at doc second name o ->
     exists doc' w', run_externalize w doc name file cell = (None, doc', w') /\ same_but second name doc doc').
Proof.
  intros w doc name file cell o W S0 first second. split.
  - intro L. destruct (externalize_ends w doc name file cell _ o (find_preferred _ _ cell _ L) S0 W) as (d & x & A & B).
    exists d, x. unfold run_externalize. rewrite A. split; [reflexivity|exact B].
  - intros N L. assert (P : lookup doc (preferred cell) name = None).
    { unfold lookup, section. fold first in N. change (preferred cell) with first. destruct (assoc first doc) as [v|]; [|reflexivity].
      destruct v as [| | | | | | |c]; try reflexivity. now rewrite (N c eq_refl). }
    destruct (externalize_ends w doc name file cell _ o (find_other _ _ cell _ P L) S0 W) as (d & x & A & B).
    exists d, x. unfold run_externalize. rewrite A. split; [reflexivity|exact B].
Qed.
(** Every cell starts with the value it started with before, if it did not start from the file that is now overwritten. *)
Theorem C104_start : forall w doc name file cell doc' w' n o x, run_externalize w doc name file cell = (None, doc', w') -> is_url file = false ->
  is_at doc "cells" n o -> read_cell w o = Ok x -> ~ uses w o file -> exists o', is_at doc' "cells" n o' /\ read_cell w' o' = Ok x.
Proof.
  intros w doc name file cell doc' w' n o x H U L X N. unfold run_externalize in H. destruct (externalize w doc name file cell) as [[d y]|e] eqn:E; inversion H; subst.
  destruct (start_kept _ _ _ _ _ _ _ _ _ _ E U L (ex_intro _ x X) N) as (o' & A & B). exists o'. split; [exact A|]. now rewrite B.
Qed.
(** After an error the document and the files are as they were. *)
Theorem C104_error : forall w doc name file cell e doc' w', run_externalize w doc name file cell = (Some e, doc', w') -> doc' = doc /\ w' = w.
Proof. intros w doc name file cell e doc' w' H. unfold run_externalize in H. destruct (externalize w doc name file cell) as [[d y]|e0]; inversion H; auto. Qed.
(** What internalize does: source is gone, init is what the file or URL holds, and the cell starts with the same value. *)
Theorem C104_internalize : forall w doc name cell doc', (forall sec n o, is_at doc sec n o -> a_dict o) -> run_internalize w doc name cell = (None, doc') ->
  exists sec o o' u x, is_at doc sec name o /\ same_but sec name doc doc' /\ is_at doc' sec name o' /\ same_fields o o' /\
    assoc "source" o = Some (VStr "json") /\ assoc "init" o = Some (VStr u) /\ fetch w u = Ok x /\ assoc "source" o' = None /\ assoc "init" o' = Some x /\
    read_cell w o = Ok x /\ read_cell w o' = Ok x.
Proof.
  intros w doc name cell doc' D H. apply (internalize_does w doc name cell doc' D). unfold run_internalize in H.
  destruct (internalize w doc name cell) as [d|e]; inversion H; now subst.
Qed.
Theorem C104_internalize_error : forall w doc name cell e doc', run_internalize w doc name cell = (Some e, doc') -> doc' = doc.
Proof. intros w doc name cell e doc' H. unfold run_internalize in H. destruct (internalize w doc name cell) as [d|e0]; inversion H; auto. Qed.
(** There and back: internalize after externalize ends without an error, and only source and a missing init can differ from the document at the beginning. *)
Theorem C104_back : forall w doc name file cell doc' w', (forall sec n o, is_at doc sec n o -> a_dict o) -> run_externalize w doc name file cell = (None, doc', w') -> is_url file = false ->
  exists doc'' sec o o'', run_internalize w' doc' name cell = (None, doc'') /\ is_at doc sec name o /\ same_but sec name doc doc'' /\ is_at doc'' sec name o'' /\ same_fields o o'' /\
    assoc "source" o'' = None /\ assoc "init" o'' = Some (match assoc "init" o with Some x => x | None => VNull end).
Proof.
  intros w doc name file cell doc' w' D H U. unfold run_externalize in H. destruct (externalize w doc name file cell) as [[d y]|e] eqn:E; inversion H; subst.
  destruct (round_trip _ _ _ _ _ _ _ D E U) as (doc'' & sec & o & o'' & A & B). exists doc'', sec, o, o''. unfold run_internalize. rewrite A. split; [reflexivity|exact B].
Qed.

(** What counts as a URL: exactly the names that begin with a scheme. *)
Theorem C104_url : forall w s, (is_url s = true <-> url s) /\ (url s -> fetch w s = web w s) /\ (~ url s -> fetch w s = content w (place w s)).
Proof.
  intros w s. pose proof (is_url_spec s) as H. split; [exact H|]. unfold fetch. destruct (is_url s) eqn:U; split; intro X.
  - reflexivity.
  - elim X. now apply H.
  - apply H in X. discriminate.
  - reflexivity.
Qed.
Example C104_url_case : url "https://a/b" /\ ~ url "C:x" /\ ~ url "a_b://c".
Proof.
  split; [apply is_url_spec; reflexivity|]. split; intro H; apply is_url_spec in H; discriminate.
Qed.

(** A case that meets the hypotheses *)
Definition files : disk := mkDisk (fun n => if String.eqb n "./a.json" then "a.json" else n) (fun _ => Raise (PyErr "OSError")) (fun _ => Raise (PyErr "URLError")) (fun _ => true) (fun _ => Raise (PyErr "OSError")).
Definition cell_x : list (string * val) := [("type", VStr "int"); ("init", VInt 3)].
Definition cell_y : list (string * val) := [("type", VStr "int"); ("init", VInt 4); ("source", VStr "embedded")].
Definition pool_x : list (string * val) := [("type", VStr "int"); ("shared", VBool true)].
Definition model_doc : list (string * val) :=
  [("name", VStr "M"); ("cells", VDict [("x", VDict cell_x); ("y", VDict cell_y)]); ("pools", VDict [("x", VDict pool_x); ("z", VDict [("type", VStr "int"); ("init", VDict [("k", VInt 1)])])])].
Definition fst3 {A B C} (x : A * B * C) : A := fst (fst x).
Definition snd3 {A B C} (x : A * B * C) : B := snd (fst x).
Example C104_case : let r := run_externalize files model_doc "x" "./a.json" true in
  fst3 r = None /\ assoc "cells" (snd3 r) = Some (VDict [("x", VDict [("type", VStr "int"); ("init", VStr "./a.json"); ("source", VStr "json")]); ("y", VDict cell_y)]) /\
  content (snd r) "a.json" = Ok (VInt 3) /\ run_internalize (snd r) (snd3 r) "x" true = (None, model_doc) /\
  fst3 (run_externalize (snd r) (snd3 r) "x" "b.json" true) = Some (PyErr "InspectorError") /\ is_url "./a.json" = false /\ is_url "http://a" = true.
Proof. repeat split. Qed.
Example C104_dicts : forall sec n o, is_at model_doc sec n o -> a_dict o.
Proof.
  intros sec n o (c & A & B). apply assoc_In in A. cbn in A. unfold a_dict.
  destruct A as [A|[A|[A|[]]]]; inversion A; subst; apply assoc_In in B; cbn in B;
    destruct B as [B|[B|[]]]; inversion B; subst; repeat constructor; cbn; intuition discriminate.
Qed.

(** The claim fails in three ways. A pool that was externalized cannot be read any more, whatever it was: the reader takes no pool from a file. *)
Theorem C104_pool_refuted : forall w doc name file doc' w' o, run_externalize w doc name file false = (None, doc', w') -> is_at doc "pools" name o ->
  exists o' e, is_at doc' "pools" name o' /\ read_pool w' o' = Raise e.
Proof.
  intros w doc name file doc' w' o H L. unfold run_externalize in H. destruct (externalize w doc name file false) as [[d y]|e] eqn:E; inversion H; subst.
  destruct (externalize_inv _ _ _ _ _ _ _ E) as (sec & o1 & F & S0 & W & Q). rewrite (find_preferred doc name false o L) in F. cbn [preferred] in F. inversion F; subst sec o1.
  destruct (external_fields o file) as (F1 & F2 & F3). destruct (pool_lost w' _ F2) as (e & X). eexists _, e. split; [|exact X]. subst doc'. eapply put_at. exact L.
Qed.
Example C104_pool_case : let r := run_externalize files model_doc "z" "p.json" false in
  fst3 r = None /\ read_pool files [("type", VStr "int"); ("init", VDict [("k", VInt 1)])] = Ok (VDict [("k", VInt 1)]).
Proof. repeat split. Qed.
(** A pool without init, there and back, has init null, which the reader rejects. *)
Theorem C104_back_refuted : exists w doc doc' w' doc'' o o'', run_externalize w doc "x" "p.json" false = (None, doc', w') /\ run_internalize w' doc' "x" false = (None, doc'') /\
  is_at doc "pools" "x" o /\ read_pool w o = Ok (VDict []) /\ is_at doc'' "pools" "x" o'' /\ read_pool w' o'' = Raise (PyErr "PFASyntaxException").
Proof.
  exists files, model_doc. eexists _, _, _, pool_x, _. split; [reflexivity|]. split; [reflexivity|]. split; [eexists; split; reflexivity|]. split; [reflexivity|].
  split; [eexists; split; reflexivity|]. reflexivity.
Qed.
(** A second cell externalized to the same file overwrites the value of the first, without a warning. *)
Theorem C104_overwrite_refuted : exists w doc doc' w' doc'' w'' o o'', run_externalize w doc "x" "a.json" true = (None, doc', w') /\ run_externalize w' doc' "y" "./a.json" true = (None, doc'', w'') /\
  is_at doc "cells" "x" o /\ read_cell w o = Ok (VInt 3) /\ is_at doc'' "cells" "x" o'' /\ read_cell w'' o'' = Ok (VInt 4).
Proof.
  exists files, model_doc. eexists _, _, _, _, cell_x, _. split; [reflexivity|]. split; [reflexivity|]. split; [eexists; split; reflexivity|]. split; [reflexivity|].
  split; [eexists; split; reflexivity|]. reflexivity.
Qed.

Print Assumptions C104_externalize.
Print Assumptions C104_which.
Print Assumptions C104_start.
Print Assumptions C104_error.
Print Assumptions C104_internalize.
Print Assumptions C104_internalize_error.
Print Assumptions C104_back.
Print Assumptions C104_url.
Print Assumptions C104_pool_refuted.
Print Assumptions C104_back_refuted.
Print Assumptions C104_overwrite_refuted.
