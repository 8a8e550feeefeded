(** The names made by chaining are all different. *)
From Verif Require Import Base ScopeModel ScopeProofs CoreModel EngineModel ChainModel ChainSpec.
From Coq Require Import Ascii Decimal DecimalString DecimalNat.
Open Scope string_scope.
Open Scope list_scope.

Lemma append_inj a x y : (a ++ x = a ++ y)%string -> x = y.
Proof. induction a as [|c a IH]; cbn; [auto|]. intros [= H]. auto. Qed.
Lemma digits_split d d' r r' : (NilEmpty.string_of_uint d ++ String "_" r = NilEmpty.string_of_uint d' ++ String "_" r')%string -> d = d'.
Proof.
  revert d'. induction d; intros [| | | | | | | | | |]; cbn; try discriminate; try reflexivity; intros [= H]; f_equal; auto.
Qed.
Lemma dec_split i j r r' : (dec i ++ "_" ++ r = dec j ++ "_" ++ r')%string -> i = j.
Proof. intros H. apply digits_split in H. rewrite <- (Unsigned.of_to i), <- (Unsigned.of_to j). now f_equal. Qed.
Lemma append_assoc a b c : ((a ++ b) ++ c = a ++ (b ++ c))%string.
Proof. induction a as [|x a IH]; cbn; [reflexivity|]. now rewrite IH. Qed.
Lemma label_index i j a b x y : (label i a ++ x = label j b ++ y)%string -> i = j.
Proof.
  unfold label. rewrite !append_assoc. intros H. apply append_inj in H. apply dec_split in H. now injection H.
Qed.
Lemma label_given i a x y : In y ["name"; "instance"; "metadata"; "actionsStarted"; "actionsFinished"] -> (label i a ++ x)%string <> y.
Proof. unfold label. cbn. intros H. repeat destruct H as [<-|H]; try discriminate. contradiction. Qed.

Definition key_of {V} (kv : string * V) : string := fst kv.
Lemma NoDup_app {A} (l m : list A) : NoDup l -> NoDup m -> (forall x, In x l -> ~ In x m) -> NoDup (l ++ m).
Proof.
  induction 1 as [|x l H Hl IH]; cbn; intros Hm D; [exact Hm|]. constructor.
  - rewrite in_app_iff. intros [I|I]; [auto|]. apply (D x); cbn; auto.
  - apply IH; [exact Hm|]. intros y I. apply D. now right.
Qed.
Lemma NoDup_map_inj {A B} (f : A -> B) l : (forall x y, f x = f y -> x = y) -> NoDup l -> NoDup (map f l).
Proof.
  intros H. induction 1 as [|x l N _ IH]; cbn; constructor; auto. intros I. apply in_map_iff in I. destruct I as (y & E & I). apply H in E. now subst.
Qed.
(** all names of step i and later ones begin with their label *)
Definition labelled (i : nat) (x : string) : Prop := exists j nm y, (i <= j)%nat /\ x = (label j nm ++ y)%string.
Lemma labelled_other i nm x : ~ labelled (S i) (label i nm ++ x).
Proof. intros (j & nm' & y & L & H). apply label_index in H. lia. Qed.
Lemma labelled_S i x : labelled (S i) x -> labelled i x.
Proof. intros (j & nm & y & L & H). exists j, nm, y. split; [lia|auto]. Qed.
Lemma fcns_labelled whole i ps x : In x (map fst (all_fcns whole i ps)) -> labelled i x.
Proof.
  revert i. induction ps as [|p ps IH]; intros i; cbn [all_fcns map]; [intros []|]. rewrite map_app, in_app_iff. intros [H|H].
  - cbn [step_fcns map fst In] in H. destruct H as [<-|H].
    + exists i, (f_name p), "action". auto.
    + rewrite map_map in H. apply in_map_iff in H. destruct H as (f & <- & _). exists i, (f_name p), ("fcn_" ++ fst f)%string. auto.
  - apply labelled_S. now apply IH.
Qed.
Lemma cells_labelled i ps x : In x (map fst (all_cells i ps)) -> labelled i x.
Proof.
  revert i. induction ps as [|p ps IH]; intros i; cbn [all_cells map]; [intros []|]. rewrite map_app, in_app_iff. intros [H|H].
  - rewrite map_map in H. apply in_map_iff in H. destruct H as (f & <- & _). exists i, (f_name p), (fst f). auto.
  - apply labelled_S. now apply IH.
Qed.
Lemma pools_labelled i ps x : In x (map fst (all_pools i ps)) -> labelled i x.
Proof.
  revert i. induction ps as [|p ps IH]; intros i; cbn [all_pools map]; [intros []|]. rewrite map_app, in_app_iff. intros [H|H].
  - rewrite map_map in H. apply in_map_iff in H. destruct H as (f & <- & _). exists i, (f_name p), (fst f). auto.
  - apply labelled_S. now apply IH.
Qed.
Lemma fcns_NoDup whole i ps : Forall dicts ps -> NoDup (map fst (all_fcns whole i ps)).
Proof.
  intros H. revert i. induction H as [|p ps (Hf & _) _ IH]; intros i; cbn [all_fcns map]; [constructor|]. rewrite map_app. apply NoDup_app.
  - cbn [step_fcns map fst]. constructor.
    + rewrite map_map. intros I. apply in_map_iff in I. destruct I as (f & E & _). cbn [fst] in E. apply append_inj in E. discriminate.
    + rewrite map_map. cbn [fst]. rewrite <- (map_map fst (prefix_def i (f_name p))). apply NoDup_map_inj; [|exact Hf].
      intros x y E. apply append_inj in E. now injection E.
  - apply IH.
  - intros x I J. apply fcns_labelled in J. cbn [step_fcns map fst In] in I. destruct I as [<-|I].
    + now apply labelled_other in J.
    + rewrite map_map in I. apply in_map_iff in I. destruct I as (f & <- & _). now apply labelled_other in J.
Qed.
Lemma cells_NoDup i ps : Forall dicts ps -> NoDup (map fst (all_cells i ps)).
Proof.
  intros H. revert i. induction H as [|p ps (_ & Hf & _) _ IH]; intros i; cbn [all_cells map]; [constructor|]. rewrite map_app. apply NoDup_app.
  - rewrite map_map. cbn [fst]. rewrite <- (map_map fst (prefix_cell i (f_name p))). apply NoDup_map_inj; [|exact Hf]. intros x y E. now apply append_inj in E.
  - apply IH.
  - intros x I J. apply cells_labelled in J. rewrite map_map in I. apply in_map_iff in I. destruct I as (f & <- & _). now apply labelled_other in J.
Qed.
Lemma pools_NoDup i ps : Forall dicts ps -> NoDup (map fst (all_pools i ps)).
Proof.
  intros H. revert i. induction H as [|p ps (_ & _ & Hf) _ IH]; intros i; cbn [all_pools map]; [constructor|]. rewrite map_app. apply NoDup_app.
  - rewrite map_map. cbn [fst]. rewrite <- (map_map fst (prefix_pool i (f_name p))). apply NoDup_map_inj; [|exact Hf]. intros x y E. now apply append_inj in E.
  - apply IH.
  - intros x I J. apply pools_labelled in J. rewrite map_map in I. apply in_map_iff in I. destruct I as (f & <- & _). now apply labelled_other in J.
Qed.
(** filling a dict with different keys keeps them all *)
Lemma fill_assoc {V} (l : list (string * V)) d x : NoDup (map fst l) ->
  assoc x (fill l d) = match assoc x l with Some v => Some v | None => assoc x d end.
Proof.
  unfold fill. revert d. induction l as [|[k v] l IH]; intros d H; cbn [fold_left assoc fst snd]; [reflexivity|].
  inversion_clear H as [|? ? N Hl]. rewrite IH by exact Hl. destruct (String.eqb_spec x k) as [->|Ne].
  - assert (X : assoc k l = None).
    { destruct (assoc k l) eqn:E; [|reflexivity]. exfalso. apply N. clear - E. induction l as [|[y w] l IH]; [discriminate|]. cbn in *.
      destruct (String.eqb_spec k y); [now left|right; auto]. }
    now rewrite X, assoc_set_eq.
  - now rewrite assoc_set_neq.
Qed.
Lemma assoc_In {V} (l : list (string * V)) x v : NoDup (map fst l) -> In (x, v) l -> assoc x l = Some v.
Proof.
  induction l as [|[y w] l IH]; cbn; [tauto|]. intros H I. inversion_clear H as [|? ? N Hl]. destruct I as [[= -> ->]|I].
  - now rewrite String.eqb_refl.
  - destruct (String.eqb_spec x y) as [->|]; [|auto]. exfalso. apply N. apply in_map_iff. exists (y, v). auto.
Qed.
Lemma assoc_Some {V} (l : list (string * V)) x v : assoc x l = Some v -> In (x, v) l.
Proof. induction l as [|[y w] l IH]; cbn; [discriminate|]. destruct (String.eqb_spec x y) as [->|]; [intros [= ->]; now left|right; auto]. Qed.
Lemma assoc_None {V} (l : list (string * V)) x : assoc x l = None <-> ~ In x (map fst l).
Proof.
  induction l as [|[y w] l IH]; cbn; [tauto|]. destruct (String.eqb_spec x y) as [->|]; [|rewrite IH; intuition congruence].
  split; [discriminate|]. intros H. exfalso. auto.
Qed.
Lemma assoc_pref {V} (l : list (string * V)) x : assoc ("u." ++ x)%string (map (fun f => (("u." ++ fst f)%string, snd f)) l) = assoc x l.
Proof.
  induction l as [|[y w] l IH]; cbn [map fst snd assoc]; [reflexivity|].
  assert (X : String.eqb ("u." ++ x) ("u." ++ y) = String.eqb x y) by reflexivity. now rewrite X, IH.
Qed.
Lemma assoc_nopref {V} (l : list (string * V)) f : strip_u f = None -> assoc f (map (fun f => (("u." ++ fst f)%string, snd f)) l) = None.
Proof.
  intros H. apply assoc_None. rewrite map_map. cbn [fst]. intros I. apply in_map_iff in I. destruct I as (y & <- & _). discriminate.
Qed.
Lemma strip_u_Some f x : strip_u f = Some x -> f = ("u." ++ x)%string.
Proof.
  destruct f as [|a [|b f]]; cbn; try discriminate. destruct (Ascii.eqb_spec a "u"), (Ascii.eqb_spec b "."); cbn; try discriminate.
  subst. now intros [= ->].
Qed.
