(** * C89: replacing missing values *)
From Verif Require Import Base PyNum ScopeModel TypeModel TypeSpec JsonModel JsonSpec TypeProps JsonProps SigModel SigProps ImputeModel.
Require Import SpecFloat.
Open Scope string_scope.
Open Scope list_scope.
Open Scope Z_scope.

(** a type that is null or [a], in either order *)
Definition nullable (a : ty) (u : list ty) : Prop := u = [a; TNull] \/ u = [TNull; a].
Definition is_union (t : ty) : bool := match t with TUnion _ => true | _ => false end.

(** Whatever input the engine accepts for a nullable type: impute.errorOnNull refuses null with its code and gives
    anything else without its tag, as a value of the type; impute.defaultOnNull gives the default for null and otherwise
    the same value. *)
Theorem C89_checked_input : forall P D n a u v w d, good_defs D -> nullable a u -> good (TUnion u) ->
  JsonModel.check n P D v (TUnion u) = Ok w ->
  (w = VNull /\ errorOnNull a w = Raise (PFAErr 21000) /\ defaultOnNull a w d = Ok d) \/
  (exists x m, w = VDict [(tyname a, x)] /\ shape m D a x /\ errorOnNull a w = Ok x /\ defaultOnNull a w d = Ok x).
Proof.
  intros P D n a u v w d GD Nu G H. pose proof (C16_shape_partial P D _ n v w GD G H) as Sh.
  assert (U : is_union a = false).
  { destruct G as (W & _). destruct Nu as [-> | ->]; destruct a; auto; cbn in W; intuition. }
  destruct n as [|n]; [destruct Sh|]. cbn [shape] in Sh. destruct w; try (destruct Sh; fail).
  - left. auto.
  - right. destruct d0 as [|[tag x] [|]]; try (destruct Sh; fail). destruct Sh as (t' & I & <- & N & Hs).
    assert (t' = a) as ->.
    { destruct Nu as [-> | ->]; destruct I as [<- | [<- | []]]; congruence. }
    exists x, n. split; auto. split; auto. cbn. unfold untag. destruct a; try discriminate; auto.
Qed.
Example C89_checked_input_ex :
  nullable (TMap TInt) [TNull; TMap TInt] /\ good (TUnion [TNull; TMap TInt]) /\
  JsonModel.check 5 no_parse doc1 (VDict [("map", VDict [("a", VInt 1); ("b", VInt 2)])]) (TUnion [TNull; TMap TInt]) = Ok (VDict [("map", VDict [("a", VInt 1); ("b", VInt 2)])]) /\
  JsonModel.check 5 no_parse doc1 VNull (TUnion [TNull; TMap TInt]) = Ok VNull.
Proof.
  split; [right; auto|]. split; [|split; reflexivity]. split; [cbn; tauto|]. split; cbn; repeat split; try discriminate;
    repeat constructor; cbn; intuition discriminate.
Qed.
(** A valid value given with its tag comes back as it was. *)
Theorem C89_tagged : forall a tag x d, is_union a = false ->
  errorOnNull a (VDict [(tag, x)]) = Ok x /\ defaultOnNull a (VDict [(tag, x)]) d = Ok x.
Proof. intros a tag x d U. unfold errorOnNull, defaultOnNull, untag. destruct a; try discriminate; auto. Qed.
(** Values that are no map and no record need no tag. *)
Theorem C89_untagged : forall a x d, (forall f, x <> VDict f) -> x <> VNull ->
  errorOnNull a x = Ok x /\ defaultOnNull a x d = Ok x.
Proof.
  intros a x d N1 N2. unfold errorOnNull, defaultOnNull, untag.
  destruct x; try congruence; try (destruct a; auto; fail).
Qed.
Example C89_untagged_ex : errorOnNull TInt (VInt 3) = Ok (VInt 3).
Proof. reflexivity. Qed.

(** A map or a record that is not tagged (the result of an expression) is accepted, and what comes back is its first
    value, which is not of the declared type; an empty map ends in an IndexError. *)
Definition sig_errorOnNull : sig := Sig [("x", QUnion [W_ "A"; QNull])] (W_ "A") always.
Theorem C89_map_refuted : exists u m t x,
  (exists ts, sigs_accepts doc2 [sig_errorOnNull] [PVal u] v1 = Ok (Some (sig_errorOnNull, ts, PVal t))) /\
  datum 5 doc2 u m /\ errorOnNull t m = Ok x /\ (forall n, ~ shape n doc2 t x) /\
  datum 5 doc2 u (VDict []) /\ errorOnNull t (VDict []) = Raise (PyErr "IndexError").
Proof.
  exists (TMap TInt), (VDict [("a", VInt 1); ("b", VInt 2)]), (TMap TInt), (VInt 1).
  split; [eexists; reflexivity|]. split.
  { cbn. intros k x [H | [H | []]]; injection H as <- <-; unfold int_range; lia. }
  split; [reflexivity|]. split; [|split; [|reflexivity]].
  - intros n H. destruct n; destruct H.
  - cbn. intros k x [].
Qed.

(** ** Numbers *)
(** Every double is exactly one of: NaN, infinite, a number. impute.errorOnNonNum tells them apart by code and gives
    numbers back; impute.defaultOnNonNum replaces what is no number. *)
Definition is_number (x : pf) : Prop := match x with S754_zero _ | S754_finite _ _ _ => True | _ => False end.
Theorem C89_numbers : forall x d,
  (imp_isnum x = true <-> is_number x) /\ (imp_isnan x = true <-> x = fnan) /\ (imp_isinf x = true <-> x = finf \/ x = fninf) /\
  (is_number x -> errorOnNonNum x = Ok x /\ defaultOnNonNum x d = x) /\
  (errorOnNonNum fnan = Raise (PFAErr 21050) /\ errorOnNonNum finf = Raise (PFAErr 21051) /\ errorOnNonNum fninf = Raise (PFAErr 21052)) /\
  (~ is_number x -> defaultOnNonNum x d = d).
Proof.
  intros x d. unfold imp_isnum, imp_isnan, imp_isinf, errorOnNonNum, defaultOnNonNum, is_number, finf, fninf, fnan.
  destruct x as [s|s| |s m e]; cbn; repeat split; intros; auto; try discriminate; try tauto.
  all: try (intuition discriminate). all: try (destruct s; auto; fail). all: try (destruct H as [H|H]; discriminate).
Qed.
Print Assumptions C89_checked_input.
Print Assumptions C89_tagged.
Print Assumptions C89_untagged.
Print Assumptions C89_map_refuted.
Print Assumptions C89_numbers.
