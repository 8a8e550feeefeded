(** C86: model.reg.gaussianProcess: what is refused, what the Kriging weight does and how the outputs depend on each other. *)
From Coq Require Import SpecFloat.
From Verif Require Import Base PyNum GpModel.
Open Scope string_scope.
Open Scope list_scope.
Open Scope Z_scope.

(** ** What a table must be *)
Definition finite (f : pf) : Prop := match f with S754_zero _ | S754_finite _ _ _ => True | _ => False end.
Record well_formed (x : list pf) (table : list (row (list pf))) (n : nat) : Prop := {
  wf_table : table <> []; wf_x : x <> []; wf_n : n <> 0%nat;
  wf_features : forall t, In t table -> length (rx t) = length x;
  wf_outputs : forall t, In t table -> length (rto t) = n;
  wf_fin_x : Forall finite x;
  wf_fin_rows : forall t, In t table -> Forall finite (rx t) /\ Forall finite (rto t) }.
(** the table with only output [i] *)
Definition only (i : nat) (t : row (list pf)) : row pf := Row (rx t) (nth i (rto t) fnan).

Lemma not_finite_spec f : not_finite f = false <-> finite f.
Proof. destruct f; cbn; split; auto; try discriminate; contradiction. Qed.
Lemma existsb_not_finite l : existsb not_finite l = false <-> Forall finite l.
Proof.
  induction l as [|f l IH]; cbn; [split; auto|]. rewrite orb_false_iff, IH, not_finite_spec. split.
  - intros [A B]. auto.
  - intro H. inversion H; auto.
Qed.
Lemma existsb_none {A} (f : A -> bool) l : existsb f l = false <-> forall a, In a l -> f a = false.
Proof.
  induction l as [|a l IH]; cbn; [split; auto; contradiction|]. rewrite orb_false_iff, IH. split.
  - intros [A1 B] b [<-|I]; auto.
  - intro H. split; auto.
Qed.

Section P.
  Context (universal : list (list pf) -> list pf -> res pf).
  Context (predict_with : list pf -> list (list pf) -> list pf -> pf -> res pf).
  Local Notation gp_scalar := (gp_scalar universal predict_with).
  Local Notation gp_vector := (gp_vector universal predict_with).
  Local Notation gp_outputs := (gp_outputs universal predict_with).

  Lemma vector_guards x table kw n : well_formed x table n ->
    gp_vector x table kw = (beta <- getbeta kw ;; gp_outputs x table (seq 0 n) beta).
  Proof.
    intros [T X N F O Fx Fr]. unfold GpModel.gp_vector, check_inputs, check_table_x.
    destruct table as [|t0 table]; [congruence|]. destruct x as [|x0 x]; [congruence|]. cbn [length Nat.ltb Nat.leb].
    rewrite (proj2 (existsb_none _ (t0 :: table))) by (intros t I; rewrite F, Nat.eqb_refl; auto). cbn [rbind].
    rewrite (O t0) by (cbn; auto). destruct n as [|n]; [congruence|]. cbn [Nat.ltb Nat.leb].
    rewrite (proj2 (existsb_none (fun t => negb (length (rto t) =? S n)%nat) (t0 :: table))) by (intros t I; rewrite O, Nat.eqb_refl; auto).
    rewrite (proj2 (existsb_not_finite (x0 :: x))) by auto.
    rewrite (proj2 (existsb_none (fun t => existsb not_finite (rto t)) (t0 :: table)))
      by (intros t I; apply existsb_not_finite; apply Fr; auto).
    cbn [rbind].
    rewrite (proj2 (existsb_none (fun t => existsb not_finite (rx t)) (t0 :: table)))
      by (intros t I; apply existsb_not_finite; apply Fr; auto).
    auto.
  Qed.
  Lemma scalar_guards x table kw n i : (i < n)%nat -> well_formed x table n ->
    gp_scalar x (map (only i) table) kw =
    (beta <- getbeta kw ;; bv <- fit_predict universal predict_with x (map rx table) (map (output i) table) beta ;; Ok (snd bv)).
  Proof.
    intros L [T X N F O Fx Fr]. unfold GpModel.gp_scalar, check_inputs, check_table_x.
    rewrite map_length. destruct table as [|t0 table]; [congruence|]. destruct x as [|x0 x]; [congruence|].
    cbn [length Nat.ltb Nat.leb].
    rewrite (proj2 (existsb_none _ (map (only i) (t0 :: table))))
      by (intros t I; apply in_map_iff in I; destruct I as (t' & <- & I); cbn [only rx]; rewrite F, Nat.eqb_refl; auto).
    cbn [rbind]. rewrite (proj2 (existsb_not_finite (x0 :: x))) by auto.
    rewrite (proj2 (existsb_none (fun t : row pf => not_finite (rto t)) (map (only i) (t0 :: table)))).
    2: { intros t I. apply in_map_iff in I. destruct I as (t' & <- & I). cbn [only rto]. apply not_finite_spec.
         destruct (Fr t' I) as [_ Fo]. rewrite Forall_forall in Fo. apply Fo. apply nth_In. rewrite O; auto. }
    cbn [rbind].
    rewrite (proj2 (existsb_none (fun t : row pf => existsb not_finite (rx t)) (map (only i) (t0 :: table)))).
    2: { intros t I. apply in_map_iff in I. destruct I as (t' & <- & I). cbn [only rx]. apply existsb_not_finite. apply Fr. auto. }
    cbn [rbind]. rewrite !map_map. auto.
  Qed.
  Lemma getbeta_none kw : getbeta kw = Ok None \/ (exists w, kw = Some w /\ ~ finite w /\ getbeta kw = Raise (PFAErr 31087)).
  Proof.
    destruct kw as [w|]; cbn; auto. destruct (not_finite w) eqn:E; auto. right. exists w. repeat split; auto.
    intro H. apply not_finite_spec in H. congruence.
  Qed.
End P.

(** A well-formed table is refused only for a Kriging weight that is not finite; the codes of the other refusals follow. *)
Theorem C86_refusals : forall universal predict_with x table n kw, well_formed x table n ->
  (forall w, kw = Some w -> ~ finite w -> gp_vector universal predict_with x table kw = Raise (PFAErr 31087)) /\
  ((forall w, kw = Some w -> finite w) ->
     gp_vector universal predict_with x table kw = gp_outputs universal predict_with x table (seq 0 n) None).
Proof.
  intros u p x table n kw W. rewrite (vector_guards u p x table kw n W). split.
  - intros w -> H. cbn [getbeta]. destruct (not_finite w) eqn:E; auto. apply not_finite_spec in E. contradiction.
  - intro H. destruct (getbeta_none kw) as [->|(w & -> & N & _)]; auto. exfalso. apply N. auto.
Qed.
Theorem C86_refusal_codes : forall universal predict_with x table kw,
  (table = [] -> gp_vector universal predict_with x table kw = Raise (PFAErr 31080)) /\
  (table <> [] -> x = [] -> gp_vector universal predict_with x table kw = Raise (PFAErr 31081)) /\
  (x <> [] -> (exists t, In t table /\ length (rx t) <> length x) ->
     gp_vector universal predict_with x table kw = Raise (PFAErr 31082)) /\
  (forall t0 rest, table = t0 :: rest -> x <> [] -> (forall t, In t table -> length (rx t) = length x) ->
     (rto t0 = [] -> gp_vector universal predict_with x table kw = Raise (PFAErr 31083)) /\
     (rto t0 <> [] -> (exists t, In t table /\ length (rto t) <> length (rto t0)) ->
        gp_vector universal predict_with x table kw = Raise (PFAErr 31084)) /\
     (rto t0 <> [] -> (forall t, In t table -> length (rto t) = length (rto t0)) -> ~ Forall finite x ->
        gp_vector universal predict_with x table kw = Raise (PFAErr 31085)) /\
     (rto t0 <> [] -> (forall t, In t table -> length (rto t) = length (rto t0)) -> Forall finite x ->
        (exists t, In t table /\ (~ Forall finite (rx t) \/ ~ Forall finite (rto t))) ->
        gp_vector universal predict_with x table kw = Raise (PFAErr 31086))).
Proof.
  intros u p x table kw.
  assert (Some_ : forall {A} (f : A -> bool) l, (exists a, In a l /\ f a = true) -> existsb f l = true).
  { intros A f l H. apply existsb_exists. auto. }
  assert (NF : forall l, ~ Forall finite l -> existsb not_finite l = true).
  { intros l H. destruct (existsb not_finite l) eqn:E; auto. apply existsb_not_finite in E. contradiction. }
  split; [intros ->; auto|]. split.
  { intros T ->. destruct table; [congruence|]. auto. }
  split.
  { intros X (t & I & L). unfold gp_vector, check_inputs. destruct table as [|t0 table]; [contradiction|].
    destruct x as [|x0 x]; [congruence|]. cbn [length Nat.ltb Nat.leb].
    rewrite Some_; auto. exists t. split; auto. cbn [length] in L. apply negb_true_iff, Nat.eqb_neq. auto. }
  intros t0 rest E X F. unfold gp_vector, check_inputs, check_table_x. rewrite E in *.
  destruct x as [|x0 x]; [congruence|]. cbn [length Nat.ltb Nat.leb].
  rewrite (proj2 (existsb_none _ (t0 :: rest))) by (intros t I; rewrite F, Nat.eqb_refl; auto). cbn [rbind].
  split; [intros ->; auto|].
  split.
  { intros N (t & I & L). destruct (rto t0) as [|o0 os] eqn:O; [congruence|]. cbn [length Nat.ltb Nat.leb].
    rewrite Some_; auto. exists t. split; auto. apply negb_true_iff, Nat.eqb_neq. auto. }
  split.
  { intros N L B. destruct (rto t0) as [|o0 os] eqn:O; [congruence|]. cbn [length Nat.ltb Nat.leb].
    rewrite (proj2 (existsb_none (fun t => negb (length (rto t) =? S (length os))%nat) (t0 :: rest)))
      by (intros t I; apply negb_false_iff, Nat.eqb_eq; apply L; auto).
    rewrite (NF _ B). auto. }
  intros N L Fx (t & I & B). destruct (rto t0) as [|o0 os] eqn:O; [congruence|]. cbn [length Nat.ltb Nat.leb].
  rewrite (proj2 (existsb_none (fun t => negb (length (rto t) =? S (length os))%nat) (t0 :: rest)))
    by (intros t' I'; apply negb_false_iff, Nat.eqb_eq; apply L; auto).
  rewrite (proj2 (existsb_not_finite (x0 :: x))) by auto.
  destruct (existsb (fun t1 => existsb not_finite (rto t1)) (t0 :: rest)) eqn:E2; auto. cbn [rbind].
  destruct B as [B|B].
  - rewrite Some_; auto. exists t. auto.
  - rewrite existsb_none in E2. specialize (E2 t I). rewrite (NF _ B) in E2. discriminate.
Qed.

(** The first output is the output of the table with only that output. The following ones are computed with the weight of
    the first one instead of their own. *)
Theorem C86_outputs : forall universal predict_with x table n kw out, well_formed x table n ->
  gp_vector universal predict_with x table kw = Ok out ->
  length out = n /\
  exists b, universal (map rx table) (map (fun t => nth 0 (rto t) fnan) table) = Ok b /\
    forall i v, nth_error out i = Some v -> predict_with x (map rx table) (map (fun t => nth i (rto t) fnan) table) b = Ok v.
Proof.
  intros u p x table n kw out W H. rewrite (vector_guards u p x table kw n W) in H.
  destruct (getbeta_none kw) as [E|(w & _ & _ & E)]; rewrite E in H; cbn [rbind] in H; [|discriminate].
  pose proof (wf_n _ _ _ W) as N. destruct n as [|n]; [congruence|]. cbn [seq gp_outputs] in H.
  unfold fit_predict in H at 1. change (map (output 0) table) with (map (fun t => nth 0 (rto t) fnan) table) in H.
  destruct (u (map rx table) (map (fun t => nth 0 (rto t) fnan) table)) as [b|] eqn:B; cbn [rbind] in H; [|discriminate].
  destruct (p x (map rx table) (map (fun t => nth 0 (rto t) fnan) table) b) as [v0|] eqn:V0; cbn [rbind] in H; [|discriminate].
  cbn [fst snd] in H.
  destruct (gp_outputs u p x table (seq 1 n) (Some b)) as [out'|] eqn:O; cbn [rbind] in H; [|discriminate].
  inversion H; subst. clear H.
  assert (G : forall m s out', gp_outputs u p x table (seq s m) (Some b) = Ok out' ->
                length out' = m /\ forall i v, nth_error out' i = Some v ->
                  p x (map rx table) (map (fun t => nth (s + i) (rto t) fnan) table) b = Ok v).
  { clear. induction m as [|m IH]; intros s out' H.
    - inversion H. split; auto. intros [|] ? ?; discriminate.
    - cbn [seq gp_outputs] in H. unfold fit_predict in H at 1. cbn [rbind] in H.
      destruct (p x (map rx table) (map (output s) table) b) as [v|] eqn:V; cbn [rbind] in H; [|discriminate].
      cbn [fst snd] in H. destruct (gp_outputs u p x table (seq (S s) m) (Some b)) as [o2|] eqn:O; cbn [rbind] in H; [|discriminate].
      inversion H; subst. destruct (IH _ _ O) as [L P]. split; [cbn; congruence|].
      intros [|i] w; cbn [nth_error]; intro I.
      + inversion I; subst. rewrite Nat.add_0_r. exact V.
      + rewrite <- Nat.add_succ_comm. auto. }
  destruct (G n 1%nat out' O) as [L P]. split; [cbn; congruence|]. exists b. split; auto.
  intros [|i] v; cbn [nth_error]; intro I; [inversion I; subst; auto|]. apply (P i v I).
Qed.
Theorem C86_first_output : forall universal predict_with x table n kw v out, well_formed x table n ->
  gp_vector universal predict_with x table kw = Ok (v :: out) ->
  gp_scalar universal predict_with x (map (only 0) table) kw = Ok v.
Proof.
  intros u p x table n kw v out W H. pose proof (wf_n _ _ _ W) as N.
  rewrite (scalar_guards u p x table kw n 0) by (auto; lia).
  destruct (C86_outputs u p x table n kw _ W H) as (_ & b & B & P). specialize (P 0%nat v eq_refl).
  rewrite (vector_guards u p x table kw n W) in H.
  destruct (getbeta_none kw) as [E|(w & _ & _ & E)]; rewrite E in *; cbn [rbind] in *; [|discriminate].
  unfold fit_predict. change (map (output 0) table) with (map (fun t => nth 0 (rto t) fnan) table). rewrite B. cbn [rbind].
  rewrite P. auto.
Qed.

(** a table of two rows with two outputs *)
Definition two : list (row (list pf)) :=
  [Row [f_of_Z 1] [f_of_Z 10; f_of_Z 20]; Row [f_of_Z 2] [f_of_Z 30; f_of_Z 40]].
Lemma two_ok : well_formed [f_of_Z 3] two 2.
Proof.
  constructor; try discriminate.
  - intros t [<-|[<-|[]]]; auto.
  - intros t [<-|[<-|[]]]; auto.
  - repeat constructor.
  - intros t [<-|[<-|[]]]; split; repeat constructor.
Qed.
(** the weight of a column is its first value, the prediction is the weight plus the second value *)
Definition toy_universal (X : list (list pf)) (y : list pf) : res pf := Ok (nth 0 y fnan).
Definition toy_predict (x : list pf) (X : list (list pf)) (y : list pf) (b : pf) : res pf := Ok (fadd b (nth 1 y fnan)).
Example C86_outputs_example :
  gp_vector toy_universal toy_predict [f_of_Z 3] two None = Ok [f_of_Z 40; f_of_Z 50] /\
  gp_scalar toy_universal toy_predict [f_of_Z 3] (map (only 0) two) None = Ok (f_of_Z 40).
Proof. split; reflexivity. Qed.

(** So the outputs are not those of the separate tables. *)
Theorem C86_outputs_separate_refuted : exists universal predict_with x table n out v,
  well_formed x table n /\ gp_vector universal predict_with x table None = Ok out /\
  gp_scalar universal predict_with x (map (only 1) table) None = Ok v /\ nth_error out 1 <> Some v.
Proof.
  exists toy_universal, toy_predict, [f_of_Z 3], two, 2%nat, [f_of_Z 40; f_of_Z 50], (f_of_Z 60).
  split; [apply two_ok|]. repeat split; try reflexivity. cbn [nth_error]. intro H. inversion H.
Qed.
(** A finite Kriging weight has no effect, with one output or several, whatever the linear algebra. *)
Theorem C86_kriging_weight_refuted : forall universal predict_with x w, finite w ->
  (forall table, gp_vector universal predict_with x table (Some w) = gp_vector universal predict_with x table None) /\
  (forall table, gp_scalar universal predict_with x table (Some w) = gp_scalar universal predict_with x table None).
Proof.
  intros u p x w F. apply not_finite_spec in F. unfold gp_vector, gp_scalar. cbn [getbeta]. rewrite F. auto.
Qed.

Print Assumptions C86_refusals.
Print Assumptions C86_refusal_codes.
Print Assumptions C86_outputs.
Print Assumptions C86_first_output.
Print Assumptions C86_outputs_separate_refuted.
Print Assumptions C86_kriging_weight_refuted.
