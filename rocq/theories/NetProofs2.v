(** Lemmas about support vector machines, and the commutativity of binary64 products. *)
From Coq Require Import SpecFloat Ring Ring_theory Permutation.
From Verif Require Import Base PyNum Effects LaModel LaSpec LaProofs LaProofs2 LinregModel LinregSpec LinregProofs NetProofs.
Open Scope string_scope.
Open Scope list_scope.
Open Scope nat_scope.

Section Ring.
  Context {T S : Type} (zero one : T) (add mul sub : T -> T -> T) (opp : T -> T).
  Hypothesis RT : ring_theory zero one add mul sub opp (@eq T).
  Add Ring TRing3 : RT.
  Local Notation total_of := (sum_list zero add).
  Lemma sum_list_app l l' : total_of (l ++ l') = add (total_of l) (total_of l').
  Proof using RT. unfold sum_list. induction l as [|a l IH]; cbn; [ring|]. rewrite IH. ring. Qed.
  Lemma sum_list_perm l l' : Permutation l l' -> total_of l = total_of l'.
  Proof using RT. unfold sum_list. induction 1; cbn; try congruence. ring. Qed.
  Lemma mul_rotate a b c : mul (mul a b) c = mul (mul c a) b.
  Proof using RT. ring. Qed.
  Lemma total_zero_mul (f : nat -> T) n : zero = total zero add (fun i => mul zero (f i)) n.
  Proof using RT. induction n as [|n IH]; cbn; auto. rewrite <- IH. ring. Qed.
  (** the loop over one class *)
  Lemma class_score_ok kernel (K : list T -> T) datum cls s :
    (forall sv, In sv cls -> length (fst sv) = length datum /\ forall s', kernel (fst sv) datum s' = (Ok (K (fst sv)), s')) ->
    @class_score T S zero add mul kernel datum cls s = (Ok (total_of (map (fun sv => mul (K (fst sv)) (snd sv)) cls)), s).
  Proof using RT.
    unfold class_score. intros H.
    enough (G : forall a, foldM (fun score sv => if negb (count (fst sv) =? count datum)%Z then raise (PFAErr 12001)
                                 else bind (kernel (fst sv) datum) (fun k => ret (add score (mul k (snd sv))))) a cls s
                = (Ok (add a (total_of (map (fun sv => mul (K (fst sv)) (snd sv)) cls))), s)).
    { rewrite G. do 2 f_equal. ring. }
    induction cls as [|sv cls IH]; intros a; cbn [foldM map]; unfold sum_list; cbn [fold_right].
    - unfold ret. do 2 f_equal. ring.
    - destruct (H sv (or_introl eq_refl)) as [L P]. rewrite count_eqb, L, Nat.eqb_refl. cbn [negb]. unfold bind at 1. unfold bind at 1.
      rewrite P. unfold ret at 1. rewrite IH by (intros sv' H'; apply H; right; auto). unfold sum_list. do 2 f_equal. ring.
  Qed.
  Lemma class_score_bad kernel (K : list T -> T) datum cls s :
    (forall sv, In sv cls -> forall s', kernel (fst sv) datum s' = (Ok (K (fst sv)), s')) ->
    (exists sv, In sv cls /\ length (fst sv) <> length datum) ->
    @class_score T S zero add mul kernel datum cls s = (Raise (PFAErr 12001), s).
  Proof using.
    unfold class_score. generalize zero as a. intros a H (sv & Hsv & N). revert a H Hsv. induction cls as [|c cls IH]; [intros a H []|].
    intros a H Hsv. cbn [foldM]. rewrite count_eqb. destruct (Nat.eqb_spec (length (fst c)) (length datum)) as [E|E]; cbn [negb]; [|reflexivity].
    unfold bind at 1. unfold bind at 1. rewrite H by (left; auto). unfold ret at 1. apply IH; [intros sv' H'; apply H; right; auto|].
    destruct Hsv as [->|]; auto. contradiction.
  Qed.
End Ring.

(** ** binary64 *)
Lemma fmul_comm a b : fmul a b = fmul b a.
Proof.
  unfold fmul, SFmul. destruct a as [sa|sa| |sa ma ea], b as [sb|sb| |sb mb eb]; auto; rewrite (xorb_comm sa sb); auto.
  rewrite (Pos.mul_comm ma mb), (Z.add_comm ea eb). auto.
Qed.
Lemma round_abs p e l : forall s s', SFabs (binary_round_aux 53 1024 s p e l) = SFabs (binary_round_aux 53 1024 s' p e l).
Proof.
  intros s s'. unfold binary_round_aux. destruct (shr_fexp 53 1024 p e l) as [m1 e1]. destruct (shr_fexp 53 1024 (round_nearest_even _ _) e1 loc_Exact) as [m2 e2].
  destruct (shr_m m2); auto. destruct (Z.leb e2 _); auto.
Qed.
Lemma normalize_opp m e z z' : SFabs (binary_normalize 53 1024 (- m) e z) = SFabs (binary_normalize 53 1024 m e z').
Proof.
  unfold binary_normalize. destruct m as [|m|m]; cbn [Z.opp]; auto; unfold binary_round; destruct (shl_align _ _ _); apply round_abs.
Qed.
Lemma fabs_fsub_comm a b : fabs (fsub a b) = fabs (fsub b a).
Proof.
  unfold fabs, fsub, SFsub. destruct a as [sa|sa| |sa ma ea], b as [sb|sb| |sb mb eb]; auto.
  - destruct sa, sb; auto.
  - destruct sa, sb; auto.
  - cbv zeta. rewrite (Z.min_comm eb ea). set (A := cond_Zopp sa _). set (B := cond_Zopp sb _).
    rewrite <- (normalize_opp (B - A) _ false). f_equal. f_equal. lia.
Qed.
