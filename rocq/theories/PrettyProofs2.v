(** Proofs: what is accepted is a text of the grammar. *)
From Verif Require Import Base PrettyModel PrettySpec PrettyProofs.
Open Scope string_scope.
Open Scope list_scope.

(** the tokens that arguments not finished were read from *)
Definition read_some (a : option (list tree)) (ts : list token) : Prop := match a with None => ts = [] | Some l => exists ts', read_all l ts' /\ ts = ts' ++ [TComma] end.
Inductive spells : list frame -> list token -> Prop :=
| s_nil : spells [] []
| s_bin l o fs ts tl : spells fs ts -> reads l tl -> spells (FBin l o :: fs) (ts ++ tl ++ [TOp o])
| s_un u fs ts : spells fs ts -> spells (FUn u :: fs) (ts ++ [sign_token u])
| s_group fs ts : spells fs ts -> spells (FGroup :: fs) (ts ++ [TL])
| s_call s a fs ts ta : spells fs ts -> read_some a ta -> spells (FCall s a :: fs) (ts ++ TName s :: TL :: ta)
| s_get s a fs ts ta : spells fs ts -> read_some a ta -> spells (FGet s a :: fs) (ts ++ TName s :: TLb :: ta)
| s_genget x tx a fs ts ta : spells fs ts -> reads x tx -> read_some a ta -> spells (FGenGet x a :: fs) (ts ++ tx ++ TLb :: ta).
Definition spelled (st : list frame * top) (ts : list token) : Prop :=
  exists t1, spells (fst st) t1 /\ match snd st with Need => ts = t1 | Named s => ts = t1 ++ [TName s] | Have e => exists te, reads e te /\ ts = t1 ++ te end.

Lemma reduce_reads s fs : forall e e' fs', reduce s e fs = Ok (e', fs') -> forall t1 te, spells fs t1 -> reads e te -> exists t1' te', spells fs' t1' /\ reads e' te' /\ t1 ++ te = t1' ++ te'.
Proof.
  induction fs as [|[l o|u| |x a|x a|x a] fs IH]; intros e e' fs' H t1 te S R; cbn [reduce] in H; try (injection H as <- <-; eauto; fail).
  - inversion S as [|? ? ? ts tl S' Rl| | | | |]; subst. destruct (decide (bin_prec o) s); [|injection H as <- <-; eauto|discriminate].
    rewrite bin_call_eq in H. destruct (IH _ _ _ H ts (tl ++ TOp o :: te) S' (r_bin _ _ _ _ _ Rl R)) as (a & b & Sa & Rb & E). exists a, b. repeat split; auto. rewrite <- E, <- !app_assoc. reflexivity.
  - inversion S as [| |? ? ts S'| | | |]; subst. destruct (decide (un_prec u) s); [|injection H as <- <-; eauto|discriminate].
    rewrite un_call_eq in H. destruct (IH _ _ _ H ts (sign_token u :: te) S' (r_un _ _ _ R)) as (a & b & Sa & Rb & E). exists a, b. repeat split; auto. rewrite <- E, <- !app_assoc. reflexivity.
Qed.
Lemma read_given a ta e te : read_some a ta -> reads e te -> read_all (given a ++ [e]) (ta ++ te).
Proof. destruct a as [l|]; cbn; [intros (t & R & ->) He; rewrite <- app_assoc; now constructor|intros -> He; now constructor]. Qed.
Lemma read_given_comma a ta e te : read_some a ta -> reads e te -> read_some (Some (given a ++ [e])) (ta ++ te ++ [TComma]).
Proof. intros H R. exists (ta ++ te). split; [now apply read_given|now rewrite app_assoc]. Qed.
Ltac norm := rewrite <- ?app_assoc; cbn [app]; rewrite <- ?app_assoc; cbn [app].

Lemma after_reads fs e t st : after fs e t = Ok st -> forall t1 te, spells fs t1 -> reads e te -> spelled st (t1 ++ te ++ [t]).
Proof.
  intros H t1 te S R. destruct t; cbn [after] in H; try discriminate;
    match type of H with (r <- reduce ?s _ _ ;; _) = _ => destruct (reduce s e fs) as [[e' fs']|] eqn:E; [|discriminate] end;
    cbn [rbind fst snd] in H; destruct (reduce_reads _ _ _ _ _ E t1 te S R) as (a & b & Sa & Rb & Ea); rewrite app_assoc, Ea, <- app_assoc.
  - injection H as <-. eexists. cbn [fst snd]. split; [constructor; eauto|reflexivity].
  - destruct fs' as [|[l o|u| |x c|x c|x c] fs']; try discriminate; injection H as <-; inversion Sa; subst; (eexists; cbn [fst snd]; split; [eassumption|]); eexists.
    + split; [apply r_group; eassumption|norm; reflexivity].
    + split; [apply r_call; eapply read_given; eassumption|norm; reflexivity].
  - injection H as <-. eexists. cbn [fst snd]. split; [econstructor; [eassumption|eassumption|reflexivity]|norm; reflexivity].
  - destruct fs' as [|[l o|u| |x c|x c|x c] fs']; try discriminate; injection H as <-; inversion Sa; subst; (eexists; cbn [fst snd]; split; [eassumption|]); eexists.
    + split; [apply r_get; eapply read_given; eassumption|norm; reflexivity].
    + split; [apply r_genget; [eassumption|eapply read_given; eassumption]|norm; reflexivity].
  - destruct fs' as [|[l o|u| |x c|x c|x c] fs']; try discriminate; injection H as <-; inversion Sa; subst; (eexists; cbn [fst snd]; split; [econstructor; [eassumption|..]; try eassumption; eapply read_given_comma; eassumption|norm; reflexivity]).
Qed.
Lemma feed_reads st t st' ts : feed st t = Ok st' -> spelled st ts -> spelled st' (ts ++ [t]).
Proof.
  destruct st as [fs tp]. intros H (t1 & S & T). cbn [fst snd] in S, T. destruct tp as [|s|e]; cbn [feed] in H.
  - subst ts. destruct t as [x|x|x|o| | | | | | |]; try (destruct fs as [|[l o'|u| |x a|x a|x a] fs]; discriminate).
    + injection H as <-. exists t1. split; [exact S|]. exists [TNum x]. split; [constructor|reflexivity].
    + injection H as <-. exists t1. split; [exact S|]. exists [TStr x]. split; [constructor|reflexivity].
    + injection H as <-. exists t1. now split.
    + destruct o; try (destruct fs as [|[l o'|u| |x a|x a|x a] fs]; discriminate). injection H as <-. eexists. split; [exact (s_un UMINUS _ _ S)|reflexivity].
    + injection H as <-. eexists. split; [exact (s_un BITNOT _ _ S)|reflexivity].
    + injection H as <-. eexists. split; [exact (s_un NOT _ _ S)|reflexivity].
    + injection H as <-. eexists. split; [exact (s_group _ _ S)|reflexivity].
    + destruct fs as [|[l o'|u| |x [a|]|x a|x a] fs]; try discriminate. injection H as <-. inversion S as [| | | |? ? ? ts ta S' Ra| |]; subst. cbn in Ra. subst ta. exists ts. split; [exact S'|]. eexists. split; [exact (r_call x [] [] r_none)|norm; reflexivity].
    + destruct fs as [|[l o'|u| |x a|x [a|]|x [a|]] fs]; try discriminate; injection H as <-.
      * inversion S as [| | | | |? ? ? ts ta S' Ra|]; subst. cbn in Ra. subst ta. exists ts. split; [exact S'|]. eexists. split; [exact (r_get x [] [] r_none)|norm; reflexivity].
      * inversion S as [| | | | | |? tx ? ? ts ta S' Rx Ra]; subst. cbn in Ra. subst ta. exists ts. split; [exact S'|]. eexists. split; [exact (r_genget x tx [] [] Rx r_none)|norm; reflexivity].
    + assert (RC : read_some (Some []) [TComma]) by (exists []; split; [constructor|reflexivity]).
      destruct fs as [|[l o'|u| |x [a|]|x [a|]|x [a|]] fs]; try discriminate; injection H as <-.
      * inversion S as [| | | |? ? ? ts ta S' Ra| |]; subst. cbn in Ra. subst ta. eexists. split; [exact (s_call x _ _ _ _ S' RC)|norm; reflexivity].
      * inversion S as [| | | | |? ? ? ts ta S' Ra|]; subst. cbn in Ra. subst ta. eexists. split; [exact (s_get x _ _ _ _ S' RC)|norm; reflexivity].
      * inversion S as [| | | | | |? tx ? ? ts ta S' Rx Ra]; subst. cbn in Ra. subst ta. eexists. split; [exact (s_genget x tx _ _ _ _ S' Rx RC)|norm; reflexivity].
  - subst ts. assert (A : after fs (Name s) t = Ok st' -> spelled st' ((t1 ++ [TName s]) ++ [t])) by (intros HA; rewrite <- app_assoc; exact (after_reads _ _ _ _ HA t1 [TName s] S (r_name s))).
    destruct t; try (exact (A H)); injection H as <-.
    + eexists. split; [exact (s_call s None _ _ [] S eq_refl)|norm; reflexivity].
    + eexists. split; [exact (s_get s None _ _ [] S eq_refl)|norm; reflexivity].
  - destruct T as (te & R & ->). rewrite <- app_assoc. eapply after_reads; eauto.
Qed.
Lemma feeds_reads ts : forall st st' ts0, feeds st ts = Ok st' -> spelled st ts0 -> spelled st' (ts0 ++ ts).
Proof.
  induction ts as [|t ts IH]; intros st st' ts0 H S; cbn [feeds] in H; [injection H as <-; now rewrite app_nil_r|].
  destruct (feed st t) as [st1|] eqn:E; [|discriminate]. cbn [rbind] in H. replace (ts0 ++ t :: ts) with ((ts0 ++ [t]) ++ ts) by now rewrite <- app_assoc. eapply IH; eauto. eapply feed_reads; eauto.
Qed.
Lemma accepted ts t : parse ts = Ok t -> reads t ts.
Proof.
  unfold parse. intros H. destruct (feeds ([], Need) ts) as [[fs tp]|] eqn:E; [|discriminate]. cbn [rbind] in H.
  assert (S0 : spelled ([], Need) []) by (exists []; split; [constructor|reflexivity]).
  destruct (feeds_reads _ _ _ _ E S0) as (t1 & S & T). cbn [fst snd app] in S, T. unfold closing in H. cbn [fst snd] in H.
  assert (F : forall e te, reads e te -> ts = t1 ++ te -> (r <- reduce 0 e fs ;; match snd r with [] => Ok (fst r) | _ => syntax_error end) = Ok t -> reads t ts).
  { intros e te R -> Hf. destruct (reduce 0 e fs) as [[e' fs']|] eqn:Er; [|discriminate]. cbn [rbind fst snd] in Hf. destruct fs'; [|discriminate]. injection Hf as <-.
    destruct (reduce_reads _ _ _ _ _ Er t1 te S R) as (a & b & Sa & Rb & ->). inversion Sa; subst. exact Rb. }
  destruct tp as [|s|e]; [discriminate| |]; [exact (F _ _ (r_name s) T H)|]. destruct T as (te & R & T). eauto.
Qed.

