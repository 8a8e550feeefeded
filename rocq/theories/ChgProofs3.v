(** Lemmas for C103, continued: replacing all by a constant. *)
From Coq Require Import Permutation.
From Verif Require Import Base PyNum ScopeModel MapModel ToolsModel ToolsSpec ToolsProofs ToolsProofs2 ToolsProofs3 InspModel InspSpec InspProofs ChgModel ChgSpec ChgProofs.
Open Scope string_scope.
Open Scope list_scope.
Open Scope Z_scope.

Section Constant.
  Variables (p : pat) (r : repl) (to : val).
  Hypothesis Cr : forall g, replace r g = Ok to.
  Definition ready (m : mode) : Prop := m = Silent \/ m = Asking [All].
  Definition agrees (f : val * mode -> res (val * mode)) (g : val -> res val) : Prop := forall root m, ready m -> exists m', ready m' /\ f (root, m) = (w <- g root ;; Ok (w, m')).
  Lemma agrees_then f g f' g' : agrees f g -> agrees f' g' -> agrees (fun s => t <- f s ;; f' t) (fun x => y <- g x ;; g' y).
  Proof.
    intros A A' root m Rm. destruct (A root m Rm) as (m1 & R1 & E1). rewrite E1. destruct (g root) as [y|e]; cbn; [|exists m1; auto]. apply (A' y m1 R1).
  Qed.
  Lemma agrees_visit a : agrees (visit p r a) (test p to a).
  Proof using Cr.
    intros root m Rm. unfold visit, test. cbn [fst snd].
    assert (Rm' : ready m) by exact Rm. destruct Rm as [-> | ->]; (destruct (get root a) as [x|e]; cbn [rbind]; [|eexists; split; [exact Rm' | reflexivity]]);
    (destruct (getmatch p x) as [[mt|]|e]; cbn [rbind]; [|eexists; split; [exact Rm' | reflexivity] | eexists; split; [exact Rm' | reflexivity]]);
    exists Silent; (split; [left; reflexivity|]); rewrite Cr; reflexivity.
  Qed.
  Lemma agrees_runs l l' : Forall2 agrees l l' -> agrees (runs l) (run l').
  Proof.
    induction 1 as [|f g l l' H F IH]; [intros root m Rm; exists m; auto|]. exact (agrees_then f g (runs l) (run l') H IH).
  Qed.
  Lemma by_key_agrees (d : list (string * (val * mode -> res (val * mode)))) e : Forall2 (fun x y => fst x = fst y /\ agrees (snd x) (snd y)) d e ->
    Forall2 (fun x y => fst x = fst y /\ agrees (snd x) (snd y)) (by_key d) (by_key e).
  Proof.
    assert (Ins : forall x y d e, fst x = fst y -> agrees (snd x) (snd y) -> Forall2 (fun x y => fst x = fst y /\ agrees (snd x) (snd y)) d e ->
      Forall2 (fun x y => fst x = fst y /\ agrees (snd x) (snd y)) (insert_key x d) (insert_key y e)).
    { intros x y d0 e0 E A. induction 1 as [|x' y' d1 e1 [H1 H2] F IH]; cbn; [constructor; auto|]. rewrite <- E, <- H1. destruct (str_lt (fst x') (fst x)); constructor; auto. }
    induction 1 as [|x y d e [H1 H2] F IH]; [constructor|]. cbn. apply Ins; assumption.
  Qed.
  Lemma agrees_through : forall v a, agrees (through (visit p r) v a) (walk p to v a).
  Proof using Cr.
    induction v as [d F|l F|v Hd Hl] using val_ind2; intros a.
    - change (agrees (fun s => t <- runs (map snd (by_key (map (fun kv => (fst kv, through (visit p r) (snd kv) (a ++ [K (fst kv)]))) d))) s ;; visit p r a t)
        (fun root => root' <- run (map snd (by_key (map (fun kv => (fst kv, walk p to (snd kv) (a ++ [K (fst kv)]))) d))) root ;; test p to a root')).
      apply agrees_then; [|apply agrees_visit]. apply agrees_runs.
      assert (H : Forall2 (fun x y => fst x = fst y /\ agrees (snd x) (snd y)) (map (fun kv => (fst kv, through (visit p r) (snd kv) (a ++ [K (fst kv)]))) d) (map (fun kv => (fst kv, walk p to (snd kv) (a ++ [K (fst kv)]))) d))
        by (induction F; constructor; auto; split; [reflexivity | cbn; auto]).
      apply by_key_agrees in H. induction H as [|x y ? ? [_ H]]; constructor; auto.
    - change (agrees (fun s => t <- runs (arr_through (visit p r) a l 0) s ;; visit p r a t) (fun root => root' <- run (arr_walk p to a l 0) root ;; test p to a root')).
      apply agrees_then; [|apply agrees_visit]. apply agrees_runs. generalize 0. induction F as [|x l H F IH]; intros i; constructor; [apply H | apply IH].
    - assert (E : through (visit p r) v a = (fun s => t <- Ok s ;; visit p r a t) /\ walk p to v a = (fun root => root' <- Ok root ;; test p to a root'))
        by (destruct v as [| | | | | |l|d]; try (split; reflexivity); [now destruct (Hl l) | now destruct (Hd d)]).
      destruct E as [-> ->]. apply agrees_then; [|apply agrees_visit]. intros root m Rm. exists m. auto.
  Qed.
End Constant.

(** *** Replacements without groups *)
Fixpoint constant (c : cmd) : Prop :=
  match c with
  | CWord _ | CString _ | CNum _ => True
  | CObject l false => all_pairs constant l
  | CArray l false false => all_of constant l
  | _ => False
  end.
Lemma all_res_total {A B C G} (f : A -> res B) (h : G -> B -> res C) l : Forall (fun a => exists b c, f a = Ok b /\ forall g, h g b = Ok c) l ->
  exists bs cs, all_res f l = Ok bs /\ forall g, all_res (h g) bs = Ok cs.
Proof.
  induction 1 as [|a l (b & c & H1 & H2) F (bs & cs & IH1 & IH2)]; [exists [], []; auto|]. exists (b :: bs), (c :: cs). split.
  - cbn. rewrite H1. cbn. rewrite IH1. reflexivity.
  - intros g. cbn. rewrite H2. cbn. rewrite IH2. reflexivity.
Qed.
Lemma constant_replacement : forall c, constant c -> sound c -> exists q y, replacement c = Ok q /\ forall g, replace q g = Ok y.
Proof.
  apply (cmd_all (fun c => constant c -> sound c -> exists q y, replacement c = Ok q /\ forall g, replace q g = Ok y)).
  - intros c L K S. destruct c; try contradiction; eexists; eexists; (split; [reflexivity|]); intros g; reflexivity.
  - intros l e F K [N S]. destruct e; [contradiction|]. cbn [constant] in K. cbn [replacement].
    destruct (all_res_total (fun kc : string * cmd => let (k, c) := kc in r <- replacement c ;; Ok (k, r)) (fun (g : list (string * val)) (kr : string * repl) => let (k, r) := kr in v <- replace r g ;; Ok (k, v)) l) as (d & w & E1 & E2).
    { rewrite Forall_forall in *. intros [k c] I. destruct (F (k, c) I (all_pairs_in _ _ K k c I) (all_pairs_in _ _ S k c I)) as (q & y & Q & Y). exists (k, q), (k, y). cbn in Q. rewrite Q. split; [reflexivity|]. intros g. rewrite Y. reflexivity. }
    rewrite E1. exists (RDict d), (VDict w). split; [|intros g; cbn [replace]; rewrite E2; reflexivity]. cbn. unfold dict_of_pairs. rewrite (dict_of_nodup _ d []); [reflexivity|]. cbn.
    apply (all_res_spec _ (fun (kc : string * cmd) (kr : string * repl) => fst kc = fst kr)) in E1; [|apply Forall_forall; intros [k c] _ [k' r'] H; cbn in *; destruct (replacement c) as [r0|]; cbn in H; congruence].
    replace (map fst d) with (map fst l); [exact N|]. clear - E1. induction E1; cbn; congruence.
  - intros l b a F K S. destruct b, a; try contradiction. cbn [constant sound] in *. cbn [replacement].
    destruct (all_res_total replacement (fun (g : list (string * val)) r => replace r g) l) as (d & w & E1 & E2).
    { rewrite Forall_forall in *. intros c I. destruct (F c I (all_of_in _ _ K c I) (all_of_in _ _ S c I)) as (q & y & Q & Y). eauto. }
    rewrite E1. exists (RArr d), (VArr w). split; [reflexivity|]. intros g. cbn [replace]. rewrite E2. reflexivity.
  - intros l _ K. contradiction.
Qed.
