(** Lemmas on the translation of Python code. *)
From Verif Require Import Base PyNum ScopeModel ScopeProofs ChainModel PexModel PexSpec.
Open Scope string_scope.
Open Scope list_scope.

(** *** induction on nodes and on documents *)
Section Ind.
  Variable P : pex -> Prop.
  Hypothesis Hnum : forall n v, P (PNum n v).
  Hypothesis Hstr : forall n s, P (PStr n s).
  Hypothesis Hconst : forall n v, P (PConst n v).
  Hypothesis Hname : forall n s, P (PName n s).
  Hypothesis Hbool : forall n a l, Forall P l -> P (PBool n a l).
  Hypothesis Hbin : forall n o l r, P l -> P r -> P (PBin n o l r).
  Hypothesis Hun : forall n o x, P x -> P (PUn n o x).
  Hypothesis Hif : forall n t b o, P t -> P b -> P o -> P (PIf n t b o).
  Hypothesis Hdict : forall n l, Forall (fun kv => P (snd kv)) l -> P (PDict n l).
  Hypothesis Hcmp : forall n l r, P l -> Forall (fun ox => P (snd ox)) r -> P (PCompare n l r).
  Hypothesis Hcall : forall n f args kwds, Forall P args -> Forall (fun kx => P (snd kx)) kwds -> P (PCall n f args kwds).
  Hypothesis Hattr : forall n x a, P x -> P (PAttr n x a).
  Hypothesis Hsub : forall n x i, P x -> P i -> P (PSub n x i).
  Hypothesis Hslice : forall n x, P x -> P (PSlice n x).
  Hypothesis Hlist : forall n l, Forall P l -> P (PList n l).
  Hypothesis Htuple : forall n l, Forall P l -> P (PTuple n l).
  Hypothesis Hother : forall n, P (POther n).
  Fixpoint pex_ind2 (e : pex) : P e :=
    let each := fix go (l : list pex) : Forall P l := match l with [] => Forall_nil _ | x :: l' => Forall_cons x (pex_ind2 x) (go l') end in
    match e with
    | PNum n v => Hnum n v | PStr n s => Hstr n s | PConst n v => Hconst n v | PName n s => Hname n s
    | PBool n a l => Hbool n a l (each l)
    | PBin n o l r => Hbin n o l r (pex_ind2 l) (pex_ind2 r)
    | PUn n o x => Hun n o x (pex_ind2 x)
    | PIf n t b o => Hif n t b o (pex_ind2 t) (pex_ind2 b) (pex_ind2 o)
    | PDict n l => Hdict n l ((fix go (l : list (pex * pex)) : Forall (fun kv => P (snd kv)) l :=
        match l with [] => Forall_nil _ | (k, x) :: l' => Forall_cons (k, x) (pex_ind2 x) (go l') end) l)
    | PCompare n l r => Hcmp n l r (pex_ind2 l) ((fix go (l : list (cmpop * pex)) : Forall (fun kv => P (snd kv)) l :=
        match l with [] => Forall_nil _ | (k, x) :: l' => Forall_cons (k, x) (pex_ind2 x) (go l') end) r)
    | PCall n f args kwds => Hcall n f args kwds (each args) ((fix go (l : list (string * pex)) : Forall (fun kv => P (snd kv)) l :=
        match l with [] => Forall_nil _ | (k, x) :: l' => Forall_cons (k, x) (pex_ind2 x) (go l') end) kwds)
    | PAttr n x a => Hattr n x a (pex_ind2 x)
    | PSub n x i => Hsub n x i (pex_ind2 x) (pex_ind2 i)
    | PSlice n x => Hslice n x (pex_ind2 x)
    | PList n l => Hlist n l (each l)
    | PTuple n l => Htuple n l (each l)
    | POther n => Hother n
    end.
End Ind.

(** *** the branches of _expression *)
Section Eqs.
  Variable st : state.
  Notation ex := (expression st).
  Fixpoint fold_bool (n : nat) (op : string) (l : list pex) (out : val) : res val :=
    match l with [] => Ok out | y :: l' => j <- ex y ;; fold_bool n op l' (form st n [(op, VArr [out; j])]) end.
  Fixpoint fold_cmp (n : nat) (r : list (cmpop * pex)) (last out : val) : res val :=
    match r with [] => Ok out | (op, c) :: r' => new <- ex c ;; o <- cmp_name op ;; fold_cmp n r' new (form st n [("&&", VArr [out; form st n [(o, VArr [last; new])]])]) end.
  Fixpoint fold_kwds (k : list (string * pex)) (out : list (string * val)) : res (list (string * val)) :=
    match k with [] => Ok out | (a, y) :: k' => j <- ex y ;; fold_kwds k' (dict_set (lower_special a) j out) end.
  Lemma each_rmapM l : (fix go (l : list pex) := match l with [] => Ok [] | x :: l' => y <- fst (both st x) ;; ys <- go l' ;; Ok (y :: ys) end) l = rmapM ex l.
  Proof. induction l as [|x l IH]; [reflexivity|]. cbn [rmapM]. now rewrite IH. Qed.
  Lemma ex_bool n a l : ex (PBool n a l) =
    match l with x :: y :: rest => ja <- ex x ;; jb <- ex y ;; fold_bool n (if a then "&&" else "||") rest (form st n [((if a then "&&" else "||"), VArr [ja; jb])]) | _ => Raise (PyErr "IndexError") end.
  Proof.
    unfold expression. cbn [both fst]. destruct l as [|x [|y rest]]; try reflexivity. destruct (fst (both st x)) as [ja|]; [|reflexivity]. cbn [rbind].
    destruct (fst (both st y)) as [jb|]; [|reflexivity]. cbn [rbind]. generalize (form st n [(if a then "&&" else "||", VArr [ja; jb])]). induction rest as [|z rest IH]; intros out; [reflexivity|]. cbn [fold_bool].
    unfold expression. destruct (fst (both st z)) as [j|]; [|reflexivity]. cbn [rbind]. apply IH.
  Qed.
  Lemma ex_bin n o l r : ex (PBin n o l r) = (o <- bin_name o ;; jl <- ex l ;; jr <- ex r ;; Ok (form st n [(o, VArr [jl; jr])])).
  Proof. reflexivity. Qed.
  Lemma ex_un n o x : ex (PUn n o x) = (o <- un_name o ;; j <- ex x ;; Ok (form st n [(o, j)])).
  Proof. reflexivity. Qed.
  Lemma ex_if n t b o : ex (PIf n t b o) = (jt <- ex t ;; jb <- ex b ;; jo <- ex o ;; Ok (form st n [("if", jt); ("then", jb); ("else", jo)])).
  Proof. reflexivity. Qed.
  Lemma ex_cmp n l r : ex (PCompare n l r) =
    match r with [] => Raise (PyErr "IndexError") | (op, c) :: rest => last <- ex c ;; o <- cmp_name op ;; jl <- ex l ;; fold_cmp n rest last (form st n [(o, VArr [jl; last])]) end.
  Proof.
    unfold expression. cbn [both fst]. destruct r as [|[op c] rest]; [reflexivity|]. destruct (fst (both st c)) as [last|]; [|reflexivity]. cbn [rbind].
    destruct (cmp_name op) as [o|]; [|reflexivity]. cbn [rbind]. destruct (fst (both st l)) as [jl|]; [|reflexivity]. cbn [rbind].
    generalize (form st n [(o, VArr [jl; last])]). revert last. induction rest as [|[op' c'] rest IH]; intros last out; [reflexivity|]. cbn [fold_cmp].
    unfold expression. destruct (fst (both st c')) as [j|]; [|reflexivity]. cbn [rbind]. destruct (cmp_name op') as [o'|]; [|reflexivity]. cbn [rbind]. apply IH.
  Qed.
  Lemma ex_call n f args kwds : ex (PCall n f args kwds) =
    (s <- unfold_name f ;; l <- rmapM ex args ;; out <- fold_kwds kwds [(call_name s, unwrap (call_name s) (one_arg l))] ;; Ok (form st n out)).
  Proof.
    unfold expression at 1. cbn [both fst]. destruct (unfold_name f) as [s|]; [|reflexivity]. cbn [rbind]. rewrite each_rmapM. destruct (rmapM ex args) as [l|]; [|reflexivity]. cbn [rbind].
    match goal with |- rbind ?a _ = rbind ?b _ => enough (E : a = b) by now rewrite E end.
    generalize [(call_name s, unwrap (call_name s) (one_arg l))]. induction kwds as [|[a y] k IH]; intros out; [reflexivity|]. cbn [fold_kwds]. unfold expression.
    destruct (fst (both st y)) as [j|]; [|reflexivity]. cbn [rbind]. apply IH.
  Qed.
  Lemma ex_tuple n l : ex (PTuple n l) = (l' <- rmapM ex l ;; Ok (VArr l')).
  Proof. unfold expression at 1. cbn [both fst]. now rewrite each_rmapM. Qed.
  Lemma un_other e path : match e with PName _ _ | PAttr _ _ _ | PSub _ _ _ | PSlice _ _ => False | _ => True end -> unfold st e path = based st (lineno e) (ex e) path.
  Proof. destruct e; intros H; try destruct H; reflexivity. Qed.
End Eqs.

(** *** documents without their notes *)
Definition sd (d : list (string * val)) : list (string * val) := flat_map (fun kx => if String.eqb (fst kx) "@" then [] else [(fst kx, strip (snd kx))]) d.
Lemma strip_arr l : strip (VArr l) = VArr (map strip l).
Proof. reflexivity. Qed.
Lemma strip_dict d : strip (VDict d) = VDict (sd d).
Proof. cbn [strip]. f_equal. induction d as [|[k x] d IH]; [reflexivity|]. cbn [sd flat_map fst snd]. fold (sd d). rewrite <- IH. now destruct (String.eqb k "@"). Qed.
Lemma strip_form st n d : strip (form st n d) = VDict (sd d).
Proof. unfold form. rewrite strip_dict. now destruct (st_lines st). Qed.
Lemma sd_set k x d : k <> "@" -> sd (dict_set k x d) = dict_set k (strip x) (sd d).
Proof.
  intros Hk. induction d as [|[k' y] d IH]; cbn [dict_set].
  - cbn. apply String.eqb_neq in Hk. now rewrite Hk.
  - destruct (String.eqb_spec k k') as [<-|N].
    + cbn [sd flat_map fst snd]. apply String.eqb_neq in Hk. rewrite Hk. cbn. now rewrite String.eqb_refl.
    + change (sd ((k', y) :: dict_set k x d)) with ((if String.eqb k' "@" then [] else [(k', strip y)]) ++ sd (dict_set k x d)).
      change (sd ((k', y) :: d)) with ((if String.eqb k' "@" then [] else [(k', strip y)]) ++ sd d). rewrite IH. destruct (String.eqb k' "@"); [reflexivity|]. cbn. apply String.eqb_neq in N. now rewrite N.
Qed.

(** *** names of functions *)
Lemma existsb_in s l : existsb (String.eqb s) l = true <-> In s l.
Proof. rewrite existsb_exists. split; [intros (x & H & E); apply String.eqb_eq in E; now subst|intros H; exists s; split; [exact H|apply String.eqb_refl]]. Qed.
Lemma memb_in s l : memb s l = true <-> In s l.
Proof. apply existsb_in. Qed.
Lemma memb_false s l : memb s l = false <-> ~ In s l.
Proof. rewrite <- memb_in. destruct (memb s l); split; intros; easy. Qed.
Lemma dotted_name f s : dotted f = Some s -> unfold_name f = Ok s.
Proof.
  revert s. induction f as [| | | | | | | | | | |n f a IHf| | | | |] using pex_ind2; intros t E; cbn in *; try discriminate; [now injection E as ->|]. destruct (dotted f) as [u|]; [|discriminate]. injection E as <-. now rewrite (IHf u eq_refl).
Qed.
Lemma special_capital s : In s special_forms -> capital s = true.
Proof. intros H. assert (F : forallb capital special_forms = true) by reflexivity. rewrite forallb_forall in F. auto. Qed.
Lemma core_capital s f : In (s, f) core_library -> capital s = true.
Proof. intros H. assert (F : forallb (fun sf => capital (fst sf)) core_library = true) by reflexivity. rewrite forallb_forall in F. now apply (F (s, f)). Qed.
Lemma call_function_name s f : call_function s = Some f -> call_name s = f /\ existsb (String.eqb f) forms = false.
Proof.
  unfold call_function. destruct (assoc s python_names) as [g|] eqn:E.
  - intros H. injection H as <-. apply assoc_In in E.
    assert (F : forallb (fun sf => (String.eqb (call_name (fst sf)) (snd sf) && negb (existsb (String.eqb (snd sf)) forms))%bool) python_names = true) by (vm_compute; reflexivity).
    rewrite forallb_forall in F. specialize (F (s, g) E). cbn [fst snd] in F. apply andb_prop in F as [F1 F2]. apply String.eqb_eq in F1. split; [exact F1|]. now destruct (existsb _ _).
  - destruct (capital s) eqn:C; [discriminate|]. cbn [orb]. destruct (existsb (String.eqb s) forms) eqn:R; [discriminate|]. intros H. injection H as <-. split; [|exact R].
    unfold call_name, lower_special. assert (M : memb s special_forms = false) by (apply memb_false; intros H; apply special_capital in H; congruence). rewrite M.
    destruct (assoc s core_library) as [g|] eqn:A; [|reflexivity]. apply assoc_In, core_capital in A. congruence.
Qed.
Lemma no_unwrap f x : existsb (String.eqb f) forms = false -> unwrap f x = x.
Proof.
  intros H. unfold unwrap. assert (M : memb f text_forms = false); [|now rewrite M]. apply memb_false. intros I. enough (K : In f forms) by (apply existsb_in in K; congruence).
  clear H. cbn in I |- *. tauto.
Qed.
Lemma bin_names o f : bin_function o = Some f -> bin_name o = Ok f /\ existsb (String.eqb f) forms = false.
Proof. destruct o; cbn; intros H; try discriminate; injection H as <-; split; reflexivity. Qed.
Lemma un_names o f : un_function o = Some f -> un_name o = Ok f /\ existsb (String.eqb f) forms = false.
Proof. destruct o; cbn; intros H; try discriminate; injection H as <-; split; reflexivity. Qed.
Lemma cmp_names o f : cmp_function o = Some f -> cmp_name o = Ok f /\ existsb (String.eqb f) forms = false.
Proof. destruct o; cbn; intros H; try discriminate; injection H as <-; split; reflexivity. Qed.
Lemma no_form f : existsb (String.eqb f) forms = false ->
  String.eqb f "@" = false /\ String.eqb f "string" = false /\ String.eqb f "&&" = false /\ String.eqb f "||" = false.
Proof. intros H. repeat split; apply String.eqb_neq; intros ->; discriminate H. Qed.
