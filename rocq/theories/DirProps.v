(** C106: cd and back in pfainspector. *)
From Verif Require Import Base DirModel DirSpec DirProofs.
Open Scope string_scope.
Open Scope list_scope.

(** However commands are nested, with a back for each cd, one is in the end where one was at the beginning, and the next back leads where it led before. *)
Theorem C106_nested : forall w home before l, open_again w home -> let s := snd (run w (home, []) before) in
  nested l -> all_ok (fst (run w s l)) -> snd (run w s l) = s.
Proof.
  intros w home before l A s N O. apply (nested_back w home A); [exact N| |exact O]. apply (run_sane w home A). split; [exact (proj1 A)|constructor].
Qed.
(** After any commands, with any errors, back leads to the first directory in the end, and is then refused. *)
Theorem C106_home : forall w home l, open_again w home -> let s := snd (run w (home, []) l) in
  exists n, all_ok (fst (run w s (repeat Back n))) /\ fst (snd (run w s (repeat Back n))) = home /\
    step w (snd (run w s (repeat Back n))) Back = (Raise (PyErr "InspectorError"), snd (run w s (repeat Back n))).
Proof.
  intros w home l A s. assert (P0 : sane w (home, [])) by (split; [exact (proj1 A)|constructor]).
  assert (P : sane w s) by (apply (run_sane w home A); exact P0). exists (length (snd s)).
  destruct (backs w _ s P eq_refl) as [X Y]. rewrite Y. split; [exact X|]. split; [|reflexivity]. cbn [fst]. unfold s.
  rewrite (run_bottom w home A l _ P0). reflexivity.
Qed.
(** If no directory refused to be entered, as many backs are left as cd commands were obeyed and not yet undone. *)
Theorem C106_count : forall w home l, open_again w home -> no_oserror (fst (run w (home, []) l)) ->
  let s := snd (run w (home, []) l) in let n := (obeyed is_cd l (fst (run w (home, []) l)) - obeyed is_back l (fst (run w (home, []) l)))%nat in
  all_ok (fst (run w s (repeat Back n))) /\ snd (run w s (repeat Back n)) = (home, []).
Proof.
  intros w home l A N s n. assert (P0 : sane w (home, [])) by (split; [exact (proj1 A)|constructor]).
  assert (P : sane w s) by (apply (run_sane w home A); exact P0). pose proof (counts w l (home, []) N) as K. cbn [snd length] in K.
  assert (L : length (snd s) = n) by (unfold s, n; lia). destruct (backs w n s P L) as [X Y]. split; [exact X|]. rewrite Y. f_equal. unfold s.
  exact (run_bottom w home A l _ P0).
Qed.
(** A path that is no directory is refused and nothing changes; an obeyed cd leads where the path leads. *)
Theorem C106_cd : forall w s x, (isdir w (fst s) x = false -> step w s (Enter x) = (Raise (PyErr "InspectorError"), s)) /\
  (forall s', step w s (Enter x) = (Ok tt, s') -> isdir w (fst s) x = true /\ chdir w (fst s) (expanduser w x) = Some (fst s')).
Proof.
  intros w s x. cbn. destruct (isdir w (fst s) x) eqn:Q; split; try discriminate; try reflexivity.
  intros s' H. split; [reflexivity|]. destruct (chdir w (fst s) (expanduser w x)) as [d|]; inversion H; subst; reflexivity.
Qed.

(** A case: /h is the first directory; /h/a and /h/a/b can be entered, /h/s cannot, and ~ stands for /h. *)
Definition tree : directories :=
  mkDirectories (fun c x => existsb (String.eqb (if String.eqb x "a" then c ++ "/a" else if String.eqb x "b" then c ++ "/b" else if String.eqb x "s" then c ++ "/s" else x)%string) ["/h"; "/h/a"; "/h/a/b"; "/h/s"])
    (fun c x => let p := (if String.eqb x "a" then c ++ "/a" else if String.eqb x "b" then c ++ "/b" else if String.eqb x "s" then c ++ "/s" else x)%string in
                if existsb (String.eqb p) ["/h"; "/h/a"; "/h/a/b"] then Some p else None)
    (fun x => if String.eqb x "~" then "/h" else x).
Example C106_tree : open_again tree "/h".
Proof.
  split; [intro c; reflexivity|]. intros c x d H c'. cbn [chdir tree] in H. cbv zeta in H.
  match type of H with (if ?b then _ else _) = _ => destruct b eqn:Q; [|discriminate] end. injection H as H. rewrite H in Q. clear H.
  cbn [existsb] in Q. rewrite !orb_true_iff in Q.
  destruct Q as [Q|[Q|[Q|Q]]]; try discriminate; apply String.eqb_eq in Q; subst d; reflexivity.
Qed.
Example C106_case : nested [Enter "a"; Enter "b"; Back; Back] /\ run tree ("/h", []) [Enter "a"; Enter "b"; Back; Back] = ([Ok tt; Ok tt; Ok tt; Ok tt], ("/h", [])) /\
  run tree ("/h", []) [Enter "a"; Enter "z"; Enter "b"] = ([Ok tt; Raise (PyErr "InspectorError"); Ok tt], ("/h/a/b", ["/h/a"; "/h"])).
Proof.
  split; [|split; reflexivity]. apply (nested_cd "a" [Enter "b"; Back] []); [|constructor]. apply (nested_cd "b" [] []); constructor.
Qed.

(** The claim fails: a cd into a directory that may not be entered ends in an error and nevertheless counts, so that the next back says nothing and leads nowhere. *)
Theorem C106_count_refuted : forall w s x, isdir w (fst s) x = true -> chdir w (fst s) (expanduser w x) = None -> chdir w (fst s) (fst s) = Some (fst s) ->
  run w s [Enter x; Back] = ([Raise (PyErr "OSError"); Ok tt], s).
Proof. intros w [d st] x I N H. cbn in *. rewrite I, N. cbn. now rewrite H. Qed.
Example C106_count_case : run tree ("/h", []) [Enter "a"; Back; Enter "s"; Back] = ([Ok tt; Ok tt; Raise (PyErr "OSError"); Ok tt], ("/h", [])).
Proof. reflexivity. Qed.
(** And cd with a path that begins with ~ is refused although the path is expanded afterwards: it is tested before. *)
Theorem C106_tilde_refuted : exists w s x d, open_again w (fst s) /\ chdir w (fst s) (expanduser w x) = Some d /\ step w s (Enter x) = (Raise (PyErr "InspectorError"), s).
Proof. exists tree, ("/h", []), "~", "/h". split; [exact C106_tree|]. split; reflexivity. Qed.

Print Assumptions C106_nested.
Print Assumptions C106_home.
Print Assumptions C106_count.
Print Assumptions C106_cd.
Print Assumptions C106_count_refuted.
Print Assumptions C106_tilde_refuted.
