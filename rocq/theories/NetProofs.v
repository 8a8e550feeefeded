(** Lemmas about networks, support vector machines and kernels. *)
From Coq Require Import SpecFloat Ring Ring_theory Permutation.
From Verif Require Import Base PyNum Effects LaModel LaSpec LaProofs LaProofs2 LinregModel LinregSpec LinregProofs.
Open Scope string_scope.
Open Scope list_scope.
Open Scope nat_scope.

Lemma index_ok {A} (d : A) (l : list A) i : i < length l -> index l i = Ok (nth i l d).
Proof. intros H. unfold index. rewrite (nth_error_nth' l d H). auto. Qed.
Lemma indexed_products {T} (mul : T -> T -> T) (b : list T) : forall row k, k + length row <= length b ->
  rmapM (fun ix => rbind (index b (fst ix)) (fun bi => Ok (mul (snd ix) bi))) (combine (seq k (length row)) row)
  = Ok (map (fun xy => mul (fst xy) (snd xy)) (combine row (skipn k b))).
Proof.
  induction row as [|x row IH]; intros k H; auto. cbn [length seq combine rmapM fst snd]. cbn [length] in H.
  assert (Hk : k < length b) by lia. rewrite (index_ok x b k Hk). cbn [rbind]. rewrite IH by lia. cbn [rbind].
  assert (E : skipn k b = nth k b x :: skipn (S k) b).
  { clear -Hk. revert k Hk. induction b as [|a b IHb]; intros k Hk; [cbn in Hk; lia|]. destruct k; auto. cbn [skipn nth]. apply IHb. cbn in Hk. lia. }
  rewrite E. auto.
Qed.

Section Ring.
  Context {T : Type} (zero one : T) (add mul sub : T -> T -> T) (opp : T -> T).
  Hypothesis RT : ring_theory zero one add mul sub opp (@eq T).
  Add Ring TRing2 : RT.
  Local Notation tot := (total zero add).
  Lemma py_sum_fold l : py_sum zero add l = fold_right add zero l.
  Proof using RT.
    unfold py_sum. enough (G : forall a, fold_left add l a = add a (fold_right add zero l)) by (rewrite G; ring).
    induction l as [|x l IH]; intros a; cbn; [ring|]. rewrite IH. ring.
  Qed.
  Lemma py_sum_inner u v : py_sum zero add (map (fun xy => mul (fst xy) (snd xy)) (combine u v)) = inner zero add mul u v.
  Proof using RT. rewrite py_sum_fold. unfold inner. induction (combine u v) as [|p l IH]; cbn; auto. rewrite IH. auto. Qed.
  Lemma inner_snoc u v a b : length u = length v -> inner zero add mul (u ++ [a]) (v ++ [b]) = add (inner zero add mul u v) (mul a b).
  Proof using RT.
    unfold inner. revert v. induction u as [|x u IH]; intros [|y v] L; try discriminate; cbn; [ring|]. cbn in IH. rewrite IH by (injection L; auto). ring.
  Qed.
  Lemma mvm_ok W x : (forall row, In row W -> length row = length x) ->
    matrix_vector_mult zero add mul W x = Ok (map (fun row => inner zero add mul row x) W).
  Proof using RT.
    intros H. apply rmapM_map. intros row Hr. rewrite indexed_products by (rewrite H; auto). cbn [rbind skipn]. rewrite py_sum_inner. auto.
  Qed.
  Lemma affine_spec W b x y : affine zero add mul W b x = Ok y <-> affine_image zero add mul W b x y.
  Proof using RT.
    unfold affine, layer_misaligned. rewrite count_eqb. split.
    - destruct (Nat.eqb_spec (length b) (length W)) as [L|L]; cbn [negb orb]; [|discriminate].
      destruct (existsb _ W) eqn:E; [discriminate|]. rewrite existsb_len in E. rewrite mvm_ok by auto. cbn [rbind]. intros H. injection H as <-.
      split; auto. split; [rewrite map_length, combine_length, map_length, L, Nat.min_id; auto|]. split; auto.
      exists (fun i j => nth j (nth i W []) zero), (fun i => nth i b zero), (fun j => nth j x zero).
      split; [|split; [|split]].
      + split; auto. split; auto. intros r c Hr Hc. unfold cell. rewrite (nth_error_nth' W [] Hr). apply nth_error_nth'. rewrite E; auto. apply nth_In. auto.
      + rewrite <- L. apply vec_nth.
      + apply vec_nth.
      + split; [rewrite map_length, combine_length, map_length, L, Nat.min_id; auto|]. intros k Hk.
        rewrite nth_error_map, combine_nth_error, nth_error_map, (nth_error_nth' W [] Hk), (nth_error_nth' b zero) by lia. cbn [option_map fst snd]. f_equal.
        unfold py_sum. cbn [fold_left]. rewrite (inner_vec zero one add mul sub opp RT _ _ (length x) (fun j => nth j (nth k W []) zero) (fun j => nth j x zero)); [ring| |apply vec_nth].
        rewrite <- (E (nth k W [])) by (apply nth_In; auto). apply vec_nth.
    - intros (L & L' & E & w & bf & xf & Hw & Hb & Hx & Hy). rewrite (proj2 (Nat.eqb_eq _ _) L). cbn [negb orb].
      rewrite (proj2 (existsb_len W x) E). rewrite mvm_ok by auto. cbn [rbind]. f_equal. apply (vec_unique _ _ (length W) _) with (2 := Hy).
      split; [rewrite map_length, combine_length, map_length, L, Nat.min_id; auto|]. intros k Hk.
      destruct Hw as (_ & _ & Hw). destruct Hb as [_ Hb].
      rewrite nth_error_map, combine_nth_error, nth_error_map, (nth_error_nth' W [] Hk), (Hb k Hk). cbn [option_map fst snd]. f_equal.
      unfold py_sum. cbn [fold_left]. rewrite (inner_vec zero one add mul sub opp RT _ _ (length x) (w k) xf); [ring| |auto].
      split; [apply E, nth_In; auto|]. intros j Hj. specialize (Hw k j Hk Hj). unfold cell in Hw. rewrite (nth_error_nth' W [] Hk) in Hw. auto.
  Qed.
  Lemma affine_bad W b x : (forall y, ~ affine_image zero add mul W b x y) -> affine zero add mul W b x = Raise (PFAErr 11001).
  Proof using RT.
    intros H. destruct (affine zero add mul W b x) as [y|e] eqn:E; [exfalso; apply (H y), affine_spec; auto|].
    unfold affine in E. destruct (layer_misaligned W b x) eqn:M; [congruence|]. exfalso. unfold layer_misaligned in M.
    apply orb_false_iff in M. destruct M as [_ M]. rewrite existsb_len in M. rewrite mvm_ok in E by auto. discriminate.
  Qed.
End Ring.

Section Effects.
  Context {T S : Type} (zero : T) (add mul : T -> T -> T).
  Local Notation net := (@simple_layers T S zero add mul).
  Lemma net_last W b act x : net x [(W, b)] act = lift (affine zero add mul W b x).
  Proof using. reflexivity. Qed.
  Lemma last_indep {A} (l : list A) : l <> [] -> forall d d', last l d = last l d'.
  Proof using. induction l as [|a l IH]; [congruence|]. intros _ d d'. destruct l; auto. cbn [last] in *. apply IH. discriminate. Qed.
  Lemma net_more l l2 rest act x s :
    net x (l :: l2 :: rest) act s
    = bind (lift (affine zero add mul (fst l) (snd l) x)) (fun h => bind (mapM act h) (fun x' => net x' (l2 :: rest) act)) s.
  Proof using.
    unfold simple_layers. change (removelast (l :: l2 :: rest)) with (l :: removelast (l2 :: rest)). cbn [hidden_layers].
    unfold bind, lift. destruct (affine zero add mul (fst l) (snd l) x) as [h|e]; auto. destruct (mapM act h s) as [[x'|e] s']; auto.
    destruct (hidden_layers zero add mul (removelast (l2 :: rest)) act x' s') as [[d|e] s2]; auto. cbn zeta.
    change (last (l :: l2 :: rest) l) with (last (l2 :: rest) l). rewrite (last_indep (l2 :: rest) ltac:(discriminate) l l2). auto.
  Qed.
  Lemma mapM_pure_act (g : T -> T) act l s : is_pure act g -> @mapM S T T act l s = (Ok (map g l), s).
  Proof using. intros P. induction l as [|a l IH]; auto. cbn [mapM map]. unfold bind. rewrite P, IH. auto. Qed.
End Effects.
