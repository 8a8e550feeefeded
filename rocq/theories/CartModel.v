(** Model of titus/producer/cart.py: growing decision trees from a dataset and turning them into a PFA document.

    Simplifications, all deliberate:
    - numpy arrays are lists; numbers are any type with the operations used (so the theorems on the shape of the tree hold
      for binary64 too); numpy.argsort(kind="heapsort") is a parameter, because the order of equal items is not specified;
    - x * log2(x), with the nan at 0 replaced by 0 (cart.py:405-407), is one operation [plog];
    - the options of pfaValue that add fields to the nodes (scores, sizes, distributions, entropy, gain) are left out;
    - reading the dataset (cart.py:131-160) starts after the check of the column types. *)
From Coq Require Import Permutation.
From Verif Require Import Base ScopeModel.
Open Scope string_scope.
Open Scope list_scope.

Record arith := Arith {
  num : Type;
  zero : num;
  ofn : nat -> num;
  add : num -> num -> num; sub : num -> num -> num; mul : num -> num -> num; div : num -> num -> num;
  opp : num -> num;
  gt : num -> num -> bool; le : num -> num -> bool; eq : num -> num -> bool;
  plog : num -> num;                       (* x * log2(x) *)
  argsort : list num -> list nat }.

(** *** Datasets, cart.py:33-166 *)
(** sorted(set(data)), cart.py:70 *)
Fixpoint insert (s : string) (l : list string) : list string :=
  match l with
  | [] => [s]
  | x :: l' => match String.compare s x with Lt => s :: l | Eq => l | Gt => x :: insert s l' end
  end.
Definition uniques (l : list string) : list string := fold_right insert [] l.
(** the position of the first x; the length if there is none *)
Fixpoint position (s : string) (l : list string) : nat :=
  match l with [] => O | x :: l' => if String.eqb s x then O else S (position s l') end.

Section Cart.
  Variable N : arith.
  Notation A := (num N).

  (** Dataset.Field after toNumpy: numbers, or codes of strings with intToStr (cart.py:64-79) *)
  Inductive column := CReal (l : list A) | CCat (names : list string) (l : list nat).
  Definition to_numpy_str (l : list string) : column := CCat (uniques l) (map (fun s => position s (uniques l)) l).
  (** cart.py:101-109 *)
  Definition to_python_str (names : list string) (l : list nat) : list string := map (fun i => nth i names "") l.
  Definition col_len (c : column) : nat := match c with CReal l => length l | CCat _ l => length l end.
  (** data[selection] with a selection of booleans *)
  Fixpoint pick {B} (mask : list bool) (l : list B) : list B :=
    match mask, l with b :: m, x :: l' => if b then x :: pick m l' else pick m l' | _, _ => [] end.
  (** Field.select, cart.py:81-99 *)
  Definition select (mask : list bool) (c : column) : column :=
    match c with CReal l => CReal (pick mask l) | CCat names l => CCat names (pick mask l) end.

  (** TreeNode.dataset (without the names) and TreeNode.predictand *)
  Record data := Data { fields : list column; pred : column }.
  Definition size (d : data) : nat := col_len (pred d).                                  (* 212 *)
  Definition select_data (mask : list bool) (d : data) : data := Data (map (select mask) (fields d)) (select mask (pred d)).

  (** *** Sums *)
  Definition sum (l : list A) : A := fold_left (add N) l (zero N).
  Fixpoint cumsum (acc : A) (l : list A) : list A :=
    match l with [] => [] | x :: l' => let s := add N acc x in s :: cumsum s l' end.
  Definition sq (x : A) : A := mul N x x.
  Definition count (c : nat) (l : list nat) : nat := length (filter (Nat.eqb c) l).

  (** cart.py:214-227: numpy.unique; the fractions of the categories *)
  Fixpoint distinct (l : list A) : list A :=
    match l with [] => [] | x :: l' => if existsb (eq N x) l' then distinct l' else x :: distinct l' end.
  Definition distribution (names : list string) (l : list nat) : list A :=
    if Nat.eqb (length l) 0 then map (fun _ => zero N) names
    else map (fun c => div N (ofn N (count c l)) (ofn N (length l))) (seq 0 (length names)).
  (** canSplit, cart.py:267-275. count_nonzero of the fractions: a fraction is zero if the count is. *)
  Definition can_split (d : data) : bool :=
    match pred d with
    | CReal l => Nat.ltb 1 (length (distinct l))
    | CCat names l => Nat.ltb 0 (length (filter (fun c => negb (Nat.eqb (count c l) 0)) (seq 0 (length names))))
    end.
  (** numpy.argmax: the first of the greatest *)
  Fixpoint argmax_from (i best : nat) (m : A) (l : list A) : nat :=
    match l with [] => best | x :: l' => if gt N x m then argmax_from (S i) i x l' else argmax_from (S i) best m l' end.
  Definition argmax (l : list A) : res nat :=
    match l with [] => Raise (PyErr "ValueError") | x :: l' => Ok (argmax_from 1 0 x l') end.
  (** score, cart.py:277-285 *)
  Inductive score_value := SReal (x : A) | SCat (s : string).
  Definition score (d : data) : res score_value :=
    match pred d with
    | CReal l => Ok (SReal (div N (sum l) (ofn N (length l))))
    | CCat names l => i <- argmax (distribution names l) ;; Ok (SCat (nth i names ""))
    end.

  (** *** Gains *)
  Inductive split := Cut (x : A) | Among (codes : list nat).
  Definition sorted_by {B} (idx : list nat) (dflt : B) (l : list B) : list B := map (fun i => nth i l dflt) idx.
  (** cart.py:425, 555: the last of the greatest *)
  Definition last_argmax (gains : list A) : res nat := i <- argmax (rev gains) ;; Ok (length gains - 1 - i)%nat.
  (** cart.py:431-434, 561-564 *)
  Fixpoint next_higher (fuel : nat) (values : list A) (i j : nat) : nat :=
    match fuel with
    | O => j
    | S fuel' => if (Nat.ltb j (length values - 1) && eq N (nth j values (zero N)) (nth i values (zero N)))%bool
                 then next_higher fuel' values i (S j) else j
    end.
  Definition cut_value (values : list A) (i : nat) : A :=
    div N (add N (nth i values (zero N)) (nth (next_higher (length values) values i i) values (zero N))) (ofn N 2).

  (** numericalNVarianceGainTerm, cart.py:519-566 *)
  Definition nvar_term (sx sxx n : A) : A := sub N sxx (div N (sq sx) n).
  Definition nvar_gains (preds : list A) : list A :=
    let n := length preds in
    let sx := cumsum (zero N) preds in
    let sxx := cumsum (zero N) (map sq preds) in
    let tx := last sx (zero N) in let txx := last sxx (zero N) in
    removelast (map (fun i => sub N (opp N (nvar_term (nth i sx (zero N)) (nth i sxx (zero N)) (ofn N (S i))))
                                    (nvar_term (sub N tx (nth i sx (zero N))) (sub N txx (nth i sxx (zero N))) (sub N (ofn N n) (ofn N (S i)))))
                    (seq 0 n)).
  Definition numeric_nvar (values preds : list A) : res (A * split) :=
    let idx := argsort N values in
    let vs := sorted_by idx (zero N) values in
    let gains := nvar_gains (sorted_by idx (zero N) preds) in
    i <- last_argmax gains ;; Ok (nth i gains (zero N), Cut (cut_value vs i)).

  (** numericalEntropyGainTerm, cart.py:378-436. For the data after the cut, the denominator is numNotInSelection =
      n, n-1, ..., 1 (line 390), one more than their number. *)
  Definition entropy_sum (counts : list nat) (n : A) : A :=
    fold_left (fun acc c => sub N acc (plog N (div N (ofn N c) n))) counts (zero N).
  Definition entropy_gains (k : nat) (cats : list nat) : list A :=
    let n := length cats in
    map (fun i =>
           let before c := count c (firstn (S i) cats) in
           let after c := (count c cats - before c)%nat in
           let sel := entropy_sum (map before (seq 0 k)) (ofn N (S i)) in
           let anti := entropy_sum (map after (seq 0 k)) (ofn N (n - i)) in
           sub N (opp N (mul N (div N (ofn N (S i)) (ofn N n)) sel)) (mul N (div N (ofn N (n - i)) (ofn N n)) anti))
        (seq 0 n).
  Definition numeric_entropy (values : list A) (k : nat) (cats : list nat) : res (A * split) :=
    let idx := argsort N values in
    let vs := sorted_by idx (zero N) values in
    let gains := entropy_gains k (sorted_by idx O cats) in
    i <- last_argmax gains ;; Ok (nth i gains (zero N), Cut (cut_value vs i)).

  (** itertools.combinations *)
  Fixpoint combinations {B} (k : nat) (l : list B) : list (list B) :=
    match k, l with
    | O, _ => [[]]
    | S k', [] => []
    | S k', x :: l' => map (cons x) (combinations k' l') ++ combinations k l'
    end.
  Definition subset_limit (limit : option nat) (n : nat) : nat :=                        (* 476-480, 602-606 *)
    let informative := ((n + 1) / 2)%nat in
    match limit with None => informative | Some m => Nat.min m informative end.
  Definition candidates (limit : option nat) (l : list nat) : list (list nat) :=
    flat_map (fun k => combinations k l) (seq 1 (subset_limit limit (length l))).
  Fixpoint best_of (term : list nat -> A) (best : option (A * list nat)) (sets : list (list nat)) : option (A * list nat) :=
    match sets with
    | [] => best
    | s :: sets' =>
        let g := term s in
        best_of term (match best with
                      | None => Some (g, s)
                      | Some (m, _) => if gt N g m then Some (g, s) else best
                      end) sets'
    end.
  (** a field without any candidate gives (None, None), and None + number is a TypeError *)
  Definition as_split (b : option (A * list nat)) : res (A * split) :=
    match b with None => Raise (PyErr "TypeError") | Some (g, s) => Ok (g, Among s) end.

  (** categoricalEntropyGainTerm, cart.py:438-517 *)
  Definition in_set (s : list nat) (c : nat) : bool := existsb (Nat.eqb c) s.
  Definition entropy_of (k : nat) (cats : list nat) : A :=
    fold_left (fun acc c => if Nat.eqb (count c cats) 0 then acc
                            else sub N acc (plog N (div N (ofn N (count c cats)) (ofn N (length cats))))) (seq 0 k) (zero N).
  Definition split_cats (s : list nat) (codes cats : list nat) (inside : bool) : list nat :=
    pick (map (fun c => Bool.eqb (in_set s c) inside) codes) cats.
  Definition categorical_entropy (limit : option nat) (names : list string) (codes : list nat) (k : nat) (cats : list nat) : res (A * split) :=
    let n := length cats in
    let remaining := filter (fun c => negb (Nat.eqb (count c codes) 0)) (seq 0 (length names)) in
    let term s :=
      let inside := split_cats s codes cats true in let outside := split_cats s codes cats false in
      sub N (opp N (mul N (div N (ofn N (length inside)) (ofn N n)) (entropy_of k inside)))
            (mul N (div N (ofn N (length outside)) (ofn N n)) (entropy_of k outside)) in
    as_split (best_of term None (candidates limit remaining)).

  (** categoricalNVarianceGainTerm, cart.py:568-635. [uniq] are the codes that occur; the candidates are sets of positions in
      [uniq] (line 612), and are returned as they are. *)
  Definition nvar_safe (sx sxx : A) (n : nat) : A := if Nat.eqb n 0 then zero N else nvar_term sx sxx (ofn N n).
  Definition categorical_nvar (limit : option nat) (names : list string) (codes : list nat) (preds : list A) : res (A * split) :=
    let uniq := filter (fun c => negb (Nat.eqb (count c codes) 0)) (seq 0 (length names)) in
    let part i := pick (map (Nat.eqb (nth i uniq O)) codes) preds in
    let s1 s := fold_left (fun a i => (a + length (part i))%nat) s O in
    let sx s := sum (map (fun i => sum (part i)) s) in
    let sxx s := sum (map (fun i => sum (map sq (part i))) s) in
    let all := seq 0 (length uniq) in
    let term s :=
      sub N (opp N (nvar_safe (sx s) (sxx s) (s1 s)))
            (nvar_safe (sub N (sx all) (sx s)) (sub N (sxx all) (sxx s)) (s1 all - s1 s)) in
    as_split (best_of term None (candidates limit all)).

  (** *** splitOnce, cart.py:287-376 *)
  Definition field_term (limit : option nat) (p c : column) : res (A * split) :=
    match p, c with
    | CReal preds, CReal values => numeric_nvar values preds
    | CReal preds, CCat names codes => categorical_nvar limit names codes preds
    | CCat pn cats, CReal values => numeric_entropy values (length pn) cats
    | CCat pn cats, CCat names codes => categorical_entropy limit names codes (length pn) cats
    end.
  (** n * numpy.var (295); the entropy (323-326) *)
  Definition impurity (p : column) : A :=
    match p with
    | CReal l => let n := ofn N (length l) in
                 let mean := div N (sum l) n in
                 mul N n (div N (sum (map (fun x => sq (sub N x mean)) l)) n)
    | CCat names l => entropy_of (length names) l
    end.
  Definition better (i : nat) (g : A) (s : split) (best : option (A * nat * split)) : option (A * nat * split) :=
    match best with
    | None => Some (g, i, s)
    | Some (m, _, _) => if gt N g m then Some (g, i, s) else best
    end.
  Fixpoint best_field (limit : option nat) (p : column) (i : nat) (fs : list column) (best : option (A * nat * split)) : res (option (A * nat * split)) :=
    match fs with
    | [] => Ok best
    | c :: fs' => gs <- field_term limit p c ;;
                  best_field limit p (S i) fs' (better i (add N (fst gs) (impurity p)) (snd gs) best)
    end.
  (** 355-360; numbers and cuts go together, codes and sets too *)
  Definition passes (c : column) (s : split) : list bool :=
    match c, s with
    | CReal l, Cut x => map (fun y => le N y x) l
    | CCat _ l, Among codes => map (in_set codes) l
    | _, _ => map (fun _ => false) (seq 0 (col_len c))
    end.
  (** the result: the gain, the field, the split and the two halves, unless one is empty (370) *)
  Definition halves := (A * nat * split * data * data)%type.
  Definition split_once (limit : option nat) (d : data) : res (option halves) :=
    b <- best_field limit (pred d) 0 (fields d) None ;;
    match b with
    | None => Raise (PyErr "AttributeError")                                             (* 356: None.tpe *)
    | Some (g, i, s) =>
        let mask := passes (nth i (fields d) (CReal [])) s in
        let p := select_data mask d in
        let f := select_data (map negb mask) d in
        let len x := col_len (nth 0 (fields x) (CReal [])) in                            (* __len__, 162 *)
        if (Nat.ltb 0 (len p) && Nat.ltb 0 (len f))%bool then Ok (Some (g, i, s, p, f)) else Ok None
    end.

  (** *** Trees, cart.py:246-265 *)
  Inductive tree :=
  | Leaf (d : data)
  | Node (d : data) (gain : A) (field : nat) (s : split) (p f : tree).
  Definition tree_data (t : tree) : data := match t with Leaf d | Node d _ _ _ _ _ => d end.
  Definition out_of_fuel : exn := PyErr "out of fuel".
  Fixpoint split_until (fuel : nat) (limit : option nat) (condition : tree -> nat -> bool) (depth : nat) (d : data) : res tree :=
    match fuel with
    | O => Raise out_of_fuel
    | S fuel' =>
        if can_split d then
          o <- split_once limit d ;;
          match o with
          | None => Ok (Leaf d)
          | Some (g, i, s, p, f) =>
              if condition (Node d g i s (Leaf p) (Leaf f)) depth then
                tp <- split_until fuel' limit condition (S depth) p ;;
                tf <- split_until fuel' limit condition (S depth) f ;;
                Ok (Node d g i s tp tf)
              else Ok (Node d g i s (Leaf p) (Leaf f))
          end
        else Ok (Leaf d)
    end.
  Definition split_complete fuel limit d := split_until fuel limit (fun _ _ => true) 1 d.                  (* 232-235 *)
  Definition split_max_depth fuel limit m d := split_until fuel limit (fun _ k => Nat.ltb k m) 1 d.        (* 237-244 *)
  (** walkLeaves, cart.py:659-668 *)
  Fixpoint leaves (t : tree) : list data := match t with Leaf d => [d] | Node _ _ _ _ p f => leaves p ++ leaves f end.

  (** *** pfaValue, cart.py:799-903. [fieldNames]: the names of the dataset; [wrap]: the tag of the value if the type of the
      values is a union (849-855); [vnum]: a number as a value. *)
  Variable vnum : A -> val.
  Definition score_val (s : score_value) : string * val :=
    match s with SReal x => ("double", vnum x) | SCat s => ("string", VStr s) end.
  Definition tagged (is_union : bool) (tag : string) (v : val) : val := if is_union then VDict [(tag, v)] else v.
  Definition pfa_test (single is_union : bool) (numType : nat -> string) (i : nat) (c : column) (s : split) : res (string * val) :=
    match c, s with
    | CReal _, Cut x => Ok ("<=", tagged is_union (numType i) (vnum x))
    | CCat names _, Among codes =>
        if single then
          match codes with
          | [] => Raise (PyErr "IndexError")
          | c :: _ => Ok ("==", tagged is_union "string" (VStr (nth c names "")))
          end
        else Ok ("in", tagged is_union "array" (VArr (map (fun c => VStr (nth c names "")) codes)))
    | _, _ => Raise (PyErr "RuntimeError")
    end.
  Fixpoint pfa_value (T : string) (fieldNames : list string) (single is_union : bool) (numType : nat -> string) (t : tree) : res (bool * val) :=
    match t with
    | Leaf d => s <- score d ;; let kv := score_val s in Ok (false, VDict [kv])
    | Node d _ i s p f =>
        ov <- pfa_test single is_union numType i (nth i (fields d) (CReal [])) s ;;
        vp <- pfa_value T fieldNames single is_union numType p ;;
        vf <- pfa_value T fieldNames single is_union numType f ;;
        let branch b := if fst b : bool then VDict [(T, snd b)] else snd b in
        Ok (true, VDict [("field", VStr (nth i fieldNames "")); ("operator", VStr (fst ov)); ("value", snd ov);
                         ("pass", branch vp); ("fail", branch vf)])
    end.
End Cart.
Arguments CReal {N}. Arguments CCat {N}. Arguments Cut {N}. Arguments Among {N}. Arguments Data {N}. Arguments fields {N}. Arguments pred {N}.
Arguments Leaf {N}. Arguments Node {N}. Arguments SReal {N}. Arguments SCat {N}.
Arguments select {N}. Arguments col_len {N}. Arguments size {N}. Arguments select_data {N}. Arguments leaves {N}. Arguments tree_data {N}.
Arguments can_split {N}. Arguments score {N}. Arguments split_once {N}. Arguments split_until {N}. Arguments passes {N}.
