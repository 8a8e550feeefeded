(** Model of titus/lib/array.py (and titus/util.py helpers). *)
From Verif Require Import Base Effects PyNum ArithModel.
Open Scope Z_scope.

Definition zlen {A} (a : list A) : Z := Z.of_nat (length a).

(** CPython list slicing a[start:end] with step 1 (PySlice_AdjustIndices): negative indices count
    from the end, out-of-range indices are clamped. *)
Definition slice_adjust (len i : Z) : Z :=
  if i <? 0 then (if i + len <? 0 then 0 else i + len)
  else if len <? i then len else i.
Definition py_slice {A} (a : list A) (start stop : Z) : list A :=
  let b := slice_adjust (zlen a) start in
  let e := slice_adjust (zlen a) stop in
  firstn (Z.to_nat (e - b)) (skipn (Z.to_nat b) a).
(** a[:stop] and a[start:] *)
Definition py_slice_to {A} (a : list A) (stop : Z) : list A := py_slice a 0 stop.
Definition py_slice_from {A} (a : list A) (start : Z) : list A := py_slice a start (zlen a).

(** util.py:181-195 *)
Definition negative_index (len index : Z) : Z := if 0 <=? index then index else len + index.
(** util.py:197-232 *)
Definition start_end (len start stop : Z) : Z * Z :=
  let ns := if 0 <=? start then start else len + start in
  let ns := if ns <? 0 then 0 else ns in
  let ns := if len <? ns then len else ns in
  let ne := if 0 <=? stop then stop else len + stop in
  let ne := if ne <? 0 then 0 else ne in
  let ne := if len <? ne then len else ne in
  let ne := if ne <? ns then ns else ne in
  (ns, ne).

(** lib/array.py:52-54 *)
Definition check_range (len index code : Z) : res unit :=
  if (index <? 0) || (len <=? index) then Raise (PFAErr code) else Ok tt.

Section Basic.
  Context {A : Type}.
  (** lib/array.py:58-66 *)
  Definition a_len (a : list A) : Z := zlen a.
  (** lib/array.py:68-76 *)
  Definition a_subseq (a : list A) (start stop : Z) : list A := py_slice a start stop.
  (** lib/array.py:78-87 *)
  Definition a_head (a : list A) : res A := match a with [] => Raise (PFAErr 15020) | x :: _ => Ok x end.
  (** lib/array.py:89-98 *)
  Definition a_tail (a : list A) : res (list A) :=
    match a with [] => Raise (PFAErr 15030) | _ => Ok (py_slice_from a 1) end.
  (** lib/array.py:100-109: a[-1] *)
  Definition a_last (a : list A) : res A :=
    match a with
    | [] => Raise (PFAErr 15040)
    | x :: _ => match nth_error a (length a - 1) with Some y => Ok y | None => Raise (PyErr "IndexError") end
    end.
  (** lib/array.py:111-120 *)
  Definition a_init (a : list A) : res (list A) :=
    match a with [] => Raise (PFAErr 15050) | _ => Ok (py_slice_to a (-1)) end.
  (** lib/array.py:122-131 *)
  Definition a_subseqto (a : list A) (start stop : Z) (replacement : list A) : list A :=
    let '(ns, ne) := start_end (zlen a) start stop in
    py_slice_to a ns ++ replacement ++ py_slice_from a ne.
  (** lib/array.py:273-281 *)
  Definition a_concat (a b : list A) : list A := a ++ b.
  (** lib/array.py:283-291 *)
  Definition a_append (a : list A) (x : A) : list A := a ++ [x].
  (** lib/array.py:293-305 *)
  Definition a_cycle (a : list A) (item : A) (maxLength : Z) : res (list A) :=
    if maxLength <? 0 then Raise (PFAErr 15150)
    else if maxLength =? 0 then Ok []
    else Ok (py_slice_from (a ++ [item]) (- maxLength)).
  (** lib/array.py:307-317 *)
  Definition a_insert (a : list A) (index : Z) (item : A) : res (list A) :=
    let i := negative_index (zlen a) index in
    _ <- check_range (zlen a) i 15160 ;;
    Ok (py_slice_to a i ++ [item] ++ py_slice_from a i).
  (** lib/array.py:319-329 *)
  Definition a_replace (a : list A) (index : Z) (item : A) : res (list A) :=
    let i := negative_index (zlen a) index in
    _ <- check_range (zlen a) i 15170 ;;
    Ok (py_slice_to a i ++ [item] ++ py_slice_from a (i + 1)).
  (** lib/array.py:331-350, one index *)
  Definition a_remove (a : list A) (index : Z) : res (list A) :=
    let i := negative_index (zlen a) index in
    _ <- check_range (zlen a) i 15180 ;;
    Ok (py_slice_to a i ++ py_slice_from a (i + 1)).
  (** lib/array.py:331-350, a range *)
  Definition a_remove_range (a : list A) (start stop : Z) : list A :=
    let '(ns, ne) := start_end (zlen a) start stop in
    py_slice_to a ns ++ py_slice_from a ne.
  (** lib/array.py:352-365 *)
  Definition a_rotate (a : list A) (steps : Z) : res (list A) :=
    if steps <? 0 then Raise (PFAErr 15190)
    else if (steps =? 0) || (zlen a =? 0) then Ok a
    else let index := steps mod zlen a in Ok (py_slice_from a index ++ py_slice_to a index).
  (** lib/array.py:395-401 *)
  Definition a_reverse (a : list A) : list A := rev a.
  (** lib/array.py:1198-1204, util.py:74-82 *)
  Definition a_flatten (a : list (list A)) : list A := concat a.
End Basic.

(** lib/array.py:665-683; [sum(a)] starts from the int 0. *)
Fixpoint zsum (a : list Z) : Z := match a with [] => 0 | x :: a' => x + zsum a' end.
Definition range_or (lo hi code out : Z) : res Z :=
  if (lo <=? out) && (out <=? hi) then Ok out else Raise (PFAErr code).
Definition a_sum (t : ntype) (a : list Z) : res Z :=
  let out := fold_left Z.add a 0 in
  match t with
  | TInt => range_or INT_MIN_VALUE INT_MAX_VALUE 15400 out
  | TLong => range_or LONG_MIN_VALUE LONG_MAX_VALUE 15401 out
  | _ => Ok out
  end.
(** lib/array.py:685-704 (integer types) *)
Definition a_product (t : ntype) (a : list Z) : res Z :=
  let out := fold_left Z.mul a 1 in
  match t with
  | TInt => range_or INT_MIN_VALUE INT_MAX_VALUE 15410 out
  | TLong => range_or LONG_MIN_VALUE LONG_MAX_VALUE 15411 out
  | _ => Ok out
  end.

(** ---- functions based on Python's == (here a boolean function on the items) ---- *)
Section Eq.
  Context {A : Type}.
  Variable eqb : A -> A -> bool.
  (** Python [x in l]: compares the items of l with x *)
  Definition py_in (x : A) (l : list A) : bool := existsb (fun y => eqb y x) l.
  Fixpoint list_eq (l l' : list A) : bool :=
    match l, l' with
    | [], [] => true
    | x :: l, y :: l' => eqb x y && list_eq l l'
    | _, _ => false
    end.
  (** positions where [needle] occurs as a contiguous subsequence, from the loop
      [for start in range(len(haystack) - len(needle) + 1)] *)
  Definition starts (haystack needle : list A) : list Z :=
    zrange 0 (zlen haystack - zlen needle + 1).
  Definition match_at (haystack needle : list A) (start : Z) : bool :=
    list_eq needle (py_slice haystack start (start + zlen needle)).
  Definition first_or {B} (d : B) (l : list B) : B := match l with [] => d | x :: _ => x end.

  (** lib/array.py:135-159, array needle *)
  Definition a_contains_seq (haystack needle : list A) : bool :=
    existsb (match_at haystack needle) (starts haystack needle).
  (** lib/array.py:135-159, item needle ([haystack.index(needle)] compares from the left) *)
  Definition a_contains (haystack : list A) (needle : A) : bool := py_in needle haystack.
  (** lib/array.py:161-188, array needle *)
  Definition a_count_seq (haystack needle : list A) : Z :=
    match haystack, needle with
    | [], _ | _, [] => 0
    | _, _ => zlen (filter (match_at haystack needle) (starts haystack needle))
    end.
  (** lib/array.py:161-188, item needle *)
  Definition a_count (haystack : list A) (needle : A) : Z :=
    zlen (filter (fun y => eqb y needle) haystack).
  (** lib/array.py:190-212, array needle *)
  Definition a_index_seq (haystack needle : list A) : Z :=
    first_or (-1) (filter (match_at haystack needle) (starts haystack needle)).
  Fixpoint find_index (p : A -> bool) (i : Z) (l : list A) : Z :=
    match l with [] => -1 | y :: l' => if p y then i else find_index p (i + 1) l' end.
  (** lib/array.py:190-212, item needle *)
  Definition a_index (haystack : list A) (needle : A) : Z := find_index (fun y => eqb y needle) 0 haystack.
  (** lib/array.py:214-236, array needle: range(len - len, -1, -1) *)
  Definition a_rindex_seq (haystack needle : list A) : Z :=
    first_or (-1) (filter (match_at haystack needle) (rev (starts haystack needle))).
  (** lib/array.py:214-236, item needle *)
  Definition a_rindex (haystack : list A) (needle : A) : Z :=
    let i := find_index (fun y => eqb needle y) 0 (rev haystack) in
    if i =? -1 then -1 else zlen haystack - 1 - i.
  (** lib/array.py:238-251 *)
  Definition a_startswith (haystack needle : list A) : bool :=
    list_eq needle (py_slice_to haystack (zlen needle)).
  (** lib/array.py:253-269 *)
  Definition a_endswith (haystack needle : list A) : bool :=
    match needle with
    | [] => true
    | _ => list_eq needle (py_slice_from haystack (- zlen needle))
    end.

  (** lib/array.py:826-836 *)
  Definition add_new (out : list A) (x : A) : list A := if py_in x out then out else out ++ [x].
  Definition a_distinct (a : list A) : list A := fold_left add_new a [].
  (** lib/array.py:838-844 *)
  Definition a_seteq (a b : list A) : bool :=
    forallb (fun x => py_in x b) a && forallb (fun y => py_in y a) b.
  (** lib/array.py:846-859 *)
  Definition a_union (a b : list A) : list A := fold_left add_new b (fold_left add_new a []).
  (** lib/array.py:861-874 *)
  Definition a_intersection (a b : list A) : list A :=
    filter (fun x => py_in x b) a ++ filter (fun y => py_in y a) b.
  (** lib/array.py:876-886 *)
  Definition a_diff (a b : list A) : list A := filter (fun x => negb (py_in x b)) a.
  (** lib/array.py:888-901 *)
  Definition a_symdiff (a b : list A) : list A :=
    filter (fun x => negb (py_in x b)) a ++ filter (fun y => negb (py_in y a)) b.
  (** lib/array.py:903-909 *)
  Definition a_subset (a b : list A) : bool := forallb (fun x => py_in x b) a.
  (** lib/array.py:911-917 *)
  Definition a_disjoint (a b : list A) : bool :=
    forallb (fun x => negb (py_in x b)) a && forallb (fun y => negb (py_in y a)) b.
End Eq.

(** ---- functions based on an order ---- *)
Section Order.
  Context {A : Type}.
  Variable lt : A -> A -> bool.

  (** CPython's sorted(a, key=cmp_to_key(cmp)) only uses [cmp(x, y) < 0], here [lt], and is stable.
      Modelled by stable insertion; SortProofs.stable_sort_unique shows that every stable sorting
      algorithm gives the same list. *)
  Fixpoint ins (before : A -> A -> bool) (x : A) (l : list A) : list A :=
    match l with
    | [] => [x]
    | y :: l' => if before x y then x :: l else y :: ins before x l'
    end.
  Definition stable_insert_all (before : A -> A -> bool) (a : list A) : list A :=
    fold_left (fun out x => ins before x out) a [].
  (** lib/array.py:369-375 and 377-383 *)
  Definition a_sort (a : list A) : list A := stable_insert_all lt a.

  (** lib/array.py:405-418: insert before the first [best] with [lt best x], else append; then
      drop the last item when there are more than n. *)
  Definition trunc_n (n : Z) (l : list A) : list A := if n <? zlen l then removelast l else l.
  Definition highestN (a : list A) (n : Z) : list A :=
    fold_left (fun out x => trunc_n n (ins (fun x best => lt best x) x out)) a [].
  (** lib/array.py:420-433 *)
  Definition lowestN (a : list A) (n : Z) : list A :=
    fold_left (fun out x => trunc_n n (ins (fun x best => lt x best) x out)) a [].
End Order.

Section ArgOrder.
  Context {A : Type}.
  Variable lt : A -> A -> bool.
  Definition enum (a : list A) : list (Z * A) := combine (zrange 0 (zlen a)) a.
  (** lib/array.py:442-443: the inner loop that looks for an insertion index after [index]; the
      loop reads [out[ind]] only while [ind <= len(out)], an IndexError if [ind] = len(out). *)
  Fixpoint skip_ties (x : A) (i : Z) (out : list (Z * A)) : option (list (Z * A)) :=
    match out with
    | [] => None (* out[len(out)]: IndexError *)
    | (j, y) :: out' =>
        if negb (lt y x) && negb (lt x y) && (i <? j)
        then match skip_ties x i out' with Some r => Some ((j, y) :: r) | None => None end
        else Some ((i, x) :: out)
    end.
  Fixpoint arg_ins (before : A -> A -> bool) (x : A) (i : Z) (out : list (Z * A)) : option (list (Z * A)) :=
    match out with
    | [] => Some [(i, x)]
    | (j, y) :: out' =>
        if before x y then skip_ties x i out
        else match arg_ins before x i out' with Some r => Some ((j, y) :: r) | None => None end
    end.
  Definition argN (before : A -> A -> bool) (a : list A) (n : Z) : res (list Z) :=
    match fold_left (fun acc ix =>
            match acc with
            | None => None
            | Some out => match arg_ins before (snd ix) (fst ix) out with
                          | Some out' => Some (trunc_n n out')
                          | None => None
                          end
            end) (enum a) (Some []) with
    | Some out => Ok (map fst out)
    | None => Raise (PyErr "IndexError")
    end.
  (** lib/array.py:435-451 *)
  Definition argHighestN := argN (fun x best => lt best x).
  (** lib/array.py:453-469 *)
  Definition argLowestN := argN (fun x best => lt x best).

  Definition first_of {B} (l : list B) : res B := match l with [] => Raise (PyErr "IndexError") | x :: _ => Ok x end.
  Definition guard_n {B} (a : list A) (n code : Z) (k : res B) : res B :=
    match a with [] => Raise (PFAErr code) | _ => if n <? 0 then Raise (PFAErr (code + 1)) else k end.
  Definition guard {B} (a : list A) (code : Z) (k : res B) : res B :=
    match a with [] => Raise (PFAErr code) | _ => k end.
  (** lib/array.py:471-513 *)
  Definition a_max code (a : list A) : res A := guard a code (first_of (highestN lt a 1)).
  Definition a_min code (a : list A) : res A := guard a code (first_of (lowestN lt a 1)).
  (** lib/array.py:515-565 *)
  Definition a_maxN code (a : list A) (n : Z) : res (list A) := guard_n a n code (Ok (highestN lt a n)).
  Definition a_minN code (a : list A) (n : Z) : res (list A) := guard_n a n code (Ok (lowestN lt a n)).
  (** lib/array.py:567-609 *)
  Definition a_argmax code (a : list A) : res Z := guard a code (l <- argHighestN a 1 ;; first_of l).
  Definition a_argmin code (a : list A) : res Z := guard a code (l <- argLowestN a 1 ;; first_of l).
  (** lib/array.py:611-661 *)
  Definition a_argmaxN code (a : list A) (n : Z) : res (list Z) := guard_n a n code (argHighestN a n).
  Definition a_argminN code (a : list A) (n : Z) : res (list Z) := guard_n a n code (argLowestN a n).
End ArgOrder.

(** ---- higher-order functions; the function argument is an effectful computation ---- *)
Section HigherOrder.
  Context {S : Type}.
  (** lib/array.py:921-927 *)
  Definition a_map {A B} (a : list A) (f : A -> M S B) : M S (list B) := mapM f a.
  (** lib/array.py:929-935 *)
  Definition a_mapWithIndex {A B} (a : list A) (f : Z -> A -> M S B) : M S (list B) :=
    mapM (fun ix => f (fst ix) (snd ix)) (enum a).
  (** lib/array.py:937-943 *)
  Fixpoint a_filter {A} (a : list A) (f : A -> M S bool) : M S (list A) :=
    match a with
    | [] => ret []
    | x :: a' => b <~ f x ;; r <~ a_filter a' f ;; ret (if b then x :: r else r)
    end.
  (** lib/array.py:945-951 *)
  Definition a_filterWithIndex {A} (a : list A) (f : Z -> A -> M S bool) : M S (list A) :=
    r <~ a_filter (enum a) (fun ix => f (fst ix) (snd ix)) ;; ret (map snd r).
  (** lib/array.py:953-969, for a function whose result is null or a value (the tag of a tagged
      result is removed by the caller of the model) *)
  Fixpoint a_filterMap {A B} (a : list A) (f : A -> M S (option B)) : M S (list B) :=
    match a with
    | [] => ret []
    | x :: a' => y <~ f x ;; r <~ a_filterMap a' f ;; ret (match y with Some v => v :: r | None => r end)
    end.
  (** lib/array.py:989-998 *)
  Fixpoint a_flatMap {A B} (a : list A) (f : A -> M S (list B)) : M S (list B) :=
    match a with
    | [] => ret []
    | x :: a' => y <~ f x ;; r <~ a_flatMap a' f ;; ret (y ++ r)
    end.
  (** lib/array.py:1011-1025, two arrays *)
  Definition a_zipmap {A B C} (a : list A) (b : list B) (f : A -> B -> M S C) : M S (list C) :=
    if Nat.eqb (length a) (length b) then mapM (fun ab => f (fst ab) (snd ab)) (combine a b)
    else raise (PFAErr 15650).
  (** lib/array.py:1043-1052 *)
  Definition a_reduce {A} (a : list A) (f : A -> A -> M S A) : M S A :=
    match a with [] => raise (PFAErr 15670) | x :: a' => foldM f x a' end.
  (** lib/array.py:1054-1063 *)
  Definition a_reduceRight {A} (a : list A) (f : A -> A -> M S A) : M S A :=
    match rev a with [] => raise (PFAErr 15680) | x :: a' => foldM (fun x y => f y x) x a' end.
  (** lib/array.py:1065-1071 *)
  Definition a_fold {A B} (a : list A) (zero : B) (f : B -> A -> M S B) : M S B := foldM f zero a.
  (** lib/array.py:1073-1079 *)
  Definition a_foldRight {A B} (a : list A) (zero : B) (f : A -> B -> M S B) : M S B :=
    foldM (fun y x => f x y) zero (rev a).
  (** lib/array.py:1081-1093 *)
  Fixpoint a_takeWhile {A} (a : list A) (f : A -> M S bool) : M S (list A) :=
    match a with
    | [] => ret []
    | x :: a' => b <~ f x ;; if b : bool then r <~ a_takeWhile a' f ;; ret (x :: r) else ret []
    end.
  (** lib/array.py:1095-1107 *)
  Fixpoint count_while {A} (a : list A) (f : A -> M S bool) (i : Z) : M S Z :=
    match a with
    | [] => ret i
    | x :: a' => b <~ f x ;; if b : bool then count_while a' f (i + 1) else ret i
    end.
  Definition a_dropWhile {A} (a : list A) (f : A -> M S bool) : M S (list A) :=
    i <~ count_while a f 0 ;; ret (py_slice_from a i).
  (** lib/array.py:1111-1117 (Python's any stops at the first true) *)
  Fixpoint a_any {A} (a : list A) (f : A -> M S bool) : M S bool :=
    match a with [] => ret false | x :: a' => b <~ f x ;; if b : bool then ret true else a_any a' f end.
  (** lib/array.py:1119-1125 *)
  Fixpoint a_all {A} (a : list A) (f : A -> M S bool) : M S bool :=
    match a with [] => ret true | x :: a' => b <~ f x ;; if b : bool then a_all a' f else ret false end.
  (** lib/array.py:1127-1133 *)
  Definition a_corresponds {A B} (a : list A) (b : list B) (f : A -> B -> M S bool) : M S bool :=
    if Nat.eqb (length a) (length b) then a_all (combine a b) (fun ab => f (fst ab) (snd ab)) else ret false.
  (** lib/array.py:1206-1218 *)
  Definition group_add {A} (out : list (string * list A)) (k : string) (x : A) : list (string * list A) :=
    match assoc k out with
    | Some l => dict_set k (l ++ [x]) out
    | None => dict_set k [x] out
    end.
  Definition a_groupby {A} (a : list A) (f : A -> M S string) : M S (list (string * list A)) :=
    foldM (fun out x => k <~ f x ;; ret (group_add out k x)) [] a.
End HigherOrder.

(** lib/array.py:1145-1164; the check of the time limit every 1000 windows is not modelled.
    [range(0, len(a), step)] is enumerated with fuel [length a] (enough since step >= 1). *)
Fixpoint windows {A} (fuel : nat) (a : list A) (start size step : Z) : list (list A) :=
  match fuel with
  | O => []
  | S fuel' =>
      if start <? zlen a then
        let chunk := py_slice a start (start + size) in
        (if zlen chunk =? size then [chunk] else []) ++ windows fuel' a (start + step) size step
      else []
  end.
Definition a_slidingWindow {A} (a : list A) (size step : Z) : res (list (list A)) :=
  if size <? 1 then Raise (PFAErr 15770)
  else if step <? 1 then Raise (PFAErr 15771)
  else Ok (windows (length a) a 0 size step).

(** itertools.combinations(a, size) in its documented (lexicographic) order. *)
Fixpoint combinations {A} (a : list A) (k : nat) : list (list A) :=
  match k, a with
  | O, _ => [[]]
  | S _, [] => []
  | S k', x :: a' => map (cons x) (combinations a' k') ++ combinations a' k
  end.
(** lib/array.py:1166-1181 (without the time check) *)
Definition a_combinations {A} (a : list A) (size : Z) : res (list (list A)) :=
  if size <? 1 then Raise (PFAErr 15780) else Ok (combinations a (Z.to_nat size)).

(** itertools.permutations(a) in its documented order (by position). *)
Fixpoint selects {A} (l : list A) : list (A * list A) :=
  match l with
  | [] => []
  | x :: l' => (x, l') :: map (fun p => (fst p, x :: snd p)) (selects l')
  end.
Fixpoint perms {A} (n : nat) (l : list A) : list (list A) :=
  match n with
  | O => [[]]
  | S n' => flat_map (fun p => map (cons (fst p)) (perms n' (snd p))) (selects l)
  end.
(** lib/array.py:1183-1196 (without the time check) *)
Definition a_permutations {A} (a : list A) : list (list A) := perms (length a) a.

(** Run-time dispatch of a.contains / a.index on the kind of needle (lib/array.py:141-158, 196-211):
    a needle that is a Python list is always treated as a subsequence to look for. *)
Inductive jval := JAtom (z : Z) | JList (l : list jval).
Fixpoint jval_eqb (x y : jval) : bool :=
  match x, y with
  | JAtom a, JAtom b => a =? b
  | JList l, JList l' =>
      (fix go l l' := match l, l' with
                      | [], [] => true
                      | x :: l, y :: l' => jval_eqb x y && go l l'
                      | _, _ => false
                      end) l l'
  | _, _ => false
  end.
Definition a_contains_dyn (haystack : list jval) (needle : jval) : bool :=
  match needle with
  | JList n => a_contains_seq jval_eqb haystack n
  | _ => a_contains jval_eqb haystack needle
  end.
Definition a_index_dyn (haystack : list jval) (needle : jval) : Z :=
  match needle with
  | JList n => a_index_seq jval_eqb haystack n
  | _ => a_index jval_eqb haystack needle
  end.
