(** Model of lib/la.py: matrices as arrays of arrays and as maps of maps.

    The arithmetic is a parameter (zero, sum, difference, product), so that the element-wise functions are covered for
    binary64 as well; numpy.dot is modelled as the sum of products and is only meaningful for exact
    arithmetic (its order of summation is not specified). Inverse, Det and EigenBasis (numpy.linalg) are
    not modelled.

    The functions choose between vectors and matrices by isinstance (e.g. 143-152); the model has one
    function for each. On an empty list or map, which is both, they give the same result. *)
From Coq Require Import SpecFloat.
From Verif Require Import Base PyNum Effects StatModel.
Open Scope string_scope.
Open Scope list_scope.
Open Scope Z_scope.

Definition count {A} (l : list A) : Z := Z.of_nat (length l).

(** raggedArray, lib/la.py:75-77; [max] of an empty list is not reached by the callers. *)
Definition raggedArray {A} (x : list (list A)) : bool :=
  match map (@count A) x with
  | [] => false
  | c :: cs => negb (fold_left Z.max cs c =? fold_left Z.min cs c)
  end.
(** raggedMap, lib/la.py:79-80: the lengths are not all the same. *)
Definition raggedMap {A} (x : list (string * list A)) : bool :=
  match map (fun r => count (snd r)) x with
  | [] => true
  | c :: cs => negb (forallb (Z.eqb c) cs)
  end.
(** rowKeys and colKeys, lib/la.py:42-49, as lists with repetitions; see [order] below. *)
Definition rowKeys {A} (x : list (string * A)) : list string := map fst x.
Definition colKeys {A} (x : list (string * list (string * A))) : list string := concat (map (fun r => map fst (snd r)) x).

(** The guard shared by Transpose, Inverse, Det, Symmetric, EigenBasis and Truncate, e.g. lib/la.py:271-278. *)
Definition guard_matrix {A} (code : Z) (x : list (list A)) : res (Z * Z) :=
  match x with
  | [] => Raise (PFAErr code)
  | x0 :: _ =>
      if count x0 <? 1 then Raise (PFAErr code)
      else if raggedArray x then Raise (PFAErr (code + 1))
      else Ok (count x, count x0)
  end.

(** x[i] for an index that is not negative *)
Definition index {A} (x : list A) (i : nat) : res A :=
  match nth_error x i with Some a => Ok a | None => Raise (PyErr "IndexError") end.
(** x[k] of a dict *)
Definition subscript {A} (x : list (string * A)) (k : string) : res A :=
  match assoc k x with Some a => Ok a | None => Raise (PyErr "KeyError") end.

Section Callbacks.
  Context {S T : Type}.
  (** MapApply.__call__, lib/la.py:87-92 *)
  Definition la_map (x : list (list T)) (fcn : T -> M S T) : M S (list (list T)) := mapM (mapM fcn) x.
  Definition la_map_maps (x : list (string * list (string * T))) (fcn : T -> M S T) : M S (list (string * list (string * T))) :=
    mapM (fun ir => row <~ mapM (fun jx => y <~ fcn (snd jx) ;; ret (fst jx, y)) (snd ir) ;; ret (fst ir, row)) x.
  (** any(len(xi) != len(yi) for xi, yi in zip(x, y)) or len(x) != len(y), lib/la.py:123 *)
  Definition misaligned {A B} (x : list (list A)) (y : list (list B)) : bool :=
    negb (count x =? count y) || existsb (fun p => negb (count (fst p) =? count (snd p))) (combine x y).
  (** ZipMap.__call__, lib/la.py:120-125 *)
  Definition la_zipmap (x y : list (list T)) (fcn : T -> T -> M S T) : M S (list (list T)) :=
    if misaligned x y then raise (PFAErr 24020)
    else mapM (fun xy => mapM (fun p => fcn (fst p) (snd p)) (combine (fst xy) (snd xy))) (combine x y).
End Callbacks.

Section La.
  Context {T : Type} (zero : T) (add sub mul : T -> T -> T).
  (** The order in which Python iterates over a set, given its members in any order and with
      repetitions; all that is known is that every member is visited once. *)
  Context (order : list string -> list string).
  Local Notation matrix := (list (list T)).
  Local Notation vmap := (list (string * T)).
  Local Notation mmap := (list (string * list (string * T))).

  (** Scale.__call__, lib/la.py:103-111 *)
  Definition scale_matrix (x : matrix) (alpha : T) : matrix := map (map (fun xj => mul xj alpha)) x.
  Definition scale_vector (x : list T) (alpha : T) : list T := map (fun xi => mul xi alpha) x.
  Definition scale_maps (x : mmap) (alpha : T) : mmap := map (fun ir => (fst ir, map (fun jx => (fst jx, mul (snd jx) alpha)) (snd ir))) x.
  Definition scale_map (x : vmap) (alpha : T) : vmap := map (fun ix => (fst ix, mul (snd ix) alpha)) x.

  (** Add.__call__ and Sub.__call__, lib/la.py:142-162, 173-193 *)
  Definition zip_vectors (f : T -> T -> T) (code : Z) (x y : list T) : res (list T) :=
    if negb (count x =? count y) then Raise (PFAErr code) else Ok (map (fun p => f (fst p) (snd p)) (combine x y)).
  Definition zip_matrices (f : T -> T -> T) (code : Z) (x y : matrix) : res matrix :=
    if misaligned x y then Raise (PFAErr code)
    else Ok (map (fun xy => map (fun p => f (fst p) (snd p)) (combine (fst xy) (snd xy))) (combine x y)).
  (** x.get(i, 0.0) and x.get(i, {}).get(j, 0.0) *)
  Definition get (x : vmap) (i : string) : T := match assoc i x with Some v => v | None => zero end.
  Definition get2 (x : mmap) (i j : string) : T := match assoc i x with Some r => get r j | None => zero end.
  Definition zip_map (f : T -> T -> T) (x y : vmap) : vmap :=
    map (fun i => (i, f (get x i) (get y i))) (order (rowKeys x ++ rowKeys y)).
  Definition zip_maps (f : T -> T -> T) (x y : mmap) : mmap :=
    map (fun i => (i, map (fun j => (j, f (get2 x i j) (get2 y i j))) (order (colKeys x ++ colKeys y))))
        (order (rowKeys x ++ rowKeys y)).
  Definition add_vectors := zip_vectors add 24030.
  Definition add_matrices := zip_matrices add 24030.
  Definition add_map := zip_map add.
  Definition add_maps := zip_maps add.
  Definition sub_vectors := zip_vectors sub 24040.
  Definition sub_matrices := zip_matrices sub 24040.
  Definition sub_map := zip_map sub.
  Definition sub_maps := zip_maps sub.

  (** Transpose.__call__, lib/la.py:269-288 *)
  Definition transpose (x : matrix) : res matrix :=
    rc <- guard_matrix 24060 x ;;
    rmapM (fun c => rmapM (fun r => row <- index x r ;; index row c) (seq 0 (Z.to_nat (fst rc)))) (seq 0 (Z.to_nat (snd rc))).
  Definition transpose_maps (x : mmap) : res mmap :=
    let rows := order (rowKeys x) in
    let cols := order (colKeys x) in
    if (count rows <? 1) || (count cols <? 1) then Raise (PFAErr 24060)
    else if raggedMap x then Raise (PFAErr 24061)
    else rmapM (fun c => col <- rmapM (fun r => row <- subscript x r ;; v <- subscript row c ;; Ok (r, v)) rows ;; Ok (c, col)) cols.

  (** sum(...), lib/la.py:333,337; Python's sum starts at 0 *)
  Definition py_sum (l : list T) : T := fold_left add l zero.
  (** Trace.__call__, lib/la.py:324-337 *)
  Definition trace (x : matrix) : res T :=
    match x with
    | [] => Ok zero
    | x0 :: _ =>
        if raggedArray x then Raise (PFAErr 24080)
        else l <- rmapM (fun i => row <- index x i ;; index row i) (seq 0 (Nat.min (length x) (length x0))) ;; Ok (py_sum l)
    end.
  Definition trace_maps (x : mmap) : res T :=
    let ks := order (filter (fun k => existsb (String.eqb k) (colKeys x)) (rowKeys x)) in
    l <- rmapM (fun i => row <- subscript x i ;; subscript row i) ks ;; Ok (py_sum l).

  (** arraysToMatrix, lib/la.py:51-52: numpy refuses ragged arrays; the shape of numpy.matrix([]) is (1, 0). *)
  Definition arraysToMatrix (x : matrix) : res (matrix * (Z * Z)) :=
    match x with
    | [] => Ok ([[]], (1, 0))
    | x0 :: _ => if raggedArray x then Raise (PyErr "ValueError") else Ok (x, (count x, count x0))
    end.
  (** numpy.dot of two matrices of matching shapes: the sums of products *)
  Definition column (y : matrix) (j : nat) : list T := map (fun row => nth j row zero) y.
  Definition inner (u v : list T) : T := fold_right (fun p acc => add (mul (fst p) (snd p)) acc) zero (combine u v).
  Definition np_dot (x y : matrix) (ycols : nat) : matrix := map (fun row => map (fun j => inner row (column y j)) (seq 0 ycols)) x.

  Context (nonfinite : T -> bool).  (** math.isnan(z) or math.isinf(z) *)
  (** Dot.__call__, lib/la.py:207-218 *)
  Definition dot (x y : matrix) : res matrix :=
    let bad := existsb (existsb nonfinite) x || existsb (existsb nonfinite) y in
    xm <- arraysToMatrix x ;; ym <- arraysToMatrix y ;;
    let '(xmat, (xr, xc)) := xm in let '(ymat, (yr, yc)) := ym in
    if (xr =? 0) || (xc =? 0) || (yr =? 0) || (yc =? 0) then Raise (PFAErr 24051)
    else if bad then Raise (PFAErr 24052)
    else if negb (xc =? yr) then Raise (PFAErr 24050)
    else Ok (np_dot xmat ymat (Z.to_nat yc)).
  (** 221-232: the shape of a vector of length n is (n, 1) *)
  Definition dot_vector (x : matrix) (y : list T) : res (list T) :=
    let bad := existsb (existsb nonfinite) x || existsb nonfinite y in
    xm <- arraysToMatrix x ;;
    let '(xmat, (xr, xc)) := xm in
    if (xr =? 0) || (xc =? 0) || (count y =? 0) then Raise (PFAErr 24051)
    else if bad then Raise (PFAErr 24052)
    else if negb (xc =? count y) then Raise (PFAErr 24050)
    else Ok (map (fun row => inner row y) xmat).
  (** mapsToMatrix, lib/la.py:63-64 *)
  Definition mapsToMatrix (x : mmap) (rows cols : list string) : matrix := map (fun i => map (fun j => get2 x i j) cols) rows.
  (** 236-247 *)
  Definition dot_maps (x y : mmap) : res mmap :=
    let bad := existsb (fun r => existsb (fun z => nonfinite (snd z)) (snd r)) x || existsb (fun r => existsb (fun z => nonfinite (snd z)) (snd r)) y in
    let rows := order (rowKeys x) in
    let inter := order (colKeys x ++ rowKeys y) in
    let cols := order (colKeys y) in
    if (count rows =? 0) || (count inter =? 0) || (count cols =? 0) then Raise (PFAErr 24051)
    else if bad then Raise (PFAErr 24052)
    else Ok (combine rows (map (fun xi => combine cols xi)
                               (np_dot (mapsToMatrix x rows inter) (mapsToMatrix y inter cols) (length cols)))).
  (** 249-260 *)
  Definition dot_map_vector (x : mmap) (y : vmap) : res vmap :=
    let bad := existsb (fun r => existsb (fun z => nonfinite (snd z)) (snd r)) x || existsb (fun z => nonfinite (snd z)) y in
    let rows := order (rowKeys x) in
    let cols := order (colKeys x ++ rowKeys y) in
    if (count rows =? 0) || (count cols =? 0) then Raise (PFAErr 24051)
    else if bad then Raise (PFAErr 24052)
    else Ok (combine rows (map (fun row => inner row (map (get y) cols)) (mapsToMatrix x rows cols))).

  (** Symmetric.__call__, lib/la.py:389-407, with [same] (380-388) as a parameter *)
  Context (same : T -> T -> bool).
  Definition rforallb {A} (f : A -> res bool) : list A -> res bool :=
    fix go l := match l with [] => Ok true | a :: l' => b <- f a ;; if b then go l' else Ok false end.
  Definition symmetric (x : matrix) : res bool :=
    rc <- guard_matrix 24100 x ;;
    if negb (fst rc =? snd rc) then Raise (PFAErr 24102)
    else rforallb (fun i => rforallb (fun j => ri <- index x i ;; a <- index ri j ;; rj <- index x j ;; b <- index rj i ;; Ok (same a b))
                                     (seq 0 (Z.to_nat (snd rc)))) (seq 0 (Z.to_nat (fst rc))).
  Definition symmetric_maps (x : mmap) : res bool :=
    let ks := order (rowKeys x ++ colKeys x) in
    if (count ks <? 1) || forallb (fun r => count (snd r) =? 0) x then Raise (PFAErr 24100)
    else Ok (forallb (fun i => forallb (fun j => same (get2 x i j) (get2 x j i)) ks) ks).

  (** Truncate.__call__, lib/la.py:464-484 *)
  Definition truncate (x : matrix) (keep : Z) : res matrix :=
    let keep := if keep <? 0 then 0 else keep in
    rc <- guard_matrix 24120 x ;; Ok (firstn (Z.to_nat keep) x).
  Definition truncate_maps (x : mmap) (keep : list string) : res mmap :=
    let rows := order (rowKeys x) in
    let cols := order (colKeys x) in
    if (count rows <? 1) || (count cols <? 1) then Raise (PFAErr 24120)
    else rmapM (fun k => row <- subscript x k ;; Ok (k, row)) (filter (fun k => existsb (String.eqb k) keep) rows).
End La.

(** Symmetric.same, lib/la.py:380-388, on binary64 *)
Definition same64 (tol x y : pf) : bool :=
  if isinf x && isinf y && ((num_lt (NF (f_of_Z 0)) (NF x) && num_lt (NF (f_of_Z 0)) (NF y)) ||
                            (num_lt (NF x) (NF (f_of_Z 0)) && num_lt (NF y) (NF (f_of_Z 0)))) then true
  else if isnan x && isnan y then true
  else if negb (isinf x) && negb (isnan x) && negb (isinf y) && negb (isnan y) then num_lt (NF (SFabs (fsub x y))) (NF tol)
  else false.
