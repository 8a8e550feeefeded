(** Model of titus/producer/kmeans.py: k-means clustering and the PFA document of its result.

    Simplifications, all deliberate:
    - numpy arrays are lists; numbers are any type with the operations used ([arith] of CartModel);
    - random.randint is a list of draws, used from the front; a loop that needs more draws than there are ends with
      [out_of_draws];
    - a mean of no numbers is nan, and the only number that is not finite: overflow is left out;
    - random subsets (randomSubset, stepup, maxPointsForClustering) and printing are left out;
    - the metric is any function of two points; AbsDiff and the metrics of lines 53-110 are defined below. *)
From Coq Require Import Permutation.
From Verif Require Import Base ScopeModel CartModel.
Open Scope string_scope.
Open Scope list_scope.

Section Kmeans.
  Variable N : arith.
  Notation A := (num N).
  Definition point := list A.
  Definition coord (k : nat) (x : point) : A := nth k x (zero N).

  (** *** metrics, kmeans.py:53-110: each is a sum or maximum over the columns; the root in Euclidean is left to the arithmetic *)
  Definition abs_diff (a b : A) : A := let d := sub N a b in if gt N (zero N) d then opp N d else d.             (* 53-58 *)
  Definition squared_euclidean (dim : nat) (x c : point) : A :=                                                   (* 82-90 *)
    sum N (map (fun k => sq N (abs_diff (coord k x) (coord k c))) (seq 0 dim)).
  Definition taxicab (dim : nat) (x c : point) : A := sum N (map (fun k => abs_diff (coord k x) (coord k c)) (seq 0 dim)).  (* 102-110 *)
  Definition chebyshev (dim : nat) (x c : point) : A :=                                                           (* 92-100 *)
    match map (fun k => abs_diff (coord k x) (coord k c)) (seq 0 dim) with
    | [] => zero N
    | d :: ds => fold_left (fun a b => if gt N b a then b else a) ds d
    end.

  (** *** numpy.array_equal *)
  Fixpoint same (x y : point) : bool :=
    match x, y with [], [] => true | a :: x', b :: y' => (eq N a b && same x' y')%bool | _, _ => false end.
  (** self.uniques, 298-303, in the order of the last occurrences instead of numpy.unique's order of bytes *)
  Fixpoint uniques (l : list point) : list point :=
    match l with [] => [] | x :: l' => if existsb (same x) l' then uniques l' else x :: uniques l' end.

  (** *** newCluster, 325-334: draw until the point is none of the clusters *)
  Definition out_of_draws : exn := PyErr "out of draws".
  Fixpoint new_cluster (us clusters : list point) (draws : list nat) : res (point * list nat) :=
    match draws with
    | [] => Raise out_of_draws
    | i :: draws' =>
        let x := nth i us [] in
        if existsb (fun y => same y x) clusters then new_cluster us clusters draws' else Ok (x, draws')
    end.
  Fixpoint new_clusters (n : nat) (us clusters : list point) (draws : list nat) : res (list point * list nat) :=   (* 309-311 *)
    match n with
    | O => Ok (clusters, draws)
    | S n' => r <- new_cluster us clusters draws ;; new_clusters n' us (clusters ++ [fst r]) (snd r)
    end.
  (** __init__, 298-311 *)
  Definition init (k : nat) (dataset : list point) (draws : list nat) : res (list point * list nat) :=
    let us := uniques dataset in
    if Nat.leb (length us) k then Raise (PyErr "TypeError") else new_clusters k us [] draws.

  Variable metric : point -> point -> A.
  (** numpy.argmin: the first of the least *)
  Fixpoint argmin_from (i best : nat) (m : A) (l : list A) : nat :=
    match l with [] => best | x :: l' => if gt N m x then argmin_from (S i) i x l' else argmin_from (S i) best m l' end.
  Definition argmin (l : list A) : nat := match l with [] => O | x :: l' => argmin_from 1 0 x l' end.
  (** closestCluster, 357-381 *)
  Definition closest_cluster (dataset clusters : list point) : list nat := map (fun x => argmin (map (metric x) clusters)) dataset.

  (** *** iterate, 383-434 *)
  (** residuals *= weights[selection] (409): [m] rows and [dim] columns times a vector of length m. numpy lines the vector up
      with the columns: it multiplies the columns if m = dim, a single row if m = 1, and is an error otherwise. *)
  Definition scale (dim : nat) (ws : list A) (residuals : list point) : res (list point) :=
    let m := length residuals in
    if Nat.eqb m 1 then Ok (map (fun x => map (fun a => mul N a (nth 0 ws (zero N))) x) residuals)
    else if Nat.eqb m dim then Ok (map (fun x => map (fun k => mul N (coord k x) (nth k ws (zero N))) (seq 0 dim)) residuals)
    else Raise (PyErr "ValueError").
  Definition residuals_of (dim : nat) (c : point) (sel : list point) : list point :=
    map (fun x => map (fun k => sub N (coord k x) (coord k c)) (seq 0 dim)) sel.
  Definition mean_of (dim : nat) (l : list point) : point :=
    map (fun k => div N (sum N (map (coord k) l)) (ofn N (length l))) (seq 0 dim).
  Definition plus (dim : nat) (x y : point) : point := map (fun k => add N (coord k x) (coord k y)) (seq 0 dim).
  Fixpoint set_nth (n : nat) (x : point) (l : list point) : list point :=
    match l, n with [], _ => [] | _ :: l', O => x :: l' | y :: l', S n' => y :: set_nth n' x l' end.
  Fixpoint del_nth (n : nat) (l : list point) : list point :=
    match l, n with [], _ => [] | _ :: l', O => l' | y :: l', S n' => y :: del_nth n' l' end.
  Definition chosen {B} (classes : list nat) (j : nat) (l : list B) : list B := pick (map (fun i => Nat.eqb i j) classes) l.
  (** the body of the loop, 402-431: the clusters, the draws left and the correction, None for a jump *)
  Definition move (us : list point) (dim : nat) (minPoints : option nat) (dataset : list point) (weights : option (list A)) (classes : list nat)
      (j : nat) (clusters : list point) (draws : list nat) : res (list point * list nat * option point) :=
    let c := nth j clusters [] in
    let sel := chosen classes j dataset in
    residuals <- (match weights with
                  | None => Ok (residuals_of dim c sel)
                  | Some ws => scale dim (chosen classes j ws) (residuals_of dim c sel)
                  end) ;;
    let few := match minPoints with None => false | Some m => Nat.ltb (length sel) m end in
    if few then r <- new_cluster us clusters draws ;; Ok (set_nth j (fst r) clusters, snd r, None)
    else if Nat.eqb (length residuals) 0 then r <- new_cluster us (del_nth j clusters) draws ;; Ok (set_nth j (fst r) clusters, snd r, None)
    else let correction := mean_of dim residuals in
         Ok (set_nth j (plus dim c correction) clusters, draws, Some correction).
  Fixpoint moves (us : list point) (dim : nat) (minPoints : option nat) (dataset : list point) (weights : option (list A)) (classes : list nat)
      (js : list nat) (clusters : list point) (draws : list nat) : res (list point * list nat * list (option point)) :=
    match js with
    | [] => Ok (clusters, draws, [])
    | j :: js' =>
        r <- move us dim minPoints dataset weights classes j clusters draws ;;
        let '(cs, ds, corr) := r in
        r' <- moves us dim minPoints dataset weights classes js' cs ds ;;
        let '(cs', ds', corrs) := r' in Ok (cs', ds', corr :: corrs)
    end.
  Definition iterate us dim minPoints dataset weights clusters draws :=
    moves us dim minPoints dataset weights (closest_cluster dataset clusters) (seq 0 (length clusters)) clusters draws.

  (** *** stopping conditions, 198-262: continue if true *)
  Definition condition := nat -> list (option point) -> bool.
  Definition cluster_jumped : condition := fun _ cs => forallb (fun c => match c with Some _ => true | None => false end) cs.   (* 204 *)
  Definition max_iterations (n : nat) : condition := fun it _ => Nat.ltb it n.                                                 (* 212 *)
  Definition magnitude (a : A) : A := if gt N (zero N) a then opp N a else a.
  Definition small (threshold : A) (c : point) : bool := forallb (fun a => gt N threshold (magnitude a)) c.
  Definition present (cs : list (option point)) : list point := flat_map (fun c => match c with Some x => [x] | None => [] end) cs.
  Definition all_change (threshold : A) : condition := fun _ cs => negb (forallb (small threshold) (present cs)).               (* 222 *)
  (** 232: a quotient of numbers, nan if every cluster jumped *)
  Definition half_change (threshold : A) : condition := fun _ cs =>
    match present cs with
    | [] => false
    | l => Nat.ltb (2 * length (filter (small threshold) l)) (length l)
    end.
  Definition while_all (l : list condition) : condition := fun it cs => forallb (fun c => c it cs) l.                          (* 242 *)
  Definition while_any (l : list condition) : condition := fun it cs => existsb (fun c => c it cs) l.                          (* 252 *)
  Definition moving (tiny : A) : condition := while_all [cluster_jumped; all_change tiny].                                     (* 262 *)
  (** optimize, 474-490, without a limit on the points; the number of iterations is returned too *)
  Fixpoint optimize (fuel : nat) us dim minPoints dataset weights (cond : condition) (it : nat) (clusters : list point) (draws : list nat) : res (list point * nat) :=
    match fuel with
    | O => Raise (PyErr "out of fuel")
    | S fuel' =>
        r <- iterate us dim minPoints dataset weights clusters draws ;;
        let '(cs, ds, corrs) := r in
        if cond it corrs then optimize fuel' us dim minPoints dataset weights cond (S it) cs ds else Ok (cs, S it)
    end.

  (** *** pfaValue, 531-561 *)
  (** the order of Python lists of numbers and of the pairs (center, index) *)
  Fixpoint lex_le (x y : point) : bool :=
    match x, y with
    | [], _ => true
    | _ :: _, [] => false
    | a :: x', b :: y' => if eq N a b then lex_le x' y' else le N a b
    end.
  Fixpoint insert_by {B} (key : B -> point) (x : B) (l : list B) : list B :=
    match l with [] => [x] | y :: l' => if lex_le (key x) (key y) then x :: l else y :: insert_by key x l' end.
  Definition sort_by {B} (key : B -> point) (l : list B) : list B := fold_right (insert_by key) [] l.
  Record entry := Entry { e_center : point; e_population : option nat; e_id : string }.
  Definition population (classes : list nat) (j : nat) : nat := length (filter (fun i => Nat.eqb i j) classes).
  Definition pfa_value (ids : list string) (populations sort : bool) (dataset clusters : list point) : res (list entry) :=
    if negb (Nat.eqb (length ids) (length clusters)) then Raise (PyErr "TypeError")
    else
      let classes := closest_cluster dataset clusters in
      let out := map (fun jc => (snd jc, if populations : bool then Some (population classes (fst jc)) else None)) (combine (seq 0 (length clusters)) clusters) in
      let out' := if sort : bool then sort_by fst out else out in
      Ok (map (fun ie => Entry (fst (snd ie)) (snd (snd ie)) (fst ie)) (combine ids out')).
End Kmeans.

(** *** pfa of the metrics, 74-121: the function and its arguments after the similarity *)
Inductive metric_kind := KEuclidean | KSquaredEuclidean | KChebyshev | KTaxicab | KMinkowski (p : string).
Definition metric_pfa (m : metric_kind) (x y : string) : string * list string :=
  match m with
  | KEuclidean => ("metric.euclidean", [x; y])
  | KSquaredEuclidean => let x := "metricX" in let y := "metricY" in ("metric.squaredEuclidean", [x; y])
  | KChebyshev => let x := "metricX" in let y := "metricY" in ("metric.chebyshev", [x; y])
  | KTaxicab => let x := "metricX" in let y := "metricY" in ("metric.taxicab", [x; y])
  | KMinkowski p => let x := "metricX" in let y := "metricY" in ("metric.minkowski", [x; y])
  end.
(** pfaDocument, 563-613: the fields declared for a cluster, the parameters of the function given to model.cluster.closest and the names its body uses *)
Record document := Document { d_fields : list string; d_params : list string; d_uses : list string }.
Definition pfa_document (m : metric_kind) (populations : bool) : document :=
  Document (["id"] ++ (if populations then ["populations"] else []) ++ ["center"]) ["datum"; "clusterCenter"] (snd (metric_pfa m "datum" "clusterCenter")).
(** the fields of an element of pfaValue, 547-559 *)
Definition value_fields (populations : bool) : list string := ["center"] ++ (if populations then ["population"] else []) ++ ["id"].
