(** Model of lib/model/cluster.py and lib/model/neighbor.py: nearest clusters, k-means, nearest
    neighbours.

    A user function passed as an argument (metric, weight, update, newCluster) is an effectful
    computation ([M S _], Effects.v). Distances are binary64 floats, compared with Python's [<]
    (false when a nan is involved). The centre coordinates that are averaged (updateMean,
    neighbor.mean) are exact rationals, as in StatModel: rounding, infinities and nan in these
    averages are not modelled. A cluster record is any type [C] with its field "center". *)
From Coq Require Import QArith SpecFloat.
From Verif Require Import Base PyNum Effects ArrayModel StatModel.
Open Scope string_scope.
Open Scope list_scope.
Open Scope Z_scope.

(** Python's [a < b] on floats; [lambda a, b: a < b], cluster.py:52,70, neighbor.py:99. *)
Definition flt (a b : pf) : bool := num_lt (NF a) (NF b).

(** [d**2] on a float: C's pow, which Python turns into an OverflowError when the result is too
    large. Simplified: pow(d, 2.0) is taken to be the correctly rounded d*d. *)
Definition py_sq (d : pf) : res pf :=
  let r := fmul d d in
  if isinf r && negb (isinf d) then Raise (PyErr "OverflowError") else Ok r.

(** [sum((di - xi)**2 for di, xi in zip(datum, x))], cluster.py:51,69, neighbor.py:97,115,
    interp.py:102. The int 0 with which [sum] starts is written as the float 0. *)
Fixpoint sum_sq (acc : pf) (datum x : list pf) : res pf :=
  match datum, x with
  | di :: datum', xi :: x' => q <- py_sq (fsub di xi) ;; sum_sq (fadd acc q) datum' x'
  | _, _ => Ok acc
  end.
Definition sqdist (datum x : list pf) : res pf := sum_sq f0 datum x.

(** [l[i]] for an index returned by argLowestN. *)
Definition pick {X} (l : list X) (i : Z) : res X :=
  match (if i <? 0 then None else nth_error l (Z.to_nat i)) with
  | Some x => Ok x
  | None => Raise (PyErr "IndexError")
  end.
Fixpoint picks {X} (l : list X) (is_ : list Z) : res (list X) :=
  match is_ with
  | [] => Ok []
  | i :: is' => x <- pick l i ;; r <- picks l is' ;; Ok (x :: r)
  end.

Section Clusters.
  Context {S A B C : Type} (center : C -> B).

  (** [[callfcn(state, scope, metric, [datum, x["center"]]) for x in clusters]], cluster.py:49,67;
      without a metric argument the metric is [fun d c => lift (sqdist d c)] (51, 69). *)
  Definition distances (metric : A -> B -> M S pf) (datum : A) (clusters : list C) : M S (list pf) :=
    mapM (fun x => metric datum (center x)) clusters.

  (** Closest.__call__, cluster.py:44-53. *)
  Definition closest (datum : A) (clusters : list C) (metric : A -> B -> M S pf) : M S C :=
    match clusters with
    | [] => raise (PFAErr 29000)
    | _ =>
        ds <~ distances metric datum clusters ;;
        l <~ lift (argLowestN flt ds 1) ;;
        match l with
        | [index] => lift (pick clusters index)
        | _ => raise (PyErr "ValueError")
        end
    end.

  (** ClosestN.__call__, cluster.py:62-71. *)
  Definition closestN (n : Z) (datum : A) (clusters : list C) (metric : A -> B -> M S pf) : M S (list C) :=
    if n <? 0 then raise (PFAErr 29010)
    else
      ds <~ distances metric datum clusters ;;
      indexes <~ lift (argLowestN flt ds n) ;;
      lift (picks clusters indexes).

  (** The while loop of KMeansIteration over the centers, cluster.py:117-128; the state of the loop
      is i, besti and, once a center has been seen, its distance ([bestCenter is None] before). *)
  Fixpoint best_center (metric : A -> B -> M S pf) (datum : A) (centers : list B) (i besti : Z)
           (best : option pf) : M S Z :=
    match centers with
    | [] => ret besti
    | c :: cs =>
        d <~ metric datum c ;;
        if match best with None => true | Some b => flt d b end
        then best_center metric datum cs (i + 1) i (Some d)
        else best_center metric datum cs (i + 1) besti best
    end.

  (** [matched[besti].append(datum)], cluster.py:129. *)
  Fixpoint append_at (matched : list (list A)) (i : Z) (datum : A) : list (list A) :=
    match matched with
    | [] => []
    | m :: ms => if i =? 0 then (m ++ [datum]) :: ms else m :: append_at ms (i - 1) datum
    end.

  (** cluster.py:116-129 *)
  Definition assign (metric : A -> B -> M S pf) (clusters : list C) (matched : list (list A)) (datum : A)
    : M S (list (list A)) :=
    besti <~ best_center metric datum (map center clusters) 0 0 None ;;
    ret (append_at matched besti datum).

  (** cluster.py:131-136 *)
  Fixpoint refresh (update : list A -> C -> M S C) (matched : list (list A)) (clusters : list C) : M S (list C) :=
    match matched, clusters with
    | m :: ms, c :: cs =>
        c' <~ (match m with [] => ret c | _ => update m c end) ;;
        cs' <~ refresh update ms cs ;;
        ret (c' :: cs')
    | _, _ => ret []
    end.

  (** KMeansIteration.__call__, cluster.py:104-137. *)
  Definition kmeansIteration (data : list A) (clusters : list C) (metric : A -> B -> M S pf)
             (update : list A -> C -> M S C) : M S (list C) :=
    match data with
    | [] => raise (PFAErr 29030)
    | _ =>
        match clusters with
        | [] => raise (PFAErr 29031)
        | _ =>
            matched <~ foldM (assign metric clusters) (map (fun _ => []) clusters) data ;;
            refresh update matched clusters
        end
    end.

  (** RandomSeeds.__call__, cluster.py:78-97. A datum is a vector of items of type [X] (with [x in
      uniques] deciding by [eqb]); [shuffle] is state.rand.shuffle, newCluster gets the position
      and the vector. *)
  Fixpoint uniques_of {X} (eqb : X -> X -> bool) (uniques data : list X) : list X :=
    match data with
    | [] => uniques
    | x :: data' => uniques_of eqb (if existsb (eqb x) uniques then uniques else uniques ++ [x]) data'
    end.
  Definition same_size {X} (uniques : list (list X)) : bool :=
    match uniques with
    | [] => false   (* the set of sizes is empty *)
    | x :: l => forallb (fun y => Nat.eqb (length y) (length x)) l
    end.
  Definition randomSeeds {X} (eqb : list X -> list X -> bool) (shuffle : list (list X) -> M S (list (list X)))
             (data : list (list X)) (k : Z) (newCluster : Z -> list X -> M S C) : M S (list C) :=
    if k <=? 0 then raise (PFAErr 29020)
    else
      let uniques := uniques_of eqb [] data in
      if Z.of_nat (length uniques) <? k then raise (PFAErr 29021)
      else if negb (same_size uniques) then raise (PFAErr 29022)
      else
        shuffled <~ shuffle uniques ;;
        mapM (fun iv => newCluster (fst iv) (snd iv)) (enum (firstn (Z.to_nat k) shuffled)).
End Clusters.

(** [summ[i] += vec[i] for i in range(dimension)], cluster.py:154-155, 160-161. *)
Fixpoint vadd (a b : list Q) : list Q :=
  match a, b with x :: a', y :: b' => (x + y)%Q :: vadd a' b' | _, _ => [] end.
Definition vscale (w : Q) (a : list Q) : list Q := map (fun x => (w * x)%Q) a.
Fixpoint add_vectors (dimension : nat) (summ : list Q) (data : list (list Q)) : res (list Q) :=
  match data with
  | [] => Ok summ
  | vec :: data' =>
      if negb (Nat.eqb (length vec) dimension) then Raise (PFAErr 29041)
      else add_vectors dimension (vadd summ vec) data'
  end.
(** UpdateMean.__call__, cluster.py:144-167. A coordinate that would be infinite or nan
    (denom == 0) is None. Only the new center is modelled: [dict(cluster, center=summ)] keeps the
    other fields. *)
Definition updateMean (data : list (list Q)) (vec : list Q) (weight : Q) : res (list (option Q)) :=
  match data with
  | [] => Raise (PFAErr 29040)
  | v0 :: _ =>
      let dimension := length v0 in
      summ <- add_vectors dimension (map (fun _ => 0%Q) v0) data ;;
      if negb (Nat.eqb (length vec) dimension) then Raise (PFAErr 29041)
      else
        let denom := (inject_Z (Z.of_nat (length data)) + weight)%Q in
        Ok (map (fun x => qdiv x denom) (vadd summ (vscale weight vec)))
  end.

Section Neighbors.
  Context {S : Type}.

  (** neighbor.py:57-68. [denom[i]] is the same for every i: one number. *)
  Fixpoint mean_loop (dimensions : nat) (weight : list Q -> M S Q) (numer : list Q) (denom : Q)
           (points : list (list Q)) : M S (list Q * Q) :=
    match points with
    | [] => ret (numer, denom)
    | point :: points' =>
        if negb (Nat.eqb (length point) dimensions) then raise (PFAErr 30001)
        else w <~ weight point ;;
             mean_loop dimensions weight (vadd numer (vscale w point)) (denom + w)%Q points'
    end.
  (** [numer[i] /= denom[i]] with Python's [/], neighbor.py:70-71. *)
  Fixpoint divide_all (numer : list Q) (denom : Q) : res (list Q) :=
    match numer with
    | [] => Ok []
    | x :: l => if Qeq_bool denom 0 then Raise (PyErr "ZeroDivisionError")
                else r <- divide_all l denom ;; Ok ((x / denom)%Q :: r)
    end.
  (** Mean.__call__, neighbor.py:45-72; without a weight argument [weight] is [fun _ => ret 1]. *)
  Definition n_mean (points : list (list Q)) (weight : list Q -> M S Q) : M S (list Q) :=
    match points with
    | [] => raise (PFAErr 30000)
    | p0 :: _ =>
        nd <~ mean_loop (length p0) weight (map (fun _ => 0%Q) p0) 0%Q points ;;
        lift (divide_all (fst nd) (snd nd))
    end.

  (** NearestK.__call__ with a metric, neighbor.py:82-88,99-100. *)
  Definition nearestK {A B} (k : Z) (datum : A) (codebook : list B) (metric : A -> B -> M S pf) : M S (list B) :=
    if k <? 0 then raise (PFAErr 30010)
    else
      ds <~ mapM (metric datum) codebook ;;
      indexes <~ lift (argLowestN flt ds k) ;;
      lift (picks codebook indexes).
  (** NearestK.__call__ without a metric, neighbor.py:82-84,90-100. *)
  Definition nearestK_default (k : Z) (datum : list pf) (codebook : list (list pf)) : M S (list (list pf)) :=
    if k <? 0 then raise (PFAErr 30010)
    else match codebook with
         | [] => ret []
         | _ =>
             if negb (forallb (fun x => Nat.eqb (length x) (length datum)) codebook) then raise (PFAErr 30011)
             else
               ds <~ mapM (fun x => lift (sqdist datum x)) codebook ;;
               indexes <~ lift (argLowestN flt ds k) ;;
               lift (picks codebook indexes)
         end.

  (** BallR.__call__, neighbor.py:110-116; without a metric the metric is [ball_metric]. *)
  Definition ballR {A B} (r : pf) (datum : A) (codebook : list B) (metric : A -> B -> M S pf) : M S (list B) :=
    ds <~ mapM (metric datum) codebook ;;
    ret (map fst (filter (fun xd : B * pf => flt (snd xd) r) (combine codebook ds))).
  (** [math.sqrt(sum(...))], neighbor.py:115; a sum of squares is never negative, so that
      math.sqrt does not raise. *)
  Definition ball_metric (datum x : list pf) : M S pf :=
    lift (d <- sqdist datum x ;; Ok (SFsqrt 53 1024 d)).
End Neighbors.
