(** Model of lib/metric.py: distances between vectors with missing values, and binary similarities.

    Arithmetic is exact (rationals): rounding is not modelled, and neither are infinite or nan inputs.
    The infinite and nan results of [div] (util.py:84-105) are values of [ext]. A square root is
    represented by its square ([Root q] is math.sqrt of q). *)
From Coq Require Import QArith Qabs.
From Verif Require Import Base Effects.
Open Scope string_scope.
Open Scope list_scope.
Open Scope Z_scope.

Inductive ext := Fin (q : Q) | Root (q : Q) | PInf | NInf | NaN.

Definition q_lt (a b : Q) : bool := negb (Qle_bool b a).

(** div, util.py:84-105. *)
Definition pfa_div (numer denom : Q) : ext :=
  if Qeq_bool denom 0 then
    if q_lt 0 numer then PInf else if q_lt numer 0 then NInf else NaN
  else Fin (numer / denom)%Q.

(** math.sqrt, of a number or nan. *)
Definition py_sqrt (x : ext) : res ext :=
  match x with
  | Fin q => if q_lt q 0 then Raise (PyErr "ValueError") else Ok (Root q)
  | NaN => Ok NaN
  | _ => Raise (PyErr "ValueError")   (* not reached *)
  end.

(** SimpleEuclidean.__call__, lib/metric.py:44-47. *)
Fixpoint sum_squares (x y : list Q) : Q :=
  match x, y with
  | xi :: x', yi :: y' => ((xi - yi) * (xi - yi) + sum_squares x' y')%Q
  | _, _ => 0%Q
  end.
Definition simpleEuclidean (x y : list Q) : res ext :=
  if negb (Nat.eqb (length x) (length y)) then Raise (PFAErr 28000)
  else py_sqrt (Fin (sum_squares x y)).
(** AbsDiff.__call__, lib/metric.py:54-55. *)
Definition absDiff (x y : Q) : Q := Qabs (x - y).

Section Missing.
  Context {S A B : Type}.
  (** The loop of MetricWithMissingValues, lib/metric.py:73-86 (and of Minkowski, 163-175, 181-191): a
      missing value is None; [increment] may raise. *)
  Fixpoint tally_loop (increment : Q -> Q -> res Q) (similarity : A -> B -> M S Q)
           (x : list (option A)) (y : list (option B)) (w : list Q) (tally numer denom : Q) : M S (Q * Q * Q) :=
    match x, y, w with
    | xi :: x', yi :: y', wi :: w' =>
        match xi, yi with
        | Some a, Some b =>
            z <~ similarity a b ;;
            tally' <~ lift (increment tally z) ;;
            tally_loop increment similarity x' y' w' tally' (numer + wi)%Q (denom + wi)%Q
        | _, _ => tally_loop increment similarity x' y' w' tally (numer + wi)%Q denom
        end
    | _, _, _ => ret (tally, numer, denom)
    end.
  (** lib/metric.py:69-70 *)
  Definition weights (x : list (option A)) (missingWeight : option (list Q)) : list Q :=
    match missingWeight with Some w => w | None => map (fun _ => 1%Q) x end.
  (** MetricWithMissingValues.__call__, lib/metric.py:67-90. Values of union type are unwrapped
      beforehand (80-83). *)
  Definition metric_missing (code : Z) (increment : Q -> Q -> res Q) (finalize : ext -> res ext)
             (similarity : A -> B -> M S Q) (x : list (option A)) (y : list (option B))
             (missingWeight : option (list Q)) : M S ext :=
    let w := weights x missingWeight in
    if negb (Nat.eqb (length y) (length x)) || negb (Nat.eqb (length w) (length x)) then raise (PFAErr code)
    else
      tnd <~ tally_loop increment similarity x y w 0%Q 0%Q 0%Q ;;
      let '(tally, numer, denom) := tnd in
      if Qeq_bool denom 0 then lift (finalize NaN)
      else lift (finalize (Fin (tally * numer / denom)%Q)).

  (** lib/metric.py:92-142 *)
  Definition inc_square (tally x : Q) : res Q := Ok (tally + x * x)%Q.
  Definition inc_max (tally x : Q) : res Q := Ok (if q_lt tally x then x else tally).
  Definition inc_sum (tally x : Q) : res Q := Ok (tally + x)%Q.
  Definition euclidean := metric_missing 28030 inc_square py_sqrt.
  Definition squaredEuclidean := metric_missing 28040 inc_square (@Ok ext).
  Definition chebyshev := metric_missing 28050 inc_max (@Ok ext).
  Definition taxicab := metric_missing 28060 inc_sum (@Ok ext).

  (** The parameter p of Minkowski: a number, nan or an infinity. *)
  Inductive pparam := PNum (p : Q) | PInfinite | PNegInfinite | PNan.
  (** Minkowski.__call__, lib/metric.py:151-195; [powLikeJava] (lib/core.py) is a parameter. *)
  Definition minkowski (powLikeJava : Q -> Q -> res Q) (similarity : A -> B -> M S Q)
             (x : list (option A)) (y : list (option B)) (p : pparam) (missingWeight : option (list Q)) : M S ext :=
    let w := weights x missingWeight in
    if negb (Nat.eqb (length y) (length x)) || negb (Nat.eqb (length w) (length x)) then raise (PFAErr 28070)
    else
      match p with
      | PNan | PNegInfinite => raise (PFAErr 28071)
      | PInfinite =>
          tnd <~ tally_loop (fun tally z => Ok (if q_lt tally z then z else tally)) similarity x y w 0%Q 0%Q 0%Q ;;
          let '(tally, numer, denom) := tnd in
          if Qeq_bool denom 0 then ret NaN else ret (Fin (tally * numer / denom)%Q)
      | PNum q =>
          if Qle_bool q 0 then raise (PFAErr 28071)
          else
            tnd <~ tally_loop (fun tally z => t <- powLikeJava z q ;; Ok (tally + t)%Q) similarity x y w 0%Q 0%Q 0%Q ;;
            let '(tally, numer, denom) := tnd in
            if Qeq_bool denom 0 then ret NaN
            else r <~ lift (powLikeJava (tally * numer / denom)%Q (1 / q)%Q) ;; ret (Fin r)
      end.
End Missing.

(** ** Binary metrics *)
(** a00, a01, a10, a11 *)
Record pair_counts := Pairs { a00 : Z; a01 : Z; a10 : Z; a11 : Z }.
(** BinaryMetric.countPairs, lib/metric.py:199-209. *)
Fixpoint count_loop (c : pair_counts) (x y : list bool) : pair_counts :=
  match x, y with
  | xi :: x', yi :: y' =>
      let c1 := if xi && yi then Pairs (a00 c) (a01 c) (a10 c) (a11 c + 1) else c in
      let c2 := if xi && negb yi then Pairs (a00 c1) (a01 c1) (a10 c1 + 1) (a11 c1) else c1 in
      let c3 := if negb xi && yi then Pairs (a00 c2) (a01 c2 + 1) (a10 c2) (a11 c2) else c2 in
      let c4 := if negb xi && negb yi then Pairs (a00 c3 + 1) (a01 c3) (a10 c3) (a11 c3) else c3 in
      count_loop c4 x' y'
  | _, _ => c
  end.
Definition countPairs (x y : list bool) : pair_counts := count_loop (Pairs 0 0 0 0) x y.
Definition binary (code : Z) (score : pair_counts -> ext) (x y : list bool) : res ext :=
  if negb (Nat.eqb (length y) (length x)) then Raise (PFAErr code) else Ok (score (countPairs x y)).
(** SimpleMatching, Jaccard, Tanimoto, BinarySimilarity, lib/metric.py:211-257. *)
Definition simpleMatching := binary 28080 (fun c =>
  pfa_div (inject_Z (a11 c + a00 c)) (inject_Z (a11 c + a10 c + a01 c + a00 c))).
Definition jaccard := binary 28090 (fun c =>
  pfa_div (inject_Z (a11 c)) (inject_Z (a11 c + a10 c + a01 c))).
Definition tanimoto := binary 28100 (fun c =>
  pfa_div (inject_Z (a11 c + a00 c)) (inject_Z (a11 c + 2 * (a10 c + a01 c) + a00 c))).
Definition binarySimilarity (x y : list bool) (c00 c01 c10 c11 d00 d01 d10 d11 : Q) : res ext :=
  binary 28110 (fun c =>
    pfa_div (c11 * inject_Z (a11 c) + c10 * inject_Z (a10 c) + c01 * inject_Z (a01 c) + c00 * inject_Z (a00 c))
            (d11 * inject_Z (a11 c) + d10 * inject_Z (a10 c) + d01 * inject_Z (a01 c) + d00 * inject_Z (a00 c)))%Q x y.
