(** * Model of stat.test.kolmogorov (lib/stat/pfatest.py:44-72)

    The values are of any type with a total order; the type is generic because the code only compares them. [None]
    stands for NaN. The quotients [float(j)/n] and the difference [d] are exact rational numbers: rounding is not
    modelled. The last step, from the statistic [d] to a probability, is not modelled (it needs sqrt, exp and a
    truncated series, pfatest.py:67-83) except that it divides by a number that is zero when [d] is. *)
From Coq Require Import List Bool ZArith QArith Qabs.
Import ListNotations.

Section Ks.
  Variable T : Type.
  Variable leb : T -> T -> bool.

  (** [sorted]: insertion, stable like Python's *)
  Fixpoint insort (x : T) (l : list T) : list T :=
    match l with
    | [] => [x]
    | y :: r => if leb x y then x :: l else y :: insort x r
    end.
  Fixpoint py_sorted (l : list T) : list T :=
    match l with [] => [] | x :: r => insort x (py_sorted r) end.

  (** pfatest.py:49-50, [[xi for xi in x if not math.isnan(xi)]] *)
  Fixpoint not_nan (l : list (option T)) : list T :=
    match l with [] => [] | Some x :: r => x :: not_nan r | None :: r => not_nan r end.

  (** pfatest.py:53, [x == y] on lists of floats *)
  Fixpoint lists_equal (x y : list T) : bool :=
    match x, y with
    | [], [] => true
    | a :: x', b :: y' => leb a b && leb b a && lists_equal x' y'
    | _, _ => false
    end.

  (** [float(j)/n] *)
  Definition quotient (j n : nat) : Q := (inject_Z (Z.of_nat j) / inject_Z (Z.of_nat n))%Q.

  (** pfatest.py:58-71, the while loop; [xs] and [ys] are [x[j1:]] and [y[j2:]]. [None] stands for a loop that did
      not end within [fuel] turns. *)
  Fixpoint ks_loop (fuel n1 n2 j1 j2 : nat) (xs ys : list T) (fn1 fn2 d : Q) : option Q :=
    match xs, ys with
    | d1 :: xs', d2 :: ys' =>
        match fuel with
        | O => None
        | S fuel' =>
            let '(j1', xs'', fn1') := if leb d1 d2 then (S j1, xs', quotient (S j1) n1) else (j1, xs, fn1) in
            let '(j2', ys'', fn2') := if leb d2 d1 then (S j2, ys', quotient (S j2) n2) else (j2, ys, fn2) in
            let dt := Qabs (fn2' - fn1') in
            ks_loop fuel' n1 n2 j1' j2' xs'' ys'' fn1' fn2' (if Qle_bool dt d then d else dt)
        end
    | _, _ => Some d
    end.

  Inductive ks_result :=
  | KsEqual             (* 54: returns 1.0 *)
  | KsEmpty             (* 56: returns 0.0 *)
  | KsStatistic (d : Q) (* 68-70: returns 1.0 - cdf((en + 0.12 + 0.11/en)*d), which divides by that product *).

  (** pfatest.py:48-70 *)
  Definition kolmogorov (x y : list (option T)) : option ks_result :=
    let x := py_sorted (not_nan x) in
    let y := py_sorted (not_nan y) in
    if lists_equal x y then Some KsEqual
    else match x, y with
         | [], _ | _, [] => Some KsEmpty
         | _, _ =>
             option_map KsStatistic
               (ks_loop (length x + length y) (length x) (length y) 0 0 x y 0%Q 0%Q 0%Q)
         end.
End Ks.

Arguments insort {T}. Arguments py_sorted {T}. Arguments not_nan {T}. Arguments lists_equal {T}.
Arguments ks_loop {T}. Arguments kolmogorov {T}.
