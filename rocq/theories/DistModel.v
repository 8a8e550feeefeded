(** Model of m.special.nChooseK (lib/spec.py:35-45, 315-337) and of the discrete distributions of prob.dist
    (lib/prob/dist.py), over the reals: rounding, infinities and NaN are not modelled, so neither are the checks for them. *)
From Coq Require Import Reals Lra.
From Verif Require Import Base.
Open Scope list_scope.

(** math.lgamma(m + 1.0) for a whole m that is not negative: the logarithm of m! *)
Definition lgamma1 (m : Z) : R := ln (INR (fact (Z.to_nat m))).
(** round(b): the nearest whole number, the even one of two *)
Definition py_round (b : R) : Z :=
  let f := Int_part b in
  let r := (b - IZR f)%R in
  if Rlt_dec r (1 / 2) then f else if Rlt_dec (1 / 2) r then (f + 1)%Z else if Z.even f then f else (f + 1)%Z.
(** pow(b, e) for a whole e *)
Definition py_pow (b : R) (e : Z) : res R :=
  if (e <? 0)%Z then (if Req_EM_T b 0 then Raise (PyErr "ZeroDivisionError") else Ok (powerRZ b e)) else Ok (powerRZ b e).

(** nChooseK, spec.py:315-337, for whole n and k. After 320 and 322 neither the case n < 0 (323) nor the case n < k (333) is left. *)
Definition nChooseK (n k : Z) : res Z :=
  if (n =? k)%Z || (k =? 0)%Z then Ok 1%Z
  else if (n <? k)%Z || (k <? 0)%Z then Raise (PyErr "Exception")
  else Ok (py_round (exp (lgamma1 n - lgamma1 k - lgamma1 (n - k)))).
(** NChooseK.__call__, 39-44 *)
Definition lib_nChooseK (n k : Z) : res Z :=
  if (n =? k)%Z then Raise (PFAErr 36000)
  else match nChooseK n k with Ok z => Ok z | Raise _ => Raise (PFAErr 36000) end.

Open Scope R_scope.
Definition rlt (a b : R) : bool := if Rlt_dec a b then true else false.
Definition rle (a b : R) : bool := if Rle_dec a b then true else false.
Definition req (a b : R) : bool := if Req_EM_T a b then true else false.

(** A loop [while cont(p0): p0 = p0 + PDF(x); x += 1] followed by [return x - 1]; None: not finished after [fuel] turns *)
Fixpoint search (pdf : Z -> res R) (cont : R -> bool) (fuel : nat) (x : Z) (p0 : R) : option (res Z) :=
  match fuel with
  | O => None
  | S f => if cont p0 then
             match pdf x with Ok d => search pdf cont f (x + 1) (p0 + d) | Raise e => Some (Raise e) end
           else Some (Ok (x - 1)%Z)
  end.
(** for i in range(0, n): val = val + PDF(i) *)
Fixpoint add_pdf (pdf : Z -> res R) (is : list Z) (val : R) : res R :=
  match is with [] => Ok val | i :: r => d <- pdf i ;; add_pdf pdf r (val + d) end.
Definition range (n : Z) : list Z := map Z.of_nat (seq 0 (Z.to_nat n)).

(** *** Binomial *)
(** BinomialDistribution.PDF, 1443-1453 *)
Definition bin_PDF (n : Z) (prob : R) (x : Z) : res R :=
  if (x <? 0)%Z then Ok 0
  else
    c <- (if (x =? 0)%Z then Ok 1%Z else if (x <? 0)%Z || (n <? x)%Z then Ok 0%Z else nChooseK n x) ;;
    a <- py_pow prob x ;;
    b <- py_pow (1 - prob) (n - x) ;;
    Ok (IZR c * a * b).
Definition bad_binomial (size : Z) (prob : R) : bool := (size <=? 0)%Z || rlt prob 0 || rlt 1 prob.
(** BinomialPDF.__call__, 593-603 *)
Definition binomialPDF (x size : Z) (prob : R) : res R :=
  if bad_binomial size prob then Raise (PFAErr 13300)
  else if (x <? 0)%Z then Ok 0
  else if (size <=? x)%Z then Ok 0
  else bin_PDF size prob x.
(** BinomialCDF.__call__, 610-627, and BinomialDistribution.CDF, 1455-1465. [ibeta x a b]: incompleteBetaFunction of spec.py:140-150 *)
Definition binomialCDF (ibeta : R -> Z -> Z -> R) (x : R) (size : Z) (prob : R) : res R :=
  if bad_binomial size prob then Raise (PFAErr 13310)
  else if rlt x 0 then Ok 0
  else if rle (IZR size) x then Ok 1
  else if req prob 1 then (if rlt x (IZR size) then Ok 0 else Ok 1)
  else if req prob 0 then Ok 1
  else
    let k := Int_part x in
    Ok (ibeta (1 - prob) (size - k)%Z (1 + k)%Z).
(** BinomialQF.__call__, 634-645, and BinomialDistribution.QF, 1467-1485 *)
Definition binomialQF (fuel : nat) (p : R) (size : Z) (prob : R) : option (res Z) :=
  if bad_binomial size prob then Some (Raise (PFAErr 13320))
  else if negb (rle 0 p && rle p 1) then Some (Raise (PFAErr 13321))
  else if req p 1 then Some (Ok size)
  else if req p 0 then Some (Ok 0%Z)
  else search (bin_PDF size prob) (fun p0 => rlt p0 p) fuel 0 0.

(** *** Geometric *)
Definition bad_geometric (prob : R) : bool := rle prob 0 || rlt 1 prob.
(** GeometricPDF.__call__, 690-696, and GeometricDistribution.PDF, 1534-1538 *)
Definition geometricPDF (x : Z) (prob : R) : res R :=
  if bad_geometric prob then Raise (PFAErr 13360)
  else if (x <? 0)%Z then Ok 0
  else a <- py_pow (1 - prob) x ;; Ok (prob * a).
(** GeometricCDF.__call__, 703-709, and GeometricDistribution.CDF, 1540-1545 *)
Definition geometricCDF (x : R) (prob : R) : res R :=
  if bad_geometric prob then Raise (PFAErr 13370)
  else if rlt x 0 then Ok 0
  else a <- py_pow (1 - prob) (Int_part x + 1) ;; Ok (1 - a).
(** a quantile: a whole number or infinity *)
Inductive quantile := Whole (z : Z) | Infinite.
(** GeometricQF.__call__, 716-724, and GeometricDistribution.QF, 1547-1560 *)
Definition geometricQF (p prob : R) : res quantile :=
  if bad_geometric prob then Raise (PFAErr 13380)
  else if negb (rle 0 p && rle p 1) then Raise (PFAErr 13381)
  else if req p 1 then Ok Infinite
  else if rlt 0 p && rlt p 1 then
    (if req prob 1 then Ok (Whole 0) else Ok (Whole (Int_part (ln (1 - p) / ln (1 - prob)))))
  else Ok (Whole 0).

(** *** Hypergeometric *)
Definition bad_hyper (m n k : Z) : bool := (m + n <? k)%Z || (m <? 0)%Z || (n <=? 0)%Z || (m + n =? 0)%Z || (k <? 0)%Z.
(** HypergeometricDistribution.PDF, 1574-1597 *)
Definition hyp_PDF (m n k x : Z) : res R :=
  c1 <- (if (x =? 0)%Z then Ok 1%Z else if (x <? 0)%Z || (m <=? x)%Z then Ok 0%Z else nChooseK m x) ;;
  c2 <- (if (k - x =? 0)%Z then Ok 1%Z else if (k - x <? 0)%Z || (n <? k - x)%Z then Ok 0%Z else nChooseK n (k - x)) ;;
  c3 <- (if (k =? 0)%Z then Ok 1%Z else if (k <? 0)%Z || (m + n <? k)%Z then Ok 0%Z else nChooseK (m + n) k) ;;
  if (c3 =? 0)%Z then Raise (PyErr "ZeroDivisionError") else Ok (IZR c1 * IZR c2 / IZR c3).
(** HypergeometricPDF.__call__, 732-740 *)
Definition hypergeometricPDF (x m n k : Z) : res R :=
  if bad_hyper m n k then Raise (PFAErr 13390) else if (m <? x)%Z then Ok 0 else hyp_PDF m n k x.
(** HypergeometricCDF.__call__, 747-755, and HypergeometricDistribution.CDF, 1599-1606 *)
Definition hypergeometricCDF (x m n k : Z) : res R :=
  if bad_hyper m n k then Raise (PFAErr 13400) else if (m <? x)%Z then Ok 0 else add_pdf (hyp_PDF m n k) (range (x + 1)) 0.
(** HypergeometricQF.__call__, 762-769, and HypergeometricDistribution.QF, 1608-1622 *)
Definition hypergeometricQF (fuel : nat) (p : R) (m n k : Z) : option (res Z) :=
  if bad_hyper m n k then Some (Raise (PFAErr 13410))
  else if negb (rle 0 p && rle p 1) then Some (Raise (PFAErr 13411))
  else if req p 1 then Some (Ok k)
  else search (hyp_PDF m n k) (fun p0 => rle p0 p) fuel 0 0.

(** *** Negative binomial *)
Definition bad_negbin (size : Z) (prob : R) : bool := rlt 1 prob || rle prob 0 || (size <? 0)%Z.
(** NegativeBinomialDistribution.PDF, 1684-1704 *)
Definition neg_PDF (n : Z) (prob : R) (x : Z) : res R :=
  if (n =? 0)%Z && (x =? 0)%Z then Ok 1
  else if (n =? 0)%Z then Ok 0
  else if req prob 1 && negb (x =? 0)%Z then Ok 0
  else if req prob 1 then Ok 1
  else if (0 <=? x)%Z then
    c <- (if (x =? 0)%Z then Ok 1%Z else nChooseK (n + x - 1) x) ;;
    a <- py_pow (1 - prob) x ;;
    b <- py_pow prob n ;;
    Ok (IZR c * a * b)
  else Ok 0.
(** NegativeBinomialPDF.__call__, 820-830 *)
Definition negativeBinomialPDF (x size : Z) (prob : R) : res R :=
  if bad_negbin size prob then Raise (PFAErr 13450)
  else if (x =? 0)%Z && (size =? 0)%Z then Ok 1
  else if (size =? 0)%Z then Ok 0
  else neg_PDF size prob x.
(** NegativeBinomialCDF.__call__, 837-849, and NegativeBinomialDistribution.CDF, 1706-1714 *)
Definition negativeBinomialCDF (x : R) (size : Z) (prob : R) : res R :=
  if bad_negbin size prob then Raise (PFAErr 13460)
  else if req x 0 && (size =? 0)%Z then Ok 1
  else if (size =? 0)%Z then Ok 0
  else if rlt x 0 then Ok 0
  else add_pdf (neg_PDF size prob) (range (Int_part (x + 1))) 0.
(** NegativeBinomialQF.__call__, 856-870, and NegativeBinomialDistribution.QF, 1716-1759. [w]: the estimate of 1735-1743,
    which is given as the result when it is more than 100000 (1752). *)
Definition negativeBinomialQF (w : Z) (fuel : nat) (p : R) (size : Z) (prob : R) : option (res quantile) :=
  if bad_negbin size prob then Some (Raise (PFAErr 13470))
  else if negb (rle 0 p && rle p 1) then Some (Raise (PFAErr 13471))
  else if (size =? 0)%Z then Some (Ok (Whole 0))
  else if req p 1 then Some (Ok Infinite)
  else if req p 0 then Some (Ok (Whole 0))
  else if req prob 1 then Some (Ok (Whole 0))
  else if (100000 <? w)%Z then Some (Ok (Whole w))
  else match search (neg_PDF size prob) (fun s => rle s p) fuel 0 0 with
       | None => None
       | Some (Ok z) => Some (Ok (Whole z))
       | Some (Raise e) => Some (Raise e)
       end.

(** *** Poisson *)
(** PoissonPDF.__call__, 248-259, and PoissonDistribution.PDF, 1034-1043 *)
Definition poissonPDF (x : Z) (lamda : R) : res R :=
  if rlt lamda 0 then Raise (PFAErr 13090)
  else if req lamda 0 then (if negb (x =? 0)%Z then Ok 0 else Ok 1)
  else if (x <? 0)%Z then Ok 0
  else Ok (exp (IZR x * ln lamda - lamda - lgamma1 x)).
(** PoissonCDF.__call__, 266-277, and PoissonDistribution.CDF, 1045-1056. [gammaQ a x]: regularizedGammaQ of spec.py:255-264 *)
Definition poissonCDF (gammaQ : Z -> R -> R) (x : Z) (lamda : R) : res R :=
  if rlt lamda 0 then Raise (PFAErr 13100)
  else if req lamda 0 then (if (0 <=? x)%Z then Ok 1 else Ok 0)
  else if (0 <=? x)%Z then Ok (gammaQ (x + 1)%Z lamda) else Ok 0.
(** the loop of 1072-1077: [while p0 <= p: p0 = CDF(x); x += 1] *)
Fixpoint poi_search (cdf : Z -> R) (p : R) (fuel : nat) (x : Z) (p0 : R) : option (res quantile) :=
  match fuel with
  | O => None
  | S f => if rle p0 p then poi_search cdf p f (x + 1) (cdf x) else Some (Ok (Whole (x - 1)))
  end.
(** PoissonQF.__call__, 284-296, and PoissonDistribution.QF, 1058-1077 *)
Definition poissonQF (gammaQ : Z -> R -> R) (fuel : nat) (p lamda : R) : option (res quantile) :=
  if rlt lamda 0 then Some (Raise (PFAErr 13110))
  else if negb (rle 0 p && rle p 1) then Some (Raise (PFAErr 13111))
  else if req lamda 0 then Some (Ok (Whole 0))
  else if req p 1 then Some (Ok Infinite)
  else if req p 0 then Some (Ok (Whole 0))
  else poi_search (fun x => gammaQ (x + 1)%Z lamda) p fuel 0 0.
