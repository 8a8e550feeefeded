(** Model of the continuous distributions of prob.dist that have a formula of their own (lib/prob/dist.py): Gaussian,
    exponential, Cauchy, lognormal, uniform and Weibull. Over the reals: rounding is not modelled and the arguments are
    never infinite nor NaN, so the checks for that are left out; a result may be infinite or NaN. *)
From Coq Require Import Reals Lra.
From Verif Require Import Base DistModel.
Open Scope R_scope.

Inductive xr := Fin (r : R) | PInf | NInf | NaN.

(** pow(b, e) for b >= 0; every call below that has b = 0 also has e > 0 *)
Definition rpow (b e : R) : R := if req b 0 then 0 else Rpower b e.
(** math.atan2(y, s); every call below has s > 0 *)
Definition atan2 (y s : R) : R := atan (y / s).

(** *** Gaussian; [erf] is math.erf *)
(** GaussianDistribution.LL, 887-895 *)
Definition gauss_LL (mu sigma x : R) : xr :=
  if req sigma 0 && req x mu then PInf
  else if req sigma 0 && negb (req x mu) then NInf
  else
    let term1 := - (x - mu) ^ 2 / (2 * sigma ^ 2) in
    let term2 := ln (sigma * sqrt (2 * PI)) in
    Fin (term1 - term2).
(** GaussianDistribution.CDF, 897-903 *)
Definition gauss_CDF (erf : R -> R) (mu sigma x : R) : R :=
  if req sigma 0 && rlt x mu then 0
  else if req sigma 0 && rle mu x then 1
  else 1 / 2 * (1 + erf ((x - mu) / (sigma * sqrt 2))).
(** The rational function of 914-929 *)
Definition gauss_g (t : R) : R :=
  t - (2515517 / 1000000 + t * (802853 / 1000000 + t * (10328 / 1000000)))
      / (1 + t * (1432788 / 1000000 + t * (189269 / 1000000 + t * (1308 / 1000000)))).
(** GaussianDistribution.QF, 905-931 *)
Definition gauss_QF (mu sigma p : R) : xr :=
  if req p 1 then PInf
  else if req p 0 then NInf
  else if req sigma 0 then Fin mu
  else
    let '(sign, p) := if rlt (1 / 2) p then (1, 1 - p) else (-1, p) in
    let t := sqrt (-2 * ln p) in
    Fin (mu + sigma * (sign * gauss_g t)).
(** GaussianLL.__call__, 49-68, with mu and sigma *)
Definition gaussianLL (x mu sigma : R) : res xr :=
  if rlt sigma 0 then Raise (PFAErr 13000)
  else if req sigma 0 then (if negb (req x mu) then Ok NInf else Ok PInf)
  else Ok (gauss_LL mu sigma x).
(** GaussianCDF.__call__, 76-95 *)
Definition gaussianCDF (erf : R -> R) (x mu sigma : R) : res R :=
  if rlt sigma 0 then Raise (PFAErr 13010)
  else if req sigma 0 then (if rlt x mu then Ok 0 else Ok 1)
  else Ok (gauss_CDF erf mu sigma x).
(** GaussianQF.__call__, 104-124 *)
Definition gaussianQF (p mu sigma : R) : res xr :=
  if rlt sigma 0 then Raise (PFAErr 13020)
  else if negb (rle 0 p && rle p 1) then Raise (PFAErr 13021)
  else if req p 1 then Ok PInf
  else if req p 0 then Ok NInf
  else if req sigma 0 then Ok (Fin mu)
  else Ok (gauss_QF mu sigma p).
(** The same functions called with a record of mean and variance, 52-57, 79-84, 107-112 *)
Definition with_record {A} (base : Z) (f : R -> R -> res A) (mean variance : R) : res A :=
  if rlt variance 0 then Raise (PFAErr base) else f mean (sqrt variance).

(** *** Exponential *)
(** ExponentialPDF.__call__, 132-144, and ExponentialDistribution.PDF, 943-951 *)
Definition exponentialPDF (x rate : R) : res R :=
  if rlt rate 0 then Raise (PFAErr 13030)
  else if req rate 0 then Ok 0
  else if rlt x 0 then Ok 0
  else if req x 0 then Ok rate
  else Ok (rate * exp (- rate * x)).
(** ExponentialCDF.__call__, 151-161, and ExponentialDistribution.CDF, 953-959 *)
Definition exponentialCDF (x rate : R) : res R :=
  if rlt rate 0 then Raise (PFAErr 13040)
  else if req rate 0 || req x 0 then Ok 0
  else if rle x 0 then Ok 0
  else Ok (1 - exp (- rate * x)).
(** ExponentialQF.__call__, 168-182, and ExponentialDistribution.QF, 961-973 *)
Definition exponentialQF (p rate : R) : res xr :=
  if rlt rate 0 then Raise (PFAErr 13050)
  else if negb (rle 0 p && rle p 1) then Raise (PFAErr 13051)
  else if req rate 0 && req p 0 then Ok (Fin 0)
  else if req rate 0 && rlt 0 p then Ok PInf
  else if req p 1 then Ok PInf
  else if req p 0 then Ok (Fin 0)
  else Ok (Fin (- ln (1 - p) / rate)).

(** *** Cauchy *)
(** CauchyPDF.__call__, 419-425, and CauchyDistribution.PDF, 1214-1217 *)
Definition cauchyPDF (x loc s : R) : res R :=
  if rle s 0 then Raise (PFAErr 13180)
  else Ok (1 / (PI * s) * (1 / (1 + ((x - loc) / s) ^ 2))).
(** CauchyCDF.__call__, 432-438, and CauchyDistribution.CDF, 1219-1220 *)
Definition cauchyCDF (x loc s : R) : res R :=
  if rle s 0 then Raise (PFAErr 13190)
  else Ok (1 / 2 + atan2 (x - loc) s * (1 / PI)).
(** CauchyQF.__call__, 445-455, and CauchyDistribution.QF, 1222-1230 *)
Definition cauchyQF (p loc s : R) : res xr :=
  if rle s 0 then Raise (PFAErr 13200)
  else if negb (rle 0 p && rle p 1) then Raise (PFAErr 13201)
  else if req p 1 then Ok PInf
  else if req p 0 then Ok NInf
  else Ok (Fin (loc + s * tan (PI * (p - 1 / 2)))).

(** *** Lognormal *)
(** LognormalPDF.__call__, 507-513, and LognormalDistribution.PDF, 1306-1312 *)
Definition lognormalPDF (x mu sigma : R) : res R :=
  if rle sigma 0 then Raise (PFAErr 13240)
  else if rle x 0 then Ok 0
  else
    let term1 := 1 / (x * sigma * sqrt (2 * PI)) in
    let term2 := (ln x - mu) ^ 2 / (2 * sigma ^ 2) in
    Ok (term1 * exp (- term2)).
(** LognormalDistribution.CDF, 1314-1318 *)
Definition log_CDF (erf : R -> R) (mu sigma x : R) : R :=
  if rle x 0 then 0 else gauss_CDF erf 0 1 ((ln x - mu) / sigma).
(** LognormalCDF.__call__, 520-526 *)
Definition lognormalCDF (erf : R -> R) (x mu sigma : R) : res R :=
  if rle sigma 0 then Raise (PFAErr 13250) else Ok (log_CDF erf mu sigma x).
(** The loop of 1332-1333; None: not finished after [fuel] turns *)
Fixpoint grow (cdf : R -> R) (p : R) (fuel : nat) (high : R) : option R :=
  match fuel with
  | O => None
  | S f => if rlt (cdf high) p then grow cdf p f (high * 2) else Some high
  end.
(** The loop of 1335-1342 *)
Fixpoint bisect (cdf : R -> R) (p : R) (fuel : nat) (low high : R) : option R :=
  match fuel with
  | O => None
  | S f =>
    let mid := (low + high) / 2 in
    let diff := cdf mid - p in
    let '(low, high) := if rlt 0 diff then (low, mid) else (mid, high) in
    if rlt (1 / 100000000) (Rabs diff) then bisect cdf p f low high else Some mid
  end.
(** LognormalQF.__call__, 533-541, and LognormalDistribution.QF, 1320-1342 *)
Definition lognormalQF (erf : R -> R) (fuel : nat) (p mu sigma : R) : option (res xr) :=
  if rle sigma 0 then Some (Raise (PFAErr 13260))
  else if negb (rle 0 p && rle p 1) then Some (Raise (PFAErr 13261))
  else if req p 1 then Some (Ok PInf)
  else if req p 0 then Some (Ok (Fin 0))
  else match grow (log_CDF erf mu sigma) p fuel 1 with
       | None => None
       | Some high => match bisect (log_CDF erf mu sigma) p fuel 0 high with
                      | None => None
                      | Some mid => Some (Ok (Fin mid))
                      end
       end.

(** *** Uniform *)
(** UniformPDF.__call__, 652-657, and UniformDistribution.PDF, 1498-1504 *)
Definition uniformPDF (x mi ma : R) : res R :=
  if rle ma mi then Raise (PFAErr 13330)
  else if rlt x mi || rlt ma x then Ok 0
  else Ok (1 / (ma - mi)).
(** UniformCDF.__call__, 664-669, and UniformDistribution.CDF, 1506-1512 *)
Definition uniformCDF (x mi ma : R) : res R :=
  if rle ma mi then Raise (PFAErr 13340)
  else if rlt x mi then Ok 0
  else if rlt ma x then Ok 1
  else Ok ((x - mi) / (ma - mi)).
(** UniformQF.__call__, 676-682, and UniformDistribution.QF, 1514-1522 *)
Definition uniformQF (p mi ma : R) : res xr :=
  if rle ma mi then Raise (PFAErr 13350)
  else if negb (rle 0 p && rle p 1) then Raise (PFAErr 13351)
  else if rlt 0 p || rlt p 1 then Ok (Fin (mi + p * (ma - mi)))
  else Ok (Fin 0).

(** *** Weibull *)
(** WeibullPDF.__call__, 776-784, and WeibullDistribution.PDF, 1635-1652 *)
Definition weibullPDF (x a b : R) : res xr :=
  if rle a 0 || rle b 0 then Raise (PFAErr 13420)
  else if negb (rle 0 x) then Ok (Fin 0)
  else if req x 0 then
    (if rlt a 1 then Ok NaN else if req a 1 then Ok (Fin (1 / b)) else Ok (Fin 0))
  else
    let term1 := a / b in
    let term2 := rpow (x / b) (a - 1) in
    let term3 := exp (- rpow (x / b) a) in
    Ok (Fin (term1 * term2 * term3)).
(** WeibullCDF.__call__, 791-799, and WeibullDistribution.CDF, 1654-1660 *)
Definition weibullCDF (x a b : R) : res R :=
  if rle a 0 || rle b 0 then Raise (PFAErr 13430)
  else if rlt x 0 then Ok 0
  else Ok (1 - exp (- rpow (x / b) a)).
(** WeibullQF.__call__, 806-812, and WeibullDistribution.QF, 1662-1671 *)
Definition weibullQF (p a b : R) : res xr :=
  if rle a 0 || rle b 0 then Raise (PFAErr 13440)
  else if negb (rle 0 p && rle p 1) then Raise (PFAErr 13441)
  else if req p 1 then Ok PInf
  else Ok (Fin (b * rpow (- ln (1 - p)) (1 / a))).
