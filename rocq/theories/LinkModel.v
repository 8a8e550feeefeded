(** Model of lib/link.py and of lib/model/naive.py, over the real numbers.

    Rounding, NaN and infinities are not modelled; what is kept of binary64 is that math.exp raises
    OverflowError when its result is out of range and math.log raises ValueError for arguments that are
    not positive. *)
From Coq Require Import Reals.
From Verif Require Import Base LaModel.
Open Scope string_scope.
Open Scope list_scope.
Open Scope R_scope.

(** math.exp *)
Definition py_exp (x : R) : res R := if Rle_dec (2 ^ 1024) (exp x) then Raise (PyErr "OverflowError") else Ok (exp x).
(** math.log *)
Definition py_log (x : R) : res R := if Rle_dec x 0 then Raise (PyErr "ValueError") else Ok (ln x).
(** x / y of floats *)
Definition py_rdiv (x y : R) : res R := if Req_EM_T y 0 then Raise (PyErr "ZeroDivisionError") else Ok (x / y).
(** sum, max and min of a list *)
Definition r_sum (l : list R) : R := fold_left Rplus l 0.
Definition r_max (x : R) (l : list R) : R := fold_left Rmax l x.
Definition r_min (x : R) (l : list R) : R := fold_left Rmin l x.
(** l.index(v) *)
Fixpoint r_index (v : R) (l : list R) : nat :=
  match l with [] => O | x :: l' => if Req_EM_T x v then O else S (r_index v l') end.

(** the choice of m in SoftMax.__call__, lib/link.py:51-55, 61-65 *)
Definition softmax_shift (x0 : R) (l : list R) : R :=
  let x := x0 :: l in
  let tmp := map Rabs x in
  let big := nth (r_index (r_max (Rabs x0) (map Rabs l)) tmp) x 0 in
  if Rle_dec 0 big then r_max x0 l else r_min x0 l.
(** 56-58, 66-67 *)
Definition softmax_values (x0 : R) (l : list R) : res (list R) :=
  let m := softmax_shift x0 l in
  es <- rmapM (fun v => py_exp (v - m)) (x0 :: l) ;;
  let denom := r_sum es in
  rmapM (fun v => e <- py_exp (v - m) ;; py_rdiv e denom) (x0 :: l).
(** SoftMax.__call__, lib/link.py:46-67, on an array *)
Definition softmax (x : list R) : res (list R) :=
  match x with [] => Raise (PFAErr 25000) | x0 :: l => softmax_values x0 l end.
(** and on a map: the values in the order of the map, under their keys *)
Definition softmax_map (x : list (string * R)) : res (list (string * R)) :=
  match map snd x with
  | [] => Raise (PFAErr 25000)
  | x0 :: l => ys <- softmax_values x0 l ;; Ok (combine (map fst x) ys)
  end.

(** unwrapForNorm, lib/link.py:70-82, for the three kinds of arguments *)
Inductive norm_arg := NMap (x : list (string * R)) | NArray (x : list R) | NNumber (x : R).
Definition unwrapForNorm (x : norm_arg) (func : R -> res R) : res norm_arg :=
  match x with
  | NMap d => d' <- rmapM (fun kv => y <- func (snd kv) ;; Ok (fst kv, y)) d ;; Ok (NMap d')
  | NArray l => l' <- rmapM func l ;; Ok (NArray l')
  | NNumber v => y <- func v ;; Ok (NNumber y)
  end.
(** lib/link.py:84-164: Logit, Probit (erf is a parameter), CLoglog, LogLog, Cauchit, Softplus, ReLu, Tanh *)
Definition logit (y : R) : res R := e <- py_exp (- y) ;; py_rdiv 1 (1 + e).
Definition probit (erf : R -> R) (y : R) : res R := py_rdiv (erf (y / sqrt 2) + 1) 2.
Definition loglog (y : R) : res R := e <- py_exp y ;; py_exp (- e).
Definition cloglog (y : R) : res R := e <- py_exp y ;; e' <- py_exp (- e) ;; Ok (1 - e').
Definition cauchit (y : R) : res R := i <- py_rdiv 1 PI ;; Ok (1 / 2 + i * atan y).
Definition softplus (y : R) : res R := e <- py_exp y ;; py_log (1 + e).
Definition relu (y : R) : res R := Ok (Rmax 0 y).
Definition link_tanh (y : R) : res R := Ok (tanh y).

(** ** lib/model/naive.py *)
(** one feature in Gaussian.__call__, 49-54 and 63-68 *)
Definition gaussian_feature (ll x mu vari : R) : res R :=
  if Rle_dec vari 0 then Raise (PFAErr 10001)
  else l <- py_log (2 * PI * vari) ;; q <- py_rdiv ((x - mu) ^ 2) vari ;; Ok (ll + - (1 / 2) * l + - (1 / 2) * q).
Fixpoint rfoldM {A B} (f : B -> A -> res B) (acc : B) (l : list A) : res B :=
  match l with [] => Ok acc | x :: l' => b <- f acc x ;; rfoldM f b l' end.
(** Gaussian.__call__, 45-55; a class model is a list of means and variances *)
Definition gaussian_array (datum : list R) (classModel : list (R * R)) : res R :=
  if negb (Z.eqb (count datum) (count classModel)) then Raise (PFAErr 10000)
  else rfoldM (fun ll ix => mv <- index classModel (fst ix) ;; gaussian_feature ll (snd ix) (fst mv) (snd mv)) 0
              (combine (seq 0 (length datum)) datum).
(** set(a) == set(b) *)
Definition same_keys (a b : list string) : bool :=
  forallb (fun k => existsb (String.eqb k) b) a && forallb (fun k => existsb (String.eqb k) a) b.
(** 56-69 *)
Definition gaussian_map (datum : list (string * R)) (classModel : list (string * (R * R))) : res R :=
  if negb (same_keys (map fst datum) (map fst classModel)) then Raise (PFAErr 10000)
  else rfoldM (fun ll k => x <- subscript datum k ;; mv <- subscript classModel k ;; gaussian_feature ll x (fst mv) (snd mv)) 0 (map fst datum).

(** naive.py:29; the float 2.2250738585072014e-308 is 2 to the -1022 *)
Definition tiny : R := / 2 ^ 1022.
(** not all(x > 0.0 for x in classModel) *)
Definition some_not_positive (l : list R) : bool := existsb (fun x => if Rlt_dec 0 x then false else true) l.
(** Multinomial.doarray, 83-93 *)
Definition multinomial_array (datum classModel : list R) : res R :=
  let normalizing := r_sum classModel in
  if Z.eqb (count classModel) 0 || some_not_positive classModel then Raise (PFAErr 10011)
  else if negb (Z.eqb (count datum) (count classModel)) then Raise (PFAErr 10010)
  else rfoldM (fun ll dp => q <- py_rdiv (snd dp) normalizing ;; l <- py_log (q + tiny) ;; Ok (ll + fst dp * l)) 0 (combine datum classModel).
(** Multinomial.domap, 95-107: p is computed but not used *)
Definition multinomial_map (datum classModel : list (string * R)) : res R :=
  let normalizing := r_sum (map snd classModel) in
  if Z.eqb (count classModel) 0 || some_not_positive (map snd classModel) then Raise (PFAErr 10011)
  else if negb (same_keys (map fst datum) (map fst classModel)) then Raise (PFAErr 10010)
  else rfoldM (fun ll d => c <- subscript classModel d ;; q <- py_rdiv c normalizing ;;
                           x <- subscript datum d ;; l <- py_log c ;; Ok (ll + x * l)) 0 (map fst datum).
(** Bernoulli.__call__, 127-140 *)
Definition bernoulli (datum : list string) (classModel : list (string * R)) : res R :=
  ll <- rfoldM (fun ll kv => let v := snd kv in
                  if Rle_dec v 0 then Raise (PFAErr 10020) else if Rle_dec 1 v then Raise (PFAErr 10020)
                  else l <- py_log (1 - v) ;; Ok (ll + l)) 0 classModel ;;
  rfoldM (fun ll item => match assoc item classModel with
                         | Some p => a <- py_log p ;; b <- py_log (1 - p) ;; Ok (ll + (a - b))
                         | None => Ok ll
                         end) ll datum.
