(** Model of stat.test.residual, pull, updateChi2, reducedChi2 and chi2Prob (lib/stat/pfatest.py:86-130, 177-224) and of
    the deprecated functions of the same names in model.reg (lib/model/reg.py:379-447, 486-519).

    Numbers are Python's: a value of PFA type double may be a Python int (an int literal or an int field), which
    Python keeps as an int until it meets a float. Arrays are lists; maps are association lists in insertion order.
    mahalanobis is not modelled (numpy.linalg.solve), nor the chi-square distribution of chi2Prob. *)
From Coq Require Import SpecFloat.
From Verif Require Import Base PyNum ArithModel LinregModel.
Open Scope string_scope.
Open Scope list_scope.
Open Scope Z_scope.

Local Notation nmap := (list (string * num)).

(** [d[k]] *)
Definition item {V : Type} (d : list (string * V)) (k : string) : res V :=
  match assoc k d with Some v => Ok v | None => Raise (PyErr "KeyError") end.
(** [set(a.keys()) != set(b.keys())] *)
Definition keys_differ {V : Type} (a b : list (string * V)) : bool :=
  negb (forallb (fun k => existsb (String.eqb k) (map fst b)) (map fst a) &&
        forallb (fun k => existsb (String.eqb k) (map fst a)) (map fst b)).
Definition lengths_differ {V : Type} (a b : list V) : bool := negb (Nat.eqb (length a) (length b)).
(** [float(x)] of a number *)
Definition as_float (x : num) : res num := f <- to_f x ;; Ok (NF f).
(** [div(numer, denom)], util.py:84-105 *)
Definition pdiv (numer denom : num) : res num := f <- lib_divide numer denom ;; Ok (NF f).

(** Residual.__call__, pfatest.py:92-106: three signatures *)
Definition residual1 (o p : num) : res num := d <- py_sub o p ;; as_float d.
Definition residual_array (o p : list num) : res (list num) :=
  if lengths_differ o p then Raise (PFAErr 38010)
  else rmapM (fun op => d <- py_sub (fst op) (snd op) ;; as_float d) (combine o p).
Definition residual_map (o p : nmap) : res nmap :=
  if keys_differ o p then Raise (PFAErr 38010)
  else rmapM (fun ko => vp <- item p (fst ko) ;; d <- py_sub (snd ko) vp ;; Ok (fst ko, d)) o.

(** Pull.__call__, pfatest.py:115-131 *)
Definition pull1 (o p u : num) : res num := d <- py_sub o p ;; pdiv d u.
Definition pull_array (o p u : list num) : res (list num) :=
  if lengths_differ o p then Raise (PFAErr 38020)
  else if lengths_differ o u then Raise (PFAErr 38021)
  else rmapM (fun t => let '(o, p, u) := t in d <- py_sub o p ;; q <- pdiv d u ;; as_float q) (combine (combine o p) u).
Definition pull_map (o p u : nmap) : res nmap :=
  if keys_differ o p then Raise (PFAErr 38020)
  else if keys_differ o u then Raise (PFAErr 38021)
  else rmapM (fun ko => vp <- item p (fst ko) ;; d <- py_sub (snd ko) vp ;; vu <- item u (fst ko) ;;
                        q <- pdiv d vu ;; Ok (fst ko, q)) o.

(** [y**2]: exact on ints, OverflowError on a float whose square is too large *)
Definition py_square_num (y : num) : res num :=
  match y with NI z => Ok (NI (z * z)) | NF f => s <- py_square f ;; Ok (NF s) end.
(** [sum(l)]: starts from the int 0 *)
Fixpoint py_sum_num (acc : num) (l : list num) : res num :=
  match l with [] => Ok acc | y :: r => acc' <- py_add acc y ;; py_sum_num acc' r end.

Inductive pull_arg := PNum (p : num) | PArr (l : list num) | PMap (m : nmap).
(** a record with the fields chi2 and dof; the other fields are copied *)
Record chi2_state := { chi2 : num; dof : num }.

Definition sum_squares (l : list num) : res num := sq <- rmapM py_square_num l ;; py_sum_num (NI 0) sq.
(** UpdateChi2.__call__, pfatest.py:183-189: an int is no instance of float, so it ends in [pull.values()] *)
Definition update_chi2 (pull : pull_arg) (s : chi2_state) : res chi2_state :=
  let by_sum x := c <- py_add (chi2 s) x ;; n <- py_add (dof s) (NI 1) ;; Ok {| chi2 := c; dof := n |} in
  match pull with
  | PNum (NF f) => by_sum (NF (fmul f f))
  | PNum (NI _) => Raise (PyErr "AttributeError")
  | PArr l => x <- sum_squares l ;; by_sum x
  | PMap m => x <- sum_squares (map snd m) ;; by_sum x
  end.
(** ReducedChi2.__call__, pfatest.py:196-197 *)
Definition reduced_chi2 (s : chi2_state) : res num := pdiv (chi2 s) (dof s).
(** Chi2Prob.__call__, pfatest.py:204-223; [cdf] is Chi2Distribution(dof).CDF(chi2), reached for dof > 0 *)
Definition chi2_prob (cdf : num -> num -> res pf) (s : chi2_state) : res pf :=
  let one_if b := Ok (if b : bool then f_of_Z 1 else f0) in
  if num_lt (dof s) (NI 0) then Raise (PFAErr 38060)
  else if num_eq (dof s) (NI 0) then one_if (num_gt (chi2 s) (NI 0))
  else n <- py_isnan (chi2 s) ;;
       if n : bool then Ok fnan
       else i <- py_isinf (chi2 s) ;;
            if i : bool then one_if (num_gt (chi2 s) (NI 0)) else cdf (dof s) (chi2 s).

(** ** The deprecated functions of model.reg *)
(** Residual.__call__, reg.py:385-405: [zip] stops at the end of the shorter array *)
Definition reg_residual_array (o p : list num) : res (list num) :=
  rmapM (fun op => d <- py_sub (fst op) (snd op) ;; as_float d) (combine o p).
Definition reg_residual_map (o p : nmap) : res nmap :=
  if lengths_differ o p then Raise (PFAErr 31020)
  else rmapM (fun ko => match assoc (fst ko) p with
                        | Some vp => d <- py_sub (snd ko) vp ;; Ok (fst ko, d)
                        | None => Raise (PFAErr 31020)
                        end) o.
(** Python's [/]: ZeroDivisionError on a zero divisor *)
Definition py_truediv (a b : num) : res num :=
  fa <- to_f a ;; fb <- to_f b ;; if is_fzero fb then Raise (PyErr "ZeroDivisionError") else Ok (NF (fdiv fa fb)).
(** Pull.__call__, reg.py:415-445 *)
Definition reg_pull_array (o p u : list num) : res (list num) :=
  if lengths_differ o p then Raise (PFAErr 31030)
  else if lengths_differ o u then Raise (PFAErr 31030)
  else rmapM (fun t => let '(o, p, u) := t in d <- py_sub o p ;; q <- py_truediv d u ;; as_float q) (combine (combine o p) u).
Definition reg_pull_map (o p u : nmap) : res nmap :=
  if lengths_differ o p then Raise (PFAErr 31030)
  else if lengths_differ o u then Raise (PFAErr 31031)
  else rmapM (fun ko =>
         match assoc (fst ko) p with
         | None => Raise (PFAErr 31030)
         | Some vp =>
             match assoc (fst ko) u with
             | None => Raise (PFAErr 31031)
             | Some vu =>
                 d <- py_sub (snd ko) vp ;;
                 match py_truediv d vu with
                 | Raise (PyErr "ZeroDivisionError") => Ok (fst ko, NF fnan)
                 | Raise e => Raise e
                 | Ok q => Ok (fst ko, q)
                 end
             end
         end) o.
(** update, reg.py:500-503 (the in-place change of the record is not modelled) *)
Definition reg_update_chi2 (pull : pull_arg) (s : chi2_state) : res chi2_state :=
  let update x := c <- py_add (chi2 s) x ;; c' <- as_float c ;; n <- py_add (dof s) (NI 1) ;; n' <- as_float n ;;
                  Ok {| chi2 := c'; dof := n' |} in
  match pull with
  | PNum (NF f) => update (NF (fmul f f))
  | PNum (NI _) => Raise (PyErr "AttributeError")
  | PArr l => x <- sum_squares l ;; update x
  | PMap m => x <- sum_squares (map snd m) ;; update x
  end.
(** ReducedChi2.__call__, reg.py:509-510 *)
Definition reg_reduced_chi2 (s : chi2_state) : res num := py_truediv (chi2 s) (dof s).
