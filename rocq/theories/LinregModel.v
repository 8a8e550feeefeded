(** Model of model.reg.linear and model.reg.linearVariance (lib/model/reg.py), model.neural.simpleLayers
    (lib/model/neural.py), model.svm.score (lib/model/svm.py) and the kernels of lib/kernel.py.

    The arithmetic is a parameter. numpy.dot, vstack and transposition are modelled by the sums of products
    they compute, which is only meaningful for exact arithmetic (numpy's order of summation is not
    specified). float() of a float is the identity. *)
From Coq Require Import SpecFloat.
From Verif Require Import Base PyNum Effects LaModel.
Open Scope string_scope.
Open Scope list_scope.
Open Scope Z_scope.

Section Linear.
  Context {T : Type} (zero one : T) (add mul : T -> T -> T).
  (** the order in which Python iterates over a set, as in LaModel *)
  Context (order : list string -> list string).
  Local Notation vmap := (list (string * T)).
  Local Notation mmap := (list (string * vmap)).
  Local Notation get := (LaModel.get zero).
  Local Notation get2 := (LaModel.get2 zero).
  (** numpy.dot of two vectors of the same length *)
  Definition np_vdot (u v : list T) : T := inner zero add mul u v.

  (** Linear.__call__, first signature, lib/model/reg.py:57-62 *)
  Definition linear1 (datum coeff : list T) (const : T) : res T :=
    let coeff' := coeff ++ [const] in
    let datum' := datum ++ [one] in
    if negb (count datum' =? count coeff') then Raise (PFAErr 31000) else Ok (np_vdot coeff' datum').
  (** second signature, 64-78; coeff.T stacked on const and transposed again has the rows of coeff, each
      followed by its constant *)
  Definition linear2 (datum : list T) (coeff : list (list T)) (const : list T) : res (list T) :=
    if negb (count const =? count coeff) then Raise (PFAErr 31001)
    else if existsb (fun row => negb (count row =? count datum)) coeff then Raise (PFAErr 31000)
    else match datum, const with
         | [], _ => Ok const
         | _, [] => Ok []
         | _, _ => Ok (map (fun rc => np_vdot (fst rc ++ [snd rc]) (datum ++ [one])) (combine coeff const))
         end.
  (** third signature, 80-86 *)
  Definition linear3 (datum coeff : vmap) (const : T) : T :=
    add (fold_left (fun out key => add out (mul (get datum key) (get coeff key))) (order (map fst datum ++ map fst coeff)) zero) const.
  (** fourth signature, 88-101; sum of the lists of keys of coeff.values() *)
  Definition linear4 (datum : vmap) (coeff : mmap) (const : vmap) : vmap :=
    let innerKeys := order (map fst datum ++ concat (map (fun r => map fst (snd r)) coeff)) in
    let outerKeys := order (map fst const ++ map fst coeff) in
    map (fun outerKey =>
           (outerKey, add (fold_left (fun out innerKey => add out (mul (get datum innerKey) (get2 coeff outerKey innerKey))) innerKeys zero)
                          (get const outerKey))) outerKeys.

  (** x.dot(C.dot(x.T))[0][0] for a row vector x and a square matrix C *)
  Definition np_quad (x : list T) (C : list (list T)) : T := np_vdot x (map (fun row => np_vdot row x) C).
  (** LinearVariance.__call__, first signature, lib/model/reg.py:115-122 *)
  Definition variance_of (datum' : list T) (covar : list (list T)) : res T :=
    if negb (count datum' =? count covar) || existsb (fun x => negb (count datum' =? count x)) covar
    then Raise (PFAErr 31010) else Ok (np_quad datum' covar).
  Definition variance1 (datum : list T) (covar : list (list T)) : res T := variance_of (datum ++ [one]) covar.
  (** second signature, 124-133 *)
  Definition variance2 (datum : list T) (covar : list (list (list T))) : res (list T) := rmapM (variance_of (datum ++ [one])) covar.
  (** dict(list(datum.items()) + [("", 1.0)]), 136, 144 *)
  Definition with_one (datum : vmap) : vmap := dict_set "" one datum.
  (** the keys of the maps in covar.values(), 138 *)
  Definition col_names (covar : mmap) : list string := concat (map (fun r => map fst (snd r)) covar).
  Definition quad_on (keys : list string) (datum' : vmap) (covar : mmap) : T :=
    np_quad (map (get datum') keys) (map (fun i => map (fun j => get2 covar i j) keys) keys).
  (** third signature, 135-141 *)
  Definition variance3 (datum : vmap) (covar : mmap) : T :=
    let datum' := with_one datum in
    quad_on (order (map fst datum' ++ col_names covar)) datum' covar.
  (** fourth signature, 143-152 *)
  Definition variance4 (datum : vmap) (covar : list (string * mmap)) : vmap :=
    let datum' := with_one datum in
    let keys := order (map fst datum' ++ concat (map (fun r => col_names (snd r)) covar)) in
    map (fun dr => (fst dr, quad_on keys datum' (snd dr))) covar.
End Linear.

Section Network.
  Context {T S : Type} (zero : T) (add mul : T -> T -> T).
  (** matrix_vector_mult, lib/model/neural.py:39-40 *)
  Definition matrix_vector_mult (a : list (list T)) (b : list T) : res (list T) :=
    rmapM (fun row => l <- rmapM (fun ix => bi <- index b (fst ix) ;; Ok (mul (snd ix) bi)) (combine (seq 0 (length row)) row) ;;
                      Ok (py_sum zero add l)) a.
  (** the guard of a layer, neural.py:59, 66 *)
  Definition layer_misaligned (weights : list (list T)) (bias datum : list T) : bool :=
    negb (count bias =? count weights) || existsb (fun x => negb (count x =? count datum)) weights.
  (** [sum(y) for y in zip(matrix_vector_mult(weights, datum), bias)], neural.py:61, 68 *)
  Definition affine (weights : list (list T)) (bias datum : list T) : res (list T) :=
    if layer_misaligned weights bias datum then Raise (PFAErr 11001)
    else v <- matrix_vector_mult weights datum ;; Ok (map (fun y => py_sum zero add [fst y; snd y]) (combine v bias)).
  (** the loop over model[:-1], neural.py:56-62; a layer is its weights and its bias *)
  Fixpoint hidden_layers (layers : list (list (list T) * list T)) (activation : T -> M S T) (datum : list T) : M S (list T) :=
    match layers with
    | [] => ret datum
    | l :: rest => tmp <~ lift (affine (fst l) (snd l) datum) ;; datum' <~ mapM activation tmp ;; hidden_layers rest activation datum'
    end.
  (** SimpleLayers.__call__, neural.py:52-68 *)
  Definition simple_layers (datum : list T) (model : list (list (list T) * list T)) (activation : T -> M S T) : M S (list T) :=
    match model with
    | [] => raise (PFAErr 11000)
    | l0 :: _ => datum' <~ hidden_layers (removelast model) activation datum ;;
                 let l := last model l0 in lift (affine (fst l) (snd l) datum')
    end.

  (** the loop over the support vectors of a class, lib/model/svm.py:56-62, 63-69; a support vector comes
      with its coefficient *)
  Definition class_score (kernel : list T -> list T -> M S T) (datum : list T) (cls : list (list T * T)) : M S T :=
    foldM (fun score sv =>
             if negb (count (fst sv) =? count datum) then raise (PFAErr 12001)
             else k <~ kernel (fst sv) datum ;; ret (add score (mul k (snd sv)))) zero cls.
  (** Score.__call__, svm.py:50-70 *)
  Definition svm_score (datum : list T) (const : T) (posClass negClass : list (list T * T)) (kernel : list T -> list T -> M S T) : M S T :=
    if (count negClass =? 0) && (count posClass =? 0) then raise (PFAErr 12000)
    else negClassScore <~ class_score kernel datum negClass ;;
         posClassScore <~ class_score kernel datum posClass ;;
         ret (add (add negClassScore posClassScore) const).
End Network.

Section Kernels.
  Context {T : Type} (zero : T) (add sub mul : T -> T -> T) (opp abs : T -> T).
  (** x**2, math.exp, math.tanh and powLikeJava; the first two may raise OverflowError *)
  Context (square exp : T -> res T) (tanh : T -> T) (pow : T -> T -> res T).
  (** dot, lib/kernel.py:40-44 *)
  Definition kernel_dot (code : Z) (x y : list T) : res T :=
    if negb (count x =? count y) then Raise (PFAErr code)
    else Ok (py_sum zero add (map (fun ij => mul (fst ij) (snd ij)) (combine x y))).
  (** RBF.__call__, 53-57 *)
  Definition kernel_rbf (x y : list T) (gamma : T) : res T :=
    if negb (count x =? count y) then Raise (PFAErr 23010)
    else diff <- rmapM (fun ij => square (abs (sub (fst ij) (snd ij)))) (combine x y) ;;
         exp (mul (opp gamma) (py_sum zero add diff)).
  (** Linear.__call__, 65-66 *)
  Definition kernel_linear (x y : list T) : res T := kernel_dot 23000 x y.
  (** Poly.__call__, 77-78 *)
  Definition kernel_poly (x y : list T) (gamma intercept degree : T) : res T :=
    d <- kernel_dot 23020 x y ;; pow (add (mul gamma d) intercept) degree.
  (** Sigmoid.__call__, 88-89 *)
  Definition kernel_sigmoid (x y : list T) (gamma intercept : T) : res T :=
    d <- kernel_dot 23030 x y ;; Ok (tanh (add (mul gamma d) intercept)).
End Kernels.
(** x**2 of a finite float, CPython's float_pow: OverflowError when the result is infinite. C's pow(x, 2) is
    taken to be the rounded product. *)
Definition py_square (x : pf) : res pf :=
  let r := fmul x x in if isinf r && negb (isinf x) then Raise (PyErr "OverflowError") else Ok r.
