(** Model of model.reg.gaussianProcess (lib/model/reg.py:154-375): its checks, its use of the Kriging weight and its loop over
    several outputs.

    The linear algebra is a parameter: [universal X y] is the weight that [fit] computes from the table when it is given
    none (reg.py:343-344), [predict_with x X y b] is the rest of [fit] and [predict] (reg.py:345-371) for the weight [b].
    Only the signatures with an array [x] are modelled (for a number, x is an array of one and the checks 31081 and 31082 do
    not apply); the field sigma of the table is not modelled. *)
From Coq Require Import SpecFloat.
From Verif Require Import Base PyNum.
Open Scope string_scope.
Open Scope list_scope.
Open Scope Z_scope.

Definition not_finite (f : pf) : bool := isnan f || isinf f.

Record row (O : Type) := Row { rx : list pf; rto : O }.
Arguments Row {O}. Arguments rx {O}. Arguments rto {O}.

Section Gp.
  Context (universal : list (list pf) -> list pf -> res pf).
  Context (predict_with : list pf -> list (list pf) -> list pf -> pf -> res pf).

  (** getbeta, reg.py:185-191: the method has no return statement, so it gives None *)
  Definition getbeta (krigingWeight : option pf) : res (option pf) :=
    match krigingWeight with
    | Some beta => if not_finite beta then Raise (PFAErr 31087) else Ok None
    | None => Ok None
    end.

  (** fit, then predict; [fit] also gives the weight it used (reg.py:343-352) *)
  Definition fit_predict (x : list pf) (X : list (list pf)) (y : list pf) (beta : option pf) : res (pf * pf) :=
    b <- match beta with None => universal X y | Some b => Ok b end ;;
    v <- predict_with x X y b ;;
    Ok (b, v).

  (** the checks before the outputs, reg.py:229-240 *)
  Definition check_inputs {O} (x : list pf) (table : list (row O)) : res unit :=
    if Nat.ltb (length table) 1 then Raise (PFAErr 31080)
    else if Nat.ltb (length x) 1 then Raise (PFAErr 31081)
    else if existsb (fun t => negb (Nat.eqb (length (rx t)) (length x))) table then Raise (PFAErr 31082)
    else Ok tt.
  Definition check_table_x {O} (table : list (row O)) : res unit :=
    if existsb (fun t => existsb not_finite (rx t)) table then Raise (PFAErr 31086) else Ok tt.

  (** one output: __call__ with getnoutputs, reg.py:210-222, 228-257 *)
  Definition gp_scalar (x : list pf) (table : list (row pf)) (krigingWeight : option pf) : res pf :=
    _ <- check_inputs x table ;;
    _ <- (if existsb not_finite x then Raise (PFAErr 31085)
          else if existsb (fun t => not_finite (rto t)) table then Raise (PFAErr 31086) else Ok tt) ;;
    _ <- check_table_x table ;;
    beta <- getbeta krigingWeight ;;
    bv <- fit_predict x (map rx table) (map rto table) beta ;;
    Ok (snd bv).

  (** [t["to"][i]] *)
  Definition output (i : nat) (t : row (list pf)) : pf := nth i (rto t) fnan.
  (** the loop, reg.py:259-269: the weight of one turn is the one that [fit] is given in the next *)
  Fixpoint gp_outputs (x : list pf) (table : list (row (list pf))) (is_ : list nat) (beta : option pf) : res (list pf) :=
    match is_ with
    | [] => Ok []
    | i :: rest =>
        bv <- fit_predict x (map rx table) (map (output i) table) beta ;;
        out <- gp_outputs x table rest (Some (fst bv)) ;;
        Ok (snd bv :: out)
    end.
  (** several outputs: getnoutputs, reg.py:193-209, and __call__ *)
  Definition gp_vector (x : list pf) (table : list (row (list pf))) (krigingWeight : option pf) : res (list pf) :=
    _ <- check_inputs x table ;;
    let n_outputs := match table with [] => O | t :: _ => length (rto t) end in
    _ <- (if Nat.ltb n_outputs 1 then Raise (PFAErr 31083)
          else if existsb (fun t => negb (Nat.eqb (length (rto t)) n_outputs)) table then Raise (PFAErr 31084)
          else if existsb not_finite x then Raise (PFAErr 31085)
          else if existsb (fun t => existsb not_finite (rto t)) table then Raise (PFAErr 31086) else Ok tt) ;;
    _ <- check_table_x table ;;
    beta <- getbeta krigingWeight ;;
    gp_outputs x table (seq 0 n_outputs) beta.
End Gp.
