(** What a decision tree is supposed to be: rows, tests on rows, the leaf of a row. *)
From Coq Require Import Permutation.
From Verif Require Import Base ScopeModel CartModel.
Open Scope string_scope.
Open Scope list_scope.

Section Spec.
  Variable N : arith.
  (** what the user put into one place of the dataset *)
  Inductive cell := XReal (x : num N) | XCat (s : string).
  Definition cell_at (i : nat) (c : column N) : cell :=
    match c with CReal l => XReal (nth i l (zero N)) | CCat names l => XCat (nth (nth i l O) names "") end.
  (** a row: the predictors and the predictand *)
  Definition row := (list cell * cell)%type.
  Definition row_at (d : data N) (i : nat) : row := (map (cell_at i) (fields d), cell_at i (pred d)).
  Definition rows (d : data N) : list row := map (row_at d) (seq 0 (size d)).

  (** columns of the same length; codes of known, different names *)
  Definition col_ok (n : nat) (c : column N) : Prop :=
    col_len c = n /\ match c with CReal _ => True | CCat names l => NoDup names /\ forall x, In x l -> (x < length names)%nat end.
  Definition data_ok (d : data N) : Prop := col_ok (size d) (pred d) /\ forall c, In c (fields d) -> col_ok (size d) c.

  (** the test of a node, on a row *)
  Definition test_of (c : column N) (s : split N) (x : cell) : bool :=
    match c, s, x with
    | CReal _, Cut y, XReal z => le N z y
    | CCat names _, Among codes, XCat w => existsb (fun k => String.eqb (nth k names "") w) codes
    | _, _, _ => false
    end.
  (** the leaf that a row belongs to *)
  Fixpoint route (t : tree N) (x : list cell) : data N :=
    match t with
    | Leaf d => d
    | Node d _ i s p f =>
        if test_of (nth i (fields d) (CReal [])) s (nth i x (XCat "")) then route p x else route f x
    end.
End Spec.
Arguments XReal {N}. Arguments XCat {N}. Arguments rows {N}. Arguments row_at {N}. Arguments cell_at {N}. Arguments col_ok {N}. Arguments data_ok {N}.
Arguments route {N}. Arguments test_of {N}.
