(** Model of a.median, a.mode and a.ntile, titus/lib/array.py:748-822.

    The items are of any type; [lt x y] is compare(items, x, y) < 0 and sorted() is ArrayModel.a_sort. [real] says
    that the type is float or double (the identity tests dataType is "float" at 761 and 813 are taken for
    equality: both strings are interned). [middle x y] is (x + y)/2.0, [mix x y u v] is x*u + y*v. [same x y] says
    that json.dumps gives the same text (line 781). *)
From Coq Require Import SpecFloat.
From Verif Require Import Base PyNum ArrayModel.
Open Scope string_scope.
Open Scope list_scope.
Open Scope Z_scope.

Section Rank.
  Context {A : Type}.
  Variable lt : A -> A -> bool.
  Variable real : bool.
  Variable middle : A -> A -> A.
  Variable mix : A -> A -> pf -> pf -> A.
  Variable same : A -> A -> bool.

  (** sa[i] for i >= 0 *)
  Definition item (sa : list A) (i : Z) : res A :=
    match nth_error sa (Z.to_nat i) with Some x => Ok x | None => Raise (PyErr "IndexError") end.

  (** Median.__call__: 752-764 *)
  Definition a_median (a : list A) : res A :=
    if zlen a =? 0 then Raise (PFAErr 15450) else
    let sa := a_sort lt a in
    let half := zlen sa / 2 in
    if negb (zlen sa mod 2 =? 0) then item sa half
    else if real then x <- item sa (half - 1) ;; y <- item sa half ;; Ok (middle x y)
    else item sa (half - 1).

  (** Mode.__call__: 771-790; the dictionaries counter and lookup in one list, in order of insertion *)
  Fixpoint bump (x : A) (counter : list (A * Z)) : list (A * Z) :=
    match counter with
    | [] => [(x, 1)]
    | (y, n) :: c => if same x y then (y, n + 1) :: c else (y, n) :: bump x c
    end.
  Definition counts (a : list A) : list (A * Z) := fold_left (fun c x => bump x c) a [].
  Definition bestn (c : list (A * Z)) : Z := fold_left (fun b p => if b <? snd p then snd p else b) c 0.
  Definition besties (c : list (A * Z)) : list A := map fst (filter (fun p => snd p =? bestn c) c).
  Definition a_mode (a : list A) : res A :=
    if zlen a =? 0 then Raise (PFAErr 15470) else a_median (besties (counts a)).

  (** NTile.__call__: 797-822 *)
  Definition f1 : pf := f_of_Z 1.
  Definition a_ntile (a : list A) (p : pf) : res A :=
    if zlen a =? 0 then Raise (PFAErr 15460)
    else if isnan p then Raise (PFAErr 15461)
    else if num_le (NF p) (NF f0) then item (lowestN lt a 1) 0
    else if num_ge (NF p) (NF f1) then item (highestN lt a 1) 0
    else
      let sa := a_sort lt a in
      n <- py_float (zlen a) ;;
      let k := fmul (fsub n f1) p in
      f <- py_floor k ;;
      if real then
        c <- py_ceil k ;;
        if f =? c then i <- py_int k ;; item sa i
        else
          x <- item sa f ;; y <- item sa c ;;
          cf <- py_float c ;; ff <- py_float f ;;
          Ok (mix x y (fsub cf k) (fsub k ff))
      else if zlen sa mod 2 =? 1 then item sa f
      else i <- py_int k ;; item sa i.
End Rank.
