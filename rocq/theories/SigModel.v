(** Matching of function signatures: titus/signature.py:286-687 and titus/P.py. *)
From Verif Require Import Base PyNum ScopeModel TypeModel VersionModel Effects.
Open Scope string_scope.
Open Scope list_scope.
Open Scope nat_scope.

(** Patterns, P.py:41-310. Dictionaries of fields are lists with distinct names. *)
Inductive pat :=
| QNull | QBoolean | QInt | QLong | QFloat | QDouble | QBytes | QString
| QArray (items : pat) | QMap (values : pat) | QUnion (types : list pat)
| QFixed (size : nat) (fullName : option string)
| QEnum (symbols : list string) (fullName : option string)
| QRecord (fields : list (string * pat)) (fullName : option string)
| QFcn (params : list pat) (ret : pat)
| QWild (label : string) (oneOf : option (list ty))
| QWildRecord (label : string) (minimalFields : list (string * pat))
| QWildEnum (label : string)
| QWildFixed (label : string)
| QEnumFields (label wildRecord : string).

(** == between types (datatype.py:178-183 compares schemas); a record is known by its name here *)
Fixpoint ty_eqb (a b : ty) {struct a} : bool :=
  match a, b with
  | TNull, TNull | TBool, TBool | TInt, TInt | TLong, TLong | TFloat, TFloat | TDouble, TDouble | TBytes, TBytes | TString, TString | TExc, TExc => true
  | TFixed n s, TFixed m r => (String.eqb n m && Nat.eqb s r)%bool
  | TEnum n ss, TEnum m rs => (String.eqb n m && if list_eq_dec string_dec ss rs then true else false)%bool
  | TArray x, TArray y | TMap x, TMap y => ty_eqb x y
  | TRecord n, TRecord m => String.eqb n m
  | TUnion xs, TUnion ys => (fix go (xs ys : list ty) : bool :=
                               match xs, ys with
                               | [], [] => true
                               | x :: xs', y :: ys' => (ty_eqb x y && go xs' ys')%bool
                               | _, _ => false
                               end) xs ys
  | _, _ => false
  end.
Fixpoint tys_eqb (xs ys : list ty) : bool :=
  match xs, ys with
  | [], [] => true
  | x :: xs', y :: ys' => (ty_eqb x y && tys_eqb xs' ys')%bool
  | _, _ => false
  end.
(** FcnType.__eq__, datatype.py:58-62 *)
Definition fcn_eqb (f g : list ty * ty) : bool := (tys_eqb (fst f) (fst g) && ty_eqb (snd f) (snd g))%bool.

(** LabelData, signature.py:287-302 *)
Record label := Label { members : list ptype; expectedFields : option (list string) }.
(** labelData. The copies made for a union (435, 436, 464) copy the dict but share its LabelData objects. A label has
    never more than one object that is still referred to, so a dict of values will do; see [restrict]. *)
Definition labels := list (string * label).
Definition L := M labels.

(** 502-505 and the like *)
Definition add_member (l : string) (a : ptype) : L unit := fun ld =>
  let old := match assoc l ld with Some d => d | None => Label [] None end in
  (Ok tt, dict_set l (Label (members old ++ [a]) (expectedFields old)) ld).
(** 527 *)
Definition set_expected (l : string) (syms : list string) : L unit := fun ld =>
  match assoc l ld with
  | Some d => (Ok tt, dict_set l (Label (members d) (Some syms)) ld)
  | None => (Raise (PyErr "KeyError"), ld)
  end.
(** labelData2 = dict(originalLabelData) after a failed attempt: labels added meanwhile are forgotten, but members
    added to labels that were there before stay *)
Definition restrict (orig now : labels) : labels := filter (fun kv => has_key (fst kv) orig) now.

(** all(...) and any(...) over generators *)
Fixpoint allM (ms : list (L bool)) : L bool :=
  match ms with [] => ret true | m :: ms' => b <~ m ;; if b then allM ms' else ret false end.
Fixpoint anyM (ms : list (L bool)) : L bool :=
  match ms with [] => ret false | m :: ms' => b <~ m ;; if b then ret true else anyM ms' end.

(** itertools.permutations; [n] is the length *)
Fixpoint selections {A} (l : list A) : list (A * list A) :=
  match l with [] => [] | x :: l' => (x, l') :: map (fun yr => (fst yr, x :: snd yr)) (selections l') end.
Fixpoint perms {A} (n : nat) (l : list A) : list (list A) :=
  match n with
  | O => [[]]
  | S n' => flat_map (fun yr => map (cons (fst yr)) (perms n' (snd yr))) (selections l)
  end.

(** 433-468. A pattern is represented by the function that checks it, [None] once it is used up. *)
Definition checker := ptype -> bool -> bool -> L bool.
(** 450-455 *)
Fixpoint take (available : list (option checker)) (a : ty) (reversed : bool) : L (option (list (option checker))) :=
  match available with
  | [] => ret None
  | None :: rest => r <~ take rest a reversed ;; ret (option_map (cons None) r)
  | Some c :: rest =>
      b <~ c (PVal a) true reversed ;;
      if b then ret (Some (None :: rest))
      else r <~ take rest a reversed ;; ret (option_map (cons (Some c)) r)
  end.
(** 448-460 *)
Fixpoint one_perm (available : list (option checker)) (ts : list ty) (reversed : bool) : L bool :=
  match ts with
  | [] => ret true
  | a :: ts' => r <~ take available a reversed ;;
                match r with Some available' => one_perm available' ts' reversed | None => ret false end
  end.
Fixpoint try_perms (cs : list checker) (orig : labels) (ps : list (list ty)) (reversed : bool) : L bool := fun ld =>
  match ps with
  | [] => (Ok false, ld)
  | p :: ps' => match one_perm (map Some cs) p reversed ld with
                | (Ok false, ld') => try_perms cs orig ps' reversed (restrict orig ld')
                | r => r
                end
  end.
Definition check_union (cs : list checker) (ts : list ty) (reversed : bool) : L bool := fun ld =>
  try_perms cs ld (perms (length ts) ts) reversed ld.

(** the numeric types in the order of promotion *)
Definition qrank (p : pat) : option nat := match p with QInt => Some 0 | QLong => Some 1 | QFloat => Some 2 | QDouble => Some 3 | _ => None end.
Definition trank (t : ty) : option nat := match t with TInt => Some 0 | TLong => Some 1 | TFloat => Some 2 | TDouble => Some 3 | _ => None end.
(** 407-430 *)
Definition num_ok (p a : nat) (strict reversed : bool) : bool :=
  (Nat.eqb p a || (negb strict && (if reversed then Nat.leb p a else Nat.leb a p)))%bool.

Section Check.
  Variable D : defs.
  (** amap = dict((x.name, x) for x in arg.fields) *)
  Definition field_type (n k : string) : option ty :=
    option_map f_type (find (fun f => String.eqb (f_name f) k) (fields_of D n)).
  Definition field_names (n : string) : list string := map f_name (fields_of D n).
  Definition opt_name (o : option string) (n : string) (other : L bool) : L bool :=
    match o with Some m => ret (String.eqb m n) | None => other end.
  (** check, 385-531. The test for a leading "." in fullName (474 and the like) is about the Avro library; names have
      none here. *)
  Fixpoint check (p : pat) : checker := fun a strict reversed =>
    match a with
    | PVal TExc => ret false
    | PFcn ps r =>
        match p with
        | QFcn qs q =>
            b <~ allM (map (fun cy => fst cy (PVal (snd cy)) strict true) (combine (map (fun q => check q) qs) ps)) ;;
            if b then check q (PVal r) strict false else ret false
        | QWild l None | QWildEnum l | QWildFixed l => _ <~ add_member l a ;; ret true
        | _ => ret false
        end
    | PVal t =>
        match p with
        | QNull => ret (match t with TNull => true | _ => false end)
        | QBoolean => ret (match t with TBool => true | _ => false end)
        | QInt | QLong | QFloat | QDouble =>
            ret (match qrank p, trank t with Some x, Some y => num_ok x y strict reversed | _, _ => false end)
        | QBytes => ret (match t with TBytes => true | _ => false end)
        | QString => ret (match t with TString => true | _ => false end)
        | QArray q => match t with TArray u => check q (PVal u) strict reversed | _ => ret false end
        | QMap q => match t with TMap u => check q (PVal u) strict reversed | _ => ret false end
        | QUnion qs => match t with
                       | TUnion ts => check_union (map (fun q => check q) qs) ts reversed
                       | _ => anyM (map (fun q => check q a strict reversed) qs)
                       end
        | QFixed s o => match t with TFixed n s' => opt_name o n (ret (Nat.eqb s s')) | _ => ret false end
        | QEnum ss o => match t with TEnum n ss' => opt_name o n (ret (if list_eq_dec string_dec ss ss' then true else false)) | _ => ret false end
        | QRecord fs o =>
            match t with
            | TRecord n => opt_name o n
                (if (forallb (fun k => mem k (field_names n)) (map fst fs) && forallb (fun k => mem k (map fst fs)) (field_names n))%bool
                 then allM (map (fun kq => match kq with (k, q) =>
                        match field_type n k with Some u => check q (PVal u) true reversed | None => raise (PyErr "KeyError") end end) fs)
                 else ret false)
            | _ => ret false
            end
        | QFcn _ _ => ret false
        | QWild l o => if match o with None => true | Some ts => existsb (ty_eqb t) ts end
                       then _ <~ add_member l a ;; ret true else ret false
        | QWildRecord l fs =>
            match t with
            | TRecord n =>
                _ <~ add_member l a ;;
                if forallb (fun k => mem k (field_names n)) (map fst fs)
                then allM (map (fun kq => match kq with (k, q) =>
                       match field_type n k with Some u => check q (PVal u) true reversed | None => raise (PyErr "KeyError") end end) fs)
                else ret false
            | _ => ret false
            end
        | QWildEnum l | QWildFixed l => _ <~ add_member l a ;; ret true
        | QEnumFields l w =>
            match t with
            | TEnum n ss => _ <~ add_member l a ;; _ <~ set_expected w ss ;; ret true
            | _ => ret false
            end
        end
    end.

  (** determineAssignment, 294-302 *)
  Definition determine (d : label) : res ptype :=
    out <- broadest_ptype D fcn_eqb (members d) ;;
    match expectedFields d with
    | None => Ok out
    | Some ss => match out with
                 | PVal (TRecord n) => if list_eq_dec string_dec ss (field_names n) then Ok out else incompatible
                 | _ => incompatible
                 end
    end.
  Fixpoint determine_all (ld : labels) : res (list (string * ptype)) :=
    match ld with
    | [] => Ok []
    | (l, d) :: ld' => t <- determine d ;; rest <- determine_all ld' ;; Ok ((l, t) :: rest)
    end.

  Definition must_avro (t : ptype) : res ty := match t with PVal u => Ok u | PFcn _ _ => Raise (PyErr "TypeError") end.
  Definition assigned (asg : list (string * ptype)) (l : string) : res ptype :=
    match assoc l asg with Some t => Ok t | None => Raise (PyErr "KeyError") end.
  (** assign, 566-629 *)
  Fixpoint assign (p : pat) (a : ptype) (asg : list (string * ptype)) : res ptype :=
    match p, a with
    | QNull, PVal TNull | QBoolean, PVal TBool | QBytes, PVal TBytes | QString, PVal TString => Ok a
    | QInt, PVal TInt => Ok (PVal TInt)
    | QLong, PVal (TInt | TLong) => Ok (PVal TLong)
    | QFloat, PVal (TInt | TLong | TFloat) => Ok (PVal TFloat)
    | QDouble, PVal (TInt | TLong | TFloat | TDouble) => Ok (PVal TDouble)
    | QArray q, PVal (TArray u) => t <- assign q (PVal u) asg ;; t' <- must_avro t ;; Ok (PVal (TArray t'))
    | QMap q, PVal (TMap u) => t <- assign q (PVal u) asg ;; t' <- must_avro t ;; Ok (PVal (TMap t'))
    | QUnion _, PVal TExc => Raise (PyErr "Exception")
    | QUnion _, PVal _ => Ok a
    | QFixed _ _, PVal (TFixed _ _) | QEnum _ _, PVal (TEnum _ _) | QRecord _ _, PVal (TRecord _) | QFcn _ _, PFcn _ _ => Ok a
    | (QWild l _ | QWildRecord l _ | QWildEnum l | QWildFixed l | QEnumFields l _), _ => assigned asg l
    | _, _ => Raise (PyErr "Exception")
    end.

  (** assignRet, 631-687. The patterns of fixed, enum, record and function types, which no library function uses, go
      through P.toType: modelled for named types only, by the name. *)
  Fixpoint assign_ret (p : pat) (asg : list (string * ptype)) : res ptype :=
    match p with
    | QNull => Ok (PVal TNull) | QBoolean => Ok (PVal TBool) | QInt => Ok (PVal TInt) | QLong => Ok (PVal TLong)
    | QFloat => Ok (PVal TFloat) | QDouble => Ok (PVal TDouble) | QBytes => Ok (PVal TBytes) | QString => Ok (PVal TString)
    | QArray q => t <- assign_ret q asg ;; t' <- must_avro t ;; Ok (PVal (TArray t'))
    | QMap q => t <- assign_ret q asg ;; t' <- must_avro t ;; Ok (PVal (TMap t'))
    | QUnion qs =>
        ts <- (fix go (qs : list pat) : res (list ty) :=
                 match qs with [] => Ok [] | q :: qs' => t <- assign_ret q asg ;; t' <- must_avro t ;; ts <- go qs' ;; Ok (t' :: ts) end) qs ;;
        u <- make_union ts ;; Ok (PVal u)
    | QFixed s (Some n) => Ok (PVal (TFixed n s))
    | QEnum ss (Some n) => Ok (PVal (TEnum n ss))
    | QRecord _ (Some n) => Ok (PVal (TRecord n))
    | QFixed _ None | QEnum _ None | QRecord _ None | QFcn _ _ => Raise (PyErr "NotModelled")
    | QWild l _ | QWildRecord l _ | QWildEnum l | QWildFixed l | QEnumFields l _ => assigned asg l
    end.

  (** Sig, 337-383. [Ok None]: the signature does not match. *)
  Record sig := Sig { s_params : list (string * pat); s_ret : pat; s_life : lifespan }.
  Fixpoint assign_all (ps : list pat) (args : list ptype) (asg : list (string * ptype)) : res (list ptype) :=
    match ps, args with
    | p :: ps', a :: args' => t <- assign p a asg ;; ts <- assign_all ps' args' asg ;; Ok (t :: ts)
    | _, _ => Ok []
    end.
  Definition resolve (s : sig) (args : list ptype) (ld : labels) : res (list ptype * ptype) :=
    asg <- determine_all ld ;;
    ts <- assign_all (map snd (s_params s)) args asg ;;
    r <- assign_ret (s_ret s) asg ;;
    Ok (ts, r).
  Definition check_all (ps : list pat) (args : list ptype) : L bool :=
    allM (map (fun pa => check (fst pa) (snd pa) false false) (combine ps args)).
  Definition sig_accepts (s : sig) (args : list ptype) (v : version) : res (option (list ptype * ptype)) :=
    if (current (s_life s) v || deprecated (s_life s) v)%bool then
      if negb (Nat.eqb (length (s_params s)) (length args)) then Ok None
      else match check_all (map snd (s_params s)) args [] with
           | (Ok true, ld) => match resolve s args ld with
                              | Ok r => Ok (Some r)
                              | Raise (PyErr e) => if String.eqb e "IncompatibleTypes" then Ok None else Raise (PyErr e)
                              | Raise e => Raise e
                              end
           | (Ok false, _) => Ok None
           | (Raise e, _) => Raise e
           end
    else Ok None.
  (** Sigs.accepts, 321-335; also returns which one *)
  Fixpoint sigs_accepts (cases : list sig) (args : list ptype) (v : version) : res (option (sig * list ptype * ptype)) :=
    match cases with
    | [] => Ok None
    | s :: cases' => r <- sig_accepts s args v ;;
                     match r with
                     | Some (ts, t) => Ok (Some (s, ts, t))
                     | None => sigs_accepts cases' args v
                     end
    end.
End Check.
