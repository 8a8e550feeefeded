(** JSON decoding and encoding of Avro data, comparison and input checking: titus/datatype.py:873-1334.
    Strings are sequences of characters below 256. The NumPy types of 1160-1181 are not modelled. Recursion over
    recursive record types is bounded by a number; exceeding it is Python's RecursionError. *)
From Verif Require Import Base PyNum ScopeModel TypeModel.
Require Import Ascii.
Open Scope string_scope.
Open Scope list_scope.
Open Scope Z_scope.

(** int(s) and float(s) for a string; None: ValueError *)
Record parsers := Parsers { parse_int : string -> option Z; parse_float : string -> option pf }.

Definition char_code (c : ascii) : Z := Z.of_N (N_of_ascii c).
Fixpoint string_to_bytes (s : string) : list Z :=
  match s with EmptyString => [] | String c r => char_code c :: string_to_bytes r end.
Fixpoint string_of_bytes (l : list Z) : string :=
  match l with [] => EmptyString | b :: r => String (ascii_of_N (Z.to_N b)) (string_of_bytes r) end.
Fixpoint chars (s : string) : list val :=
  match s with EmptyString => [] | String c r => VStr (String c EmptyString) :: chars r end.
Fixpoint str_len (s : string) : nat := match s with EmptyString => 0 | String _ r => S (str_len r) end.

(** int(value), float(value) *)
Definition to_int (P : parsers) (v : val) : res Z :=
  match v with
  | VInt z => Ok z
  | VBool b => Ok (if b then 1 else 0)
  | VFlt f => py_int f
  | VStr s => match parse_int P s with Some z => Ok z | None => Raise (PyErr "ValueError") end
  | VBytes l => match parse_int P (string_of_bytes l) with Some z => Ok z | None => Raise (PyErr "ValueError") end
  | _ => Raise (PyErr "TypeError")
  end.
Definition to_float (P : parsers) (v : val) : res pf :=
  match v with
  | VInt z => py_float z
  | VBool b => Ok (f_of_Z (if b then 1 else 0))
  | VFlt f => Ok f
  | VStr s => match parse_float P s with Some f => Ok f | None => Raise (PyErr "ValueError") end
  | VBytes l => match parse_float P (string_of_bytes l) with Some f => Ok f | None => Raise (PyErr "ValueError") end
  | _ => Raise (PyErr "TypeError")
  end.
(** json.dumps cannot write bytes *)
Fixpoint has_bytes (v : val) : bool :=
  match v with
  | VBytes _ => true
  | VArr l => existsb has_bytes l
  | VDict d => existsb (fun kv => has_bytes (snd kv)) d
  | _ => false
  end.
(** raise AvroException("{0} does not match ...".format(json.dumps(value), ...)), 953, 1028 *)
Definition mismatch {A} (v : val) : res A := if has_bytes v then Raise (PyErr "TypeError") else Raise AvroErr.
Definition recursion {A} : res A := Raise (PyErr "RecursionError").
(** try: ... except (ValueError, TypeError): pass, and then 953 *)
Definition converted {A} (v : val) (r : res A) (k : A -> val) : res val :=
  match r with
  | Ok a => Ok (k a)
  | Raise (PyErr e) => if (String.eqb e "ValueError" || String.eqb e "TypeError")%bool then mismatch v else Raise (PyErr e)
  | Raise e => Raise e
  end.
Definition on_values (f : val -> res val) (d : list (string * val)) : res (list (string * val)) :=
  rmapM (fun kv => w <- f (snd kv) ;; Ok (fst kv, w)) d.
Definition named (g : string) (ts : list ty) : option ty := find (fun t => String.eqb (tyname t) g) ts.
Definition has_null (ts : list ty) : bool := existsb (fun t => match t with TNull => true | _ => false end) ts.

(** *** jsonDecoder, 873-953 *)
Fixpoint decode (n : nat) (P : parsers) (D : defs) (t : ty) (v : val) : res val :=
  match n with
  | O => recursion
  | S n' =>
      match t with
      | TNull => match v with VNull => Ok v | _ => mismatch v end
      | TBool => match v with VBool _ => Ok v | _ => mismatch v end
      | TInt | TLong => converted v (to_int P v) VInt
      | TFloat | TDouble => converted v (to_float P v) VFlt
      | TBytes | TString => match v with VStr _ => Ok v | _ => mismatch v end
      | TFixed _ size => match v with VStr s => if Nat.eqb (str_len s) size then Ok v else mismatch v | _ => mismatch v end
      | TEnum _ symbols => match v with VStr s => if mem s symbols then Ok v else mismatch v | _ => mismatch v end
      | TArray items => match v with VArr l => l' <- rmapM (decode n' P D items) l ;; Ok (VArr l') | _ => mismatch v end
      | TMap values => match v with VDict d => d' <- on_values (decode n' P D values) d ;; Ok (VDict d') | _ => mismatch v end
      | TRecord name =>
          match v with
          | VDict d =>
              out <- rmapM (fun f =>
                       w <- match assoc (f_name f) d with
                            | Some x => decode n' P D (f_type f) x                     (* 933 *)
                            | None =>
                                match default_of f with
                                | Some x => decode n' P D (f_type f) x                 (* 935 *)
                                | None => match f_type f with TNull => Ok VNull | _ => mismatch v end
                                end
                            end ;;
                       Ok (f_name f, w)) (fields_of D name) ;;
              Ok (VDict out)
          | _ => mismatch v
          end
      | TUnion ts =>
          match v with
          | VDict [(tag, x)] =>
              match named tag (rev ts) with                                            (* 946: the last one of a name *)
              | Some t' => w <- decode n' P D t' x ;; Ok (VDict [(tag, w)])
              | None => mismatch v
              end
          | VNull => if mem "null" (map tyname ts) then Ok VNull else mismatch v       (* 949 *)
          | _ => mismatch v
          end
      | TExc => Raise (PyErr "Exception")
      end
  end.

(** The first type that encodes the value, 1008-1017, 1018-1027; None: no type does. *)
Fixpoint first_type {A} (f : ty -> res A) (ts : list ty) : res (option (ty * A)) :=
  match ts with
  | [] => Ok None
  | t :: ts' => match f t with
                | Ok a => Ok (Some (t, a))
                | Raise AvroErr => first_type f ts'
                | Raise e => Raise e
                end
  end.
(** *** jsonEncoder, 955-1028 *)
Fixpoint encode (n : nat) (D : defs) (tagged : bool) (t : ty) (v : val) : res val :=
  match n with
  | O => recursion
  | S n' =>
      let tag (p : ty * val) := if tagged then VDict [(tyname (fst p), snd p)] else snd p in
      match t, v with
      | TNull, VNull => Ok v
      | TBool, VBool _ => Ok v
      | (TInt | TLong), VInt _ => Ok v
      | (TFloat | TDouble), VInt z => f <- py_float z ;; Ok (VFlt f)
      | (TFloat | TDouble), VFlt _ => Ok v
      | (TBytes | TString), VStr _ => Ok v
      | TFixed _ size, VStr s => if Nat.eqb (str_len s) size then Ok v else mismatch v
      | TEnum _ symbols, VStr s => if mem s symbols then Ok v else mismatch v
      | TArray items, VArr l => l' <- rmapM (encode n' D tagged items) l ;; Ok (VArr l')
      | TMap values, VDict d => d' <- on_values (encode n' D tagged values) d ;; Ok (VDict d')
      | TRecord name, VDict d =>
          out <- rmapM (fun f =>
                   match assoc (f_name f) d with
                   | Some x => w <- encode n' D tagged (f_type f) x ;; Ok [(f_name f, w)]
                   | None => match default_of f with Some _ => Ok [] | None => mismatch v end
                   end) (fields_of D name) ;;
          Ok (VDict (concat out))
      | TUnion ts, _ =>
          if (has_null ts && match v with VNull => true | _ => false end)%bool then Ok VNull       (* 1003 *)
          else
            one <- match v with
                   | VDict [(_, x)] => first_type (fun t' => encode n' D tagged t' x) ts           (* 1006: the tag is not read *)
                   | _ => Ok None
                   end ;;
            match one with
            | Some p => Ok (tag p)
            | None =>
                two <- first_type (fun t' => encode n' D tagged t' v) ts ;;
                match two with Some p => Ok (tag p) | None => mismatch v end
            end
      | _, _ => mismatch v
      end
  end.

(** *** compare, 1030-1156 *)
Fixpoint str_cmp (s r : string) : comparison :=
  match s, r with
  | EmptyString, EmptyString => Eq
  | EmptyString, _ => Lt
  | _, EmptyString => Gt
  | String c s', String d r' => match N_of_ascii c ?= N_of_ascii d with Eq => str_cmp s' r' | x => x end
  end%N.
Definition sign_of (c : comparison) : Z := match c with Lt => -1 | Eq => 0 | Gt => 1 end.
(** (x > y) - (x < y) on numbers *)
Definition num_sign (x y : num) : Z := (if num_gt x y then 1 else 0) - (if num_lt x y then 1 else 0).
Definition num_of (v : val) : option num := match v with VInt z => Some (NI z) | VFlt f => Some (NF f) | _ => None end.
Definition bool_z (b : bool) : Z := if b then 1 else 0.
(** 1065-1075; math.isnan of an int too large for a float raises *)
Definition double_sign (x y : num) : res Z :=
  nx <- py_isnan x ;; ny <- py_isnan y ;;
  if nx then Ok (if ny then 0 else 1) else Ok (if ny then -1 else num_sign x y).
Fixpoint index_of (s : string) (l : list string) : option Z :=
  match l with [] => None | x :: l' => if String.eqb x s then Some 0 else option_map (Z.add 1) (index_of s l') end.
(** 1091-1094: the first difference of the pairs, or the last result *)
Fixpoint cmp_zip (f : val -> val -> res Z) (xs ys : list val) (last : Z) : res Z :=
  match xs, ys with
  | x :: xs', y :: ys' => c <- f x y ;; if c =? 0 then cmp_zip f xs' ys' last else Ok c
  | _, _ => Ok last
  end.
Definition cmp_len {A} (xs ys : list A) : Z := sign_of (Nat.compare (length xs) (length ys)).
Definition lookup_key (k : string) (d : list (string * val)) : res val :=
  match assoc k d with Some v => Ok v | None => Raise (PyErr "KeyError") end.
Fixpoint cmp_fields (f : ty -> val -> val -> res Z) (fs : list field) (x y : list (string * val)) : res Z :=
  match fs with
  | [] => Ok 0
  | fd :: fs' =>
      if match f_order fd with Some o => String.eqb o "ignore" | None => false end then cmp_fields f fs' x y
      else
        a <- lookup_key (f_name fd) x ;; b <- lookup_key (f_name fd) y ;;
        c <- f (f_type fd) a b ;;
        if c =? 0 then cmp_fields f fs' x y
        else if match f_order fd with Some o => String.eqb o "descending" | None => false end then Ok (- c)
        else Ok c
  end.
(** the position of a member type, 1117 *)
Fixpoint position (g : string) (ts : list ty) : option (Z * ty) :=
  match ts with
  | [] => None
  | t :: ts' => if String.eqb (tyname t) g then Some (0, t) else option_map (fun p => (fst p + 1, snd p)) (position g ts')
  end.
(** the last member type that encodes the value, 1119-1129 *)
Fixpoint last_type (f : ty -> res val) (i : Z) (ts : list ty) (found : option (Z * ty)) : res (option (Z * ty)) :=
  match ts with
  | [] => Ok found
  | t :: ts' => match f t with
                | Ok _ => last_type f (i + 1) ts' (Some (i, t))
                | Raise AvroErr => last_type f (i + 1) ts' found
                | Raise e => Raise e
                end
  end.
Fixpoint compare (n : nat) (D : defs) (t : ty) (x y : val) : res Z :=
  match n with
  | O => recursion
  | S n' =>
      let bad := if has_bytes x then Raise (PyErr "TypeError") else mismatch y in
      match t with
      | TNull => match x, y with VNull, VNull => Ok 0 | _, _ => bad end
      | TBool => match x, y with VBool a, VBool b => Ok (sign_of (bool_z a ?= bool_z b)) | _, _ => bad end
      | TInt | TLong => match x, y with VInt a, VInt b => Ok (sign_of (a ?= b)) | _, _ => bad end
      | TFloat => match num_of x, num_of y with Some a, Some b => Ok (num_sign a b) | _, _ => bad end
      | TDouble => match num_of x, num_of y with Some a, Some b => double_sign a b | _, _ => bad end
      | TBytes | TFixed _ _ | TString => match x, y with VStr a, VStr b => Ok (sign_of (str_cmp a b)) | _, _ => bad end
      | TEnum _ symbols =>
          match x, y with
          | VStr a, VStr b => match index_of a symbols, index_of b symbols with
                              | Some i, Some j => Ok (sign_of (i - j ?= 0))
                              | _, _ => bad
                              end
          | _, _ => bad
          end
      | TArray items => match x, y with VArr a, VArr b => cmp_zip (compare n' D items) a b (cmp_len a b) | _, _ => bad end
      | TMap _ => match x, y with VDict _, VDict _ => Raise (PyErr "NotImplementedError") | _, _ => bad end
      | TRecord name => match x, y with VDict a, VDict b => cmp_fields (compare n' D) (fields_of D name) a b | _, _ => bad end
      | TUnion ts =>
          let branch (v : val) : res (Z * ty * val) :=
            match v with
            | VDict [(tag, w)] => match position tag ts with Some (i, t') => Ok (i, t', w) | None => Raise (PyErr "IndexError") end
            | _ => p <- last_type (fun t' => encode n' D true t' v) 0 ts None ;;
                   match p with Some (i, t') => Ok (i, t', v) | None => Raise AvroErr end
            end in
          bx <- branch x ;; by_ <- branch y ;;
          (let '(i, t', a) := bx in let '(j, _, b) := by_ in
           if i =? j then compare n' D t' a b else Ok (sign_of (i - j ?= 0)))
      | TExc => bad
      end
  end.

(** *** checkData, 1183-1334 *)
Definition type_error {A} : res A := Raise (PyErr "TypeError").
(** try: data = int(data) except ValueError: raise TypeError *)
Definition value_error_as_type_error {A} (r : res A) : res A :=
  match r with Raise (PyErr e) => if String.eqb e "ValueError" then type_error else Raise (PyErr e) | _ => r end.
(** iterating a list as if it were a map (1285-1292): data[key] for the first element, then its key is no string *)
Definition as_index (v : val) : option Z := match v with VInt z => Some z | VBool b => Some (bool_z b) | _ => None end.
Definition nth_py (z : Z) (l : list val) : option val :=
  let k := if z <? 0 then z + Z.of_nat (length l) else z in
  if k <? 0 then None else nth_error l (Z.to_nat k).
Definition list_as_map (f : val -> res val) (l : list val) : res val :=
  match l with
  | [] => Ok (VDict [])
  | k :: _ => match as_index k with
              | None => type_error
              | Some z => match nth_py z l with
                          | None => Raise (PyErr "IndexError")
                          | Some x => _ <- f x ;; type_error
                          end
              end
  end.
Definition wrap (tag : string) (v : val) : val := if String.eqb tag "null" then v else VDict [(tag, v)].
(** 1322-1332 *)
Fixpoint first_checked (f : ty -> res val) (ts : list ty) : res val :=
  match ts with
  | [] => type_error
  | t :: ts' => match f t with
                | Ok w => Ok (wrap (tyname t) w)
                | Raise (PyErr e) => if String.eqb e "TypeError" then first_checked f ts' else Raise (PyErr e)
                | Raise e => Raise e
                end
  end.
Fixpoint check (n : nat) (P : parsers) (D : defs) (v : val) (t : ty) : res val :=
  match n with
  | O => recursion
  | S n' =>
      match t with
      | TNull => match v with VNull => Ok VNull | VStr s => if String.eqb s "null" then Ok VNull else type_error | _ => type_error end
      | TBool => match v with
                 | VBool _ => Ok v
                 | VStr s => if String.eqb s "true" then Ok (VBool true) else if String.eqb s "false" then Ok (VBool false) else type_error
                 | _ => type_error
                 end
      | TInt | TLong => match v with
                        | VStr _ => z <- value_error_as_type_error (to_int P v) ;; Ok (VInt z)
                        | VInt _ | VBool _ => Ok v                                     (* a bool is an int *)
                        | _ => type_error
                        end
      | TFloat | TDouble => match v with
                            | VStr _ => f <- value_error_as_type_error (to_float P v) ;; Ok (VFlt f)
                            | VInt _ | VBool _ => f <- to_float P v ;; Ok (VFlt f)
                            | VFlt _ => Ok v
                            | _ => type_error
                            end
      | TBytes | TFixed _ _ => match v with
                               | VBytes _ => Ok v
                               | VStr s => Ok (VBytes (string_to_bytes s))
                               | _ => type_error
                               end
      | TString | TEnum _ _ => match v with VStr _ => Ok v | _ => type_error end
      | TArray items =>
          let elements := match v with
                          | VArr l => Some l
                          | VStr s => Some (chars s)
                          | VBytes l => Some (map VInt l)
                          | VDict d => Some (map (fun kv => VStr (fst kv)) d)
                          | _ => None
                          end in
          match elements with
          | Some l => l' <- rmapM (fun x => check n' P D x items) l ;; Ok (VArr l')
          | None => type_error
          end
      | TMap values =>
          match v with
          | VDict d => d' <- on_values (fun x => check n' P D x values) d ;; Ok (VDict d')
          | VArr l => list_as_map (fun x => check n' P D x values) l
          | VBytes l => list_as_map (fun x => check n' P D x values) (map VInt l)
          | VStr EmptyString => Ok (VDict [])
          | _ => type_error
          end
      | TRecord name =>
          match v with
          | VDict d =>
              out <- rmapM (fun f => match assoc (f_name f) d with
                                     | Some x => w <- check n' P D x (f_type f) ;; Ok (f_name f, w)
                                     | None => type_error
                                     end) (fields_of D name) ;;
              Ok (VDict out)
          | VArr _ | VStr _ | VBytes _ => match fields_of D name with [] => Ok (VDict []) | _ => type_error end
          | _ => type_error
          end
      | TUnion ts =>
          match v with
          | VDict [(tag, x)] =>
              match named tag ts with
              | Some t' => w <- check n' P D x t' ;; Ok (wrap tag w)
              | None => type_error
              end
          | _ => first_checked (fun t' => check n' P D v t') ts
          end
      | TExc => Ok v
      end
  end.
