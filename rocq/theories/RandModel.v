(** Random values: lib/rand.py:42-213.
    The generator (Python's random.Random) is a parameter: [draw n] is its _randbelow(n), an integer below n that may depend on
    everything drawn before (the state). random.randint, random.uniform, random.sample and random.getrandbits are modelled by
    their CPython definitions on top of it; rand.gaussian is not modelled. Strings are lists of code points. *)
From Coq Require Import SpecFloat.
From Verif Require Import Base PyNum Effects ArrayModel StrModel.
Open Scope string_scope.
Open Scope list_scope.
Open Scope Z_scope.

Section Rand.
  Context {S : Type} (draw : Z -> M S Z).

  (** random.randint(a, b): a + _randbelow(b - a + 1); ValueError for an empty range *)
  Definition randint (a b : Z) : M S Z :=
    if b <? a then raise (PyErr "ValueError") else k <~ draw (b - a + 1) ;; ret (a + k).
  (** random.random(): a multiple of 2^-53 below 1 *)
  Definition unit_of (k : Z) : pf := binary_normalize 53 1024 k (-53) false.
  Definition random : M S pf := k <~ draw (2 ^ 53) ;; ret (unit_of k).
  (** random.uniform(a, b): a + (b - a) * random() *)
  Definition uniform (a b : pf) : M S pf := u <~ random ;; ret (fadd a (fmul (fsub b a) u)).
  (** random.getrandbits(n) *)
  Definition getrandbits (n : Z) : M S Z := draw (2 ^ n).

  (** lib/rand.py:47-52, 60-65 *)
  Definition r_int0 : M S Z := randint (- 2 ^ 31) (2 ^ 31 - 1).
  Definition r_int (low high : Z) : M S Z := if high <=? low then raise (PFAErr 34000) else randint low (high - 1).
  Definition r_long0 : M S Z := randint (- 2 ^ 63) (2 ^ 63 - 1).
  Definition r_long (low high : Z) : M S Z := if high <=? low then raise (PFAErr 34010) else randint low (high - 1).
  (** lib/rand.py:72-74, 81-83 (rand.float differs in the error code, 34020) *)
  Definition r_double (low high : pf) : M S pf := if num_le (NF high) (NF low) then raise (PFAErr 34030) else uniform low high.

  (** population[i] *)
  Definition get {A} (l : list A) (i : Z) : M S A :=
    match nth_error l (Z.to_nat i) with Some x => if i <? 0 then raise (PyErr "IndexError") else ret x | None => raise (PyErr "IndexError") end.
  (** lib/rand.py:92-95 *)
  Definition r_choice {A} (population : list A) : M S A :=
    if zlen population =? 0 then raise (PFAErr 34040)
    else i <~ randint 0 (zlen population - 1) ;; get population i.
  (** lib/rand.py:102-105 *)
  Definition r_choices {A} (size : Z) (population : list A) : M S (list A) :=
    if zlen population =? 0 then raise (PFAErr 34050)
    else mapM (fun _ => i <~ randint 0 (zlen population - 1) ;; get population i) (seq 0 (Z.to_nat size)).

  (** random.sample(population, k) (CPython): for small populations, elements are taken out of a pool; for large ones,
      positions are drawn until an unused one is found. Which of both is used depends on the sizes only ([use_pool]);
      the redrawing loop has fuel. *)
  Definition set_at {A} (l : list A) (i : Z) (x : A) : list A := firstn (Z.to_nat i) l ++ x :: skipn (Datatypes.S (Z.to_nat i)) l.
  Fixpoint sample_pool {A} (k : nat) (m : Z) (pool : list A) : M S (list A) :=
    match k with
    | O => ret []
    | Datatypes.S k' =>
        j <~ draw m ;;
        x <~ get pool j ;;
        y <~ get pool (m - 1) ;;
        xs <~ sample_pool k' (m - 1) (set_at pool j y) ;;
        ret (x :: xs)
    end.
  Fixpoint draw_new (fuel : nat) (n : Z) (selected : list Z) : M S Z :=
    match fuel with
    | O => raise (PyErr "out of fuel")
    | Datatypes.S f => j <~ draw n ;; if existsb (Z.eqb j) selected then draw_new f n selected else ret j
    end.
  Fixpoint sample_set {A} (fuel : nat) (k : nat) (n : Z) (selected : list Z) (population : list A) : M S (list A) :=
    match k with
    | O => ret []
    | Datatypes.S k' =>
        j <~ draw_new fuel n selected ;;
        x <~ get population j ;;
        xs <~ sample_set fuel k' n (j :: selected) population ;;
        ret (x :: xs)
    end.
  Context (use_pool : Z -> Z -> bool) (fuel : nat).
  Definition py_sample {A} (population : list A) (k : Z) : M S (list A) :=
    if (k <? 0) || (zlen population <? k) then raise (PyErr "ValueError")
    else if use_pool (zlen population) k then sample_pool (Z.to_nat k) (zlen population) population
    else sample_set fuel (Z.to_nat k) (zlen population) [] population.
  (** lib/rand.py:112-117 *)
  Definition r_sample {A} (size : Z) (population : list A) : M S (list A) :=
    if zlen population =? 0 then raise (PFAErr 34060)
    else if zlen population <? size then raise (PFAErr 34061)
    else py_sample population size.

  (** lib/rand.py:127-141: the cumulative sums (without the leading 0.0), then the first one above the drawn position; None if there is none *)
  Fixpoint cumulative (acc : pf) (l : list pf) : res (list pf) :=
    match l with
    | [] => Ok []
    | x :: l' =>
        if isnan x || isinf x then Raise (PFAErr 34071)
        else if num_lt (NF x) (NI 0) then Raise (PFAErr 34072)
        else r <- cumulative (fadd acc x) l' ;; Ok (fadd acc x :: r)
    end.
  Fixpoint above (position : pf) (i : Z) (l : list pf) : option Z :=
    match l with
    | [] => None
    | y :: l' => if num_lt (NF position) (NF y) then Some (i - 1) else above position (i + 1) l'
    end.
  Definition select_index (distribution : list pf) : M S (option Z) :=
    sums <~ lift (cumulative f0 distribution) ;;
    let total := last sums f0 in
    if num_eq (NF total) (NF f0) then raise (PFAErr 34070)
    else position <~ uniform f0 total ;; ret (above position 0 (f0 :: sums)).
  (** lib/rand.py:148: the index itself, which is None if no sum is above the position *)
  Definition r_histogram (distribution : list pf) : M S (option Z) := select_index distribution.
  (** lib/rand.py:143-146: the record at the index; distribution[None] is a TypeError, distribution[-1] the last one *)
  Definition r_histogram_rec {A} (prob : A -> pf) (distribution : list A) : M S A :=
    i <~ select_index (map prob distribution) ;;
    match i with
    | None => raise (PyErr "TypeError")
    | Some i => if i <? 0 then get distribution (i + zlen distribution) else get distribution i
    end.

  (** lib/rand.py:159-171 *)
  Definition r_string1 (size : Z) : M S str :=
    if size <=? 0 then raise (PFAErr 34080) else mapM (fun _ => randint 1 55296) (seq 0 (Z.to_nat size)).
  Definition r_string2 (size : Z) (population : str) : M S str :=
    if size <=? 0 then raise (PFAErr 34080)
    else if zlen population =? 0 then raise (PFAErr 34083)
    else mapM (fun _ => i <~ randint 0 (zlen population - 1) ;; get population i) (seq 0 (Z.to_nat size)).
  Definition r_string3 (size low high : Z) : M S str :=
    if size <=? 0 then raise (PFAErr 34080)
    else if high <=? low then raise (PFAErr 34081)
    else if (low <? 1) || (55296 <? low) || (high <? 1) || (55296 <? high) then raise (PFAErr 34082)
    else mapM (fun _ => randint low (high - 1)) (seq 0 (Z.to_nat size)).
  (** lib/rand.py:180-196 (byte arrays are strings of characters below 256 here as there) *)
  Definition r_bytes1 (size : Z) : M S str :=
    if size <=? 0 then raise (PFAErr 34090) else mapM (fun _ => randint 0 255) (seq 0 (Z.to_nat size)).
  Definition r_bytes2 (size : Z) (population : str) : M S str :=
    if size <=? 0 then raise (PFAErr 34090)
    else if zlen population =? 0 then raise (PFAErr 34093)
    else mapM (fun _ => i <~ randint 0 (zlen population - 1) ;; get population i) (seq 0 (Z.to_nat size)).
  Definition r_bytes3 (size low high : Z) : M S str :=
    if size <=? 0 then raise (PFAErr 34090)
    else if high <=? low then raise (PFAErr 34091)
    else if (low <? 0) || (255 <? low) || (high <? 0) || (256 <? high) then raise (PFAErr 34092)
    else mapM (fun _ => randint low (high - 1)) (seq 0 (Z.to_nat size)).

  (** lib/rand.py:203-204, 211-212: "{0:08x}-{1:04x}-4{2:03x}-8{3:03x}-{4:016x}" *)
  Definition r_uuid : M S str :=
    a <~ getrandbits 32 ;; b <~ getrandbits 16 ;; c <~ getrandbits 12 ;; d <~ getrandbits 12 ;; e <~ getrandbits 64 ;;
    ret (zero_padded 16 a 8 ++ [45] ++ zero_padded 16 b 4 ++ [45] ++ [52] ++ zero_padded 16 c 3 ++ [45] ++ [56] ++ zero_padded 16 d 3 ++ [45] ++ zero_padded 16 e 16).
End Rand.
