(** Model of lib/regex.py.

    The regular expressions themselves are those of the C library, reached through ctypes: what regcomp makes of a pattern is given as an [engine],
    whose [regexec] tells of a text without the byte 0 whether it has a match, and where the match and its groups begin and end.
    Simplifications, all deliberate: regcomp and regfree are not modelled beyond that (a pattern that cannot be compiled is [None]);
    a failing regexec leaves the array of groups as it was, as glibc does; while loops are given [fuel] turns and raise "no end" after them;
    the table of UTF-8 indexes, which nothing uses (regex.py:117, 169-181), is left out. *)
From Verif Require Import Base BytesModel.
Open Scope string_scope.
Open Scope list_scope.

Definition group := option (nat * nat).                                        (* rm_so and rm_co; None: -1 and -1 *)
Record engine := Engine { nsub : nat; regexec : list Z -> option (list group) }.
(** a C string ends at the first byte 0 *)
Fixpoint cstring (l : list Z) : list Z := match l with [] => [] | b :: l' => if (b =? 0)%Z then [] else b :: cstring l' end.

(** ** Regexer and Region, regex.py:82-167 *)
Record regexer := Regexer { r_haystack : list Z; r_engine : engine; r_array : list group; r_offset : nat }.
(** 113-131: ctypes fills the array with zeros *)
Definition new_regexer (haystack : list Z) (pattern : option engine) (code : Z) : res regexer :=
  match pattern with
  | None => Raise (PFAErr code)
  | Some e => Ok (Regexer haystack e (repeat (Some (0%nat, 0%nat)) (S (nsub e))) 0)
  end.
(** 133-140 *)
Definition search (start : nat) (r : regexer) : bool * regexer :=
  match regexec (r_engine r) (cstring (skipn start (r_haystack r))) with
  | None => (false, Regexer (r_haystack r) (r_engine r) (r_array r) start)
  | Some gs => (negb (Nat.leb (length (r_haystack r)) start), Regexer (r_haystack r) (r_engine r) gs start)
  end.
(** 150-151 and 158-167: groups that took no part are left out *)
Definition region (r : regexer) : list (nat * nat) := flat_map (fun g => match g with Some (b, e) => [(b + r_offset r, e + r_offset r)%nat] | None => [] end) (r_array r).
(** 142-148 *)
Definition groups_found (r : regexer) : nat := length (filter (fun g => match g with Some _ => true | None => false end) (r_array r)).
(** region.beg[i], region.end[i] *)
Definition at_group (i : nat) (r : regexer) : res (nat * nat) := match nth_error (region r) i with Some be => Ok be | None => Raise (PyErr "IndexError") end.
Definition slice (h : list Z) (be : nat * nat) : list Z := firstn (snd be - fst be) (skipn (fst be) h).

(** ** convert, 183-195: the bytes of a text or of a value of type bytes, and the way back *)
Inductive subject := SString (s : text) | SBytes (v : bval).
Definition to_bytes (x : subject) : res (list Z) :=
  match x with SString s => match py_encode Utf8 s with Some b => Ok b | None => Raise (PyErr "UnicodeEncodeError") end | SBytes v => as_bytes v end.
Definition back (x : subject) (b : list Z) : res text :=
  match x with SString _ => match utf8_decode b with Some s => Ok s | None => Raise (PyErr "UnicodeDecodeError") end | SBytes _ => Ok (bytes_to_string b) end.
(** the replacement, 455-456, 476-477, 541-542: bytes as text *)
Definition as_text (x : subject) : text := match x with SString s => s | SBytes (BStr s) => s | SBytes (BBytes b) => bytes_to_string b end.

Definition no_end {A} : res A := Raise (PyErr "no end").

Section Functions.
  Variable fuel : nat.
  (** 198-212 *)
  Definition re_index (x : subject) (p : option engine) : res (list nat) :=
    h <- to_bytes x ;; r <- new_regexer h p 35000 ;;
    let (found, r) := search 0 r in
    if found then be <- at_group 0 r ;; Ok [fst be; snd be] else Ok [].
  (** 216-226 *)
  Definition re_contains (x : subject) (p : option engine) : res bool :=
    h <- to_bytes x ;; r <- new_regexer h p 35010 ;; Ok (fst (search 0 r)).
  (** 230-248 *)
  Fixpoint count_loop (n : nat) (found : bool) (start total : nat) (r : regexer) : res nat :=
    if found then
      match n with
      | O => no_end
      | S n' => let (found', r') := search start r in be <- at_group 0 r' ;; count_loop n' found' (snd be) (S total) r'
      end
    else Ok total.
  Definition re_count (x : subject) (p : option engine) : res nat :=
    h <- to_bytes x ;; r <- new_regexer h p 35020 ;;
    let (found, r) := search 0 r in be <- at_group 0 r ;; count_loop fuel found (snd be) 0 r.
  (** the loop of 264-267 and of 483-486: the region of the last match *)
  Fixpoint last_loop (n : nat) (r : regexer) : res (nat * nat) :=
    match n with
    | O => no_end
    | S n' => be <- at_group 0 r ;; let (found, r') := search (snd be) r in if found then last_loop n' r' else Ok be
    end.
  (** 252-272 *)
  Definition re_rindex (x : subject) (p : option engine) : res (list nat) :=
    h <- to_bytes x ;; r <- new_regexer h p 35030 ;;
    let (found, r) := search 0 r in
    if found then be <- last_loop fuel r ;; Ok [fst be; snd be] else Ok [].
  (** for i in range(0, re.groupsFound()), 289-290, 408-409, 436-437 *)
  Definition all_groups (r : regexer) : res (list (nat * nat)) := rmapM (fun i => at_group i r) (seq 0 (groups_found r)).
  Definition pair_list (be : nat * nat) : list nat := [fst be; snd be].
  (** 276-294 *)
  Definition re_groups (x : subject) (p : option engine) : res (list (list nat)) :=
    h <- to_bytes x ;; r <- new_regexer h p 35040 ;;
    let (found, r) := search 0 r in
    _ <- at_group 0 r ;;
    if found then gs <- all_groups r ;; Ok (map pair_list gs) else Ok [].
  (** 298-319 *)
  Fixpoint indexall_loop (n : nat) (r : regexer) (out : list (list nat)) : res (list (list nat)) :=
    match n with
    | O => no_end
    | S n' => be <- at_group 0 r ;; let (found, r') := search (snd be) r in
              if found then indexall_loop n' r' (out ++ [pair_list be]) else Ok (out ++ [pair_list be])
    end.
  Definition re_indexall (x : subject) (p : option engine) : res (list (list nat)) :=
    h <- to_bytes x ;; r <- new_regexer h p 35050 ;;
    let (found, r) := search 0 r in
    _ <- at_group 0 r ;;
    if found then indexall_loop fuel r [] else Ok [].
  (** 323-344 *)
  Fixpoint findall_loop (x : subject) (h : list Z) (n : nat) (r : regexer) (out : list text) : res (list text) :=
    match n with
    | O => no_end
    | S n' => be <- at_group 0 r ;; s <- back x (slice h be) ;; let (found, r') := search (snd be) r in
              if found then findall_loop x h n' r' (out ++ [s]) else Ok (out ++ [s])
    end.
  Definition re_findall (x : subject) (p : option engine) : res (list text) :=
    h <- to_bytes x ;; r <- new_regexer h p 35060 ;;
    let (found, r) := search 0 r in
    _ <- at_group 0 r ;;
    if found then findall_loop x h fuel r [] else Ok [].
  (** 348-366; the tag of the union is left out *)
  Definition re_findfirst (x : subject) (p : option engine) : res (option text) :=
    h <- to_bytes x ;; r <- new_regexer h p 35070 ;;
    let (found, r) := search 0 r in
    if found then be <- at_group 0 r ;; s <- back x (slice h be) ;; Ok (Some s) else Ok None.
  (** 370-388 *)
  Definition re_findgroupsfirst (x : subject) (p : option engine) : res (list text) :=
    h <- to_bytes x ;; r <- new_regexer h p 35080 ;;
    let (found, r) := search 0 r in
    if found then gs <- all_groups r ;; rmapM (fun be => back x (slice h be)) gs else Ok [].
  (** 392-416 *)
  Fixpoint findgroups_loop (x : subject) (h : list Z) (n : nat) (r : regexer) (out : list (list text)) : res (list (list text)) :=
    match n with
    | O => no_end
    | S n' => gs <- all_groups r ;; l <- rmapM (fun be => back x (slice h be)) gs ;; be <- at_group 0 r ;; let (found, r') := search (snd be) r in
              if found then findgroups_loop x h n' r' (out ++ [l]) else Ok (out ++ [l])
    end.
  Definition re_findgroupsall (x : subject) (p : option engine) : res (list (list text)) :=
    h <- to_bytes x ;; r <- new_regexer h p 35090 ;;
    let (found, r) := search 0 r in
    if found then findgroups_loop x h fuel r [] else Ok [].
  (** 420-444 *)
  Fixpoint groupsall_loop (n : nat) (r : regexer) (out : list (list (list nat))) : res (list (list (list nat))) :=
    match n with
    | O => no_end
    | S n' => gs <- all_groups r ;; be <- at_group 0 r ;; let (found, r') := search (snd be) r in
              if found then groupsall_loop n' r' (out ++ [map pair_list gs]) else Ok (out ++ [map pair_list gs])
    end.
  Definition re_groupsall (x : subject) (p : option engine) : res (list (list (list nat))) :=
    h <- to_bytes x ;; r <- new_regexer h p 35100 ;;
    let (found, r) := search 0 r in
    if found then groupsall_loop fuel r [] else Ok [].
  (** 448-465 *)
  Definition re_replacefirst (x : subject) (p : option engine) (replacement : subject) : res text :=
    h <- to_bytes x ;; r <- new_regexer h p 35110 ;;
    let (found, r) := search 0 r in
    if found then be <- at_group 0 r ;; a <- back x (firstn (fst be) h) ;; b <- back x (skipn (snd be) h) ;; Ok (a ++ as_text replacement ++ b)
    else back x h.
  (** 469-491 *)
  Definition re_replacelast (x : subject) (p : option engine) (replacement : subject) : res text :=
    h <- to_bytes x ;; r <- new_regexer h p 35120 ;;
    let (found, r) := search 0 r in
    if found then be <- last_loop fuel r ;; a <- back x (firstn (fst be) h) ;; b <- back x (skipn (snd be) h) ;; Ok (a ++ as_text replacement ++ b)
    else back x h.
  (** 495-527: the pieces before the matches and where the last match ends *)
  Fixpoint split_loop (x : subject) (h : list Z) (n : nat) (beg : nat) (r : regexer) (out : list text) : res (list text * nat) :=
    match n with
    | O => no_end
    | S n' => be <- at_group 0 r ;; s <- back x (slice h (beg, fst be)) ;; let (found, r') := search (snd be) r in
              if found then split_loop x h n' (snd be) r' (out ++ [s]) else Ok (out ++ [s], snd be)
    end.
  Definition re_split (x : subject) (p : option engine) : res (list text) :=
    h <- to_bytes x ;; r <- new_regexer h p 35130 ;;
    let (found, r) := search 0 r in
    be <- at_group 0 r ;;
    let flag := Nat.eqb (fst be) 0 in
    if found then
      o <- split_loop x h fuel 0 r [] ;;
      out <- (if negb (Nat.eqb (snd o) (length h)) then s <- back x (skipn (snd o) h) ;; Ok (fst o ++ [s]) else Ok (fst o)) ;;
      Ok (if flag then skipn 1 out else out)
    else s <- back x h ;; Ok [s].
  (** 531-561 *)
  Fixpoint replaceall_loop (x : subject) (h : list Z) (replacement : text) (n : nat) (beg : nat) (r : regexer) (out : text) : res (text * nat) :=
    match n with
    | O => no_end
    | S n' => be <- at_group 0 r ;; s <- back x (slice h (beg, fst be)) ;; let (found, r') := search (snd be) r in
              if found then replaceall_loop x h replacement n' (snd be) r' (out ++ s ++ replacement) else Ok (out ++ s ++ replacement, snd be)
    end.
  Definition re_replaceall (x : subject) (p : option engine) (replacement : subject) : res text :=
    h <- to_bytes x ;; r <- new_regexer h p 35140 ;;
    let (found, r) := search 0 r in
    _ <- at_group 0 r ;;
    if found then
      o <- replaceall_loop x h (as_text replacement) fuel 0 r [] ;;
      (if negb (Nat.eqb (snd o) (length h)) then s <- back x (skipn (snd o) h) ;; Ok (fst o ++ s) else Ok (fst o))
    else Ok (as_text x).
End Functions.
