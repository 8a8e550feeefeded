(** Model of titus/lib/map.py. A map is a Python dict: an association list in insertion order, with distinct keys. *)
From Verif Require Import Base Effects ArrayModel.
Open Scope string_scope.
Open Scope list_scope.
Open Scope Z_scope.

(** the order of Python strings (by code points, here up to 255) *)
Fixpoint str_lt (s r : string) : bool :=
  match s, r with
  | _, EmptyString => false
  | EmptyString, String _ _ => true
  | String c s', String d r' =>
      if (Ascii.N_of_ascii c <? Ascii.N_of_ascii d)%N then true
      else if (Ascii.N_of_ascii d <? Ascii.N_of_ascii c)%N then false else str_lt s' r'
  end.
Definition str_in (k : string) (l : list string) : bool := existsb (String.eqb k) l.
(** dict(pairs): later pairs overwrite the value of earlier ones with the same key *)
Definition dict_of {A} (l : list (string * A)) : list (string * A) :=
  fold_left (fun d kv => dict_set (fst kv) (snd kv) d) l [].
Fixpoint keys_eq (l l' : list string) : bool :=
  match l, l' with
  | [], [] => true
  | x :: l, y :: l' => String.eqb x y && keys_eq l l'
  | _, _ => false
  end.

Section Basic.
  Context {A : Type}.
  Notation dict := (list (string * A)).
  Definition m_len (m : dict) : Z := zlen m.                                      (* 61-67 *)
  Definition m_keys (m : dict) : list string := map fst m.                        (* 69-75 *)
  Definition m_values (m : dict) : list A := map snd m.                           (* 77-83 *)
  Definition m_containsKey (m : dict) (k : string) : bool := has_key k m.         (* 98-99 *)
  Definition m_containsValue (eqb : A -> A -> bool) (m : dict) (v : A) : bool :=
    existsb (fun x => eqb x v) (map snd m).                                       (* 113-117 *)
  (** 128-130: dict(m, key=value) *)
  Definition m_add (m : dict) (k : string) (v : A) : dict := dict_set k v m.
  Definition m_remove (m : dict) (k : string) : dict := dict_del k m.             (* 137-148 *)
  Definition m_only (m : dict) (ks : list string) : dict :=                       (* 150-156 *)
    dict_of (filter (fun kv => str_in (fst kv) ks) m).
  Definition m_except (m : dict) (ks : list string) : dict :=                     (* 158-164 *)
    dict_of (filter (fun kv => negb (str_in (fst kv) ks)) m).
  Definition m_update (base overlay : dict) : dict := dict_of (base ++ overlay).  (* 166-172 *)
  Definition m_split (m : dict) : list dict := map (fun kv => [kv]) m.            (* 174-180 *)
  Definition m_join (a : list dict) : dict := dict_of (concat a).                 (* 182-191 *)

  (** 195-211 and 213-229. [before x y]: the entry x is to be inserted before y. The loop reads out[ind] only while
      ind < len(out). *)
  Section Arg.
    Variable lt : A -> A -> bool.
    Fixpoint skip (kx : string * A) (out : dict) : dict :=                         (* 202-204, 220-222 *)
      match out with
      | [] => [kx]
      | y :: out' =>
          if negb (lt (snd y) (snd kx)) && negb (lt (snd kx) (snd y)) && str_lt (fst y) (fst kx)
          then y :: skip kx out' else kx :: out
      end.
    Fixpoint insert_arg (before : string * A -> string * A -> bool) (kx : string * A) (out : dict) : dict :=
      match out with
      | [] => [kx]
      | y :: out' => if before kx y then skip kx out else y :: insert_arg before kx out'
      end.
    Definition arg_n (before : string * A -> string * A -> bool) (m : dict) (n : Z) : list string :=
      map fst (fold_left (fun out kx =>
        let out' := insert_arg before kx out in if n <? zlen out' then removelast out' else out') m []).
    (** lt(bestx, x) or (not lt(x, bestx) and bestk > k), 200 *)
    Definition higher (kx best : string * A) : bool :=
      lt (snd best) (snd kx) || (negb (lt (snd kx) (snd best)) && str_lt (fst kx) (fst best)).
    (** lt(x, bestx) or (not lt(bestx, x) and bestk > k), 218 *)
    Definition lower (kx best : string * A) : bool :=
      lt (snd kx) (snd best) || (negb (lt (snd best) (snd kx)) && str_lt (fst kx) (fst best)).
    Definition arg_highest_n := arg_n higher.
    Definition arg_lowest_n := arg_n lower.
    Definition m_argmax code (m : dict) : res string := guard m code (first_of (arg_highest_n m 1)).   (* 231-240, 253-262 *)
    Definition m_argmin code (m : dict) : res string := guard m code (first_of (arg_lowest_n m 1)).    (* 242-251, 264-273 *)
    Definition m_argmaxN code (m : dict) (n : Z) : res (list string) := guard_n m n code (Ok (arg_highest_n m n)). (* 275-286, 301-312 *)
    Definition m_argminN code (m : dict) (n : Z) : res (list string) := guard_n m n code (Ok (arg_lowest_n m n)).  (* 288-299, 314-325 *)
  End Arg.

  (** Sets: maps from the base64 of the Avro encoding of the items. [to_key]: ObjKey.toKey, 42-49 (avro package). *)
  Section Sets.
    Variable to_key : A -> string.
    Definition m_toset (a : list A) : dict := dict_of (map (fun x => (to_key x, x)) a).   (* 329-335 *)
    Definition m_fromset (s : dict) : list A := map snd s.                                (* 337-343 *)
    Definition m_in (s : dict) (x : A) : bool := has_key (to_key x) s.                    (* 345-351 *)
    Definition m_add_item (s : dict) (x : A) : dict := dict_set (to_key x) x s.           (* 131-134 *)
  End Sets.
  Definition m_union (a b : dict) : dict := dict_of (a ++ b).                             (* 353-359 *)
  Definition m_intersection (a b : dict) : dict := dict_of (filter (fun kv => has_key (fst kv) b) a).     (* 361-367 *)
  Definition m_diff (a b : dict) : dict := dict_of (filter (fun kv => negb (has_key (fst kv) b)) a).      (* 369-375 *)
  Definition m_symdiff (a b : dict) : dict :=                                             (* 377-384 *)
    dict_of (filter (fun kv => xorb (has_key (fst kv) a) (has_key (fst kv) b)) (a ++ b)).
  Definition m_subset (little big : dict) : bool := forallb (fun k => has_key k big) (map fst little).    (* 386-392 *)
  Definition m_disjoint (a b : dict) : bool := negb (existsb (fun k => has_key k b) (map fst a)).         (* 394-400 *)
End Basic.

(** Functional programming: the function argument is an effectful computation *)
Section HigherOrder.
  Context {S : Type}.
  Fixpoint m_anyKey {A} (m : list (string * A)) (f : string -> M S bool) : M S bool :=    (* 93-97 *)
    match m with [] => ret false | (k, _) :: m' => b <~ f k ;; if b : bool then ret true else m_anyKey m' f end.
  Fixpoint m_anyValue {A} (m : list (string * A)) (f : A -> M S bool) : M S bool :=       (* 108-112 *)
    match m with [] => ret false | (_, v) :: m' => b <~ f v ;; if b : bool then ret true else m_anyValue m' f end.
  (** 412-418; 404-410 is the case of an f that does not look at the key *)
  Definition m_mapWithKey {A B} (m : list (string * A)) (f : string -> A -> M S B) : M S (list (string * B)) :=
    r <~ mapM (fun kv => v <~ f (fst kv) (snd kv) ;; ret (fst kv, v)) m ;; ret (dict_of r).
  Definition m_map {A B} (m : list (string * A)) (f : A -> M S B) := m_mapWithKey m (fun _ => f).
  (** 428-434; 420-426 *)
  Definition m_filterWithKey {A} (m : list (string * A)) (f : string -> A -> M S bool) : M S (list (string * A)) :=
    r <~ a_filter m (fun kv => f (fst kv) (snd kv)) ;; ret (dict_of r).
  Definition m_filter {A} (m : list (string * A)) (f : A -> M S bool) := m_filterWithKey m (fun _ => f).
  (** 454-470; 436-452, for a function whose result is null or a value (the tag of a tagged result is removed by the
      caller of the model) *)
  Definition m_filterMapWithKey {A B} (m : list (string * A)) (f : string -> A -> M S (option B)) : M S (list (string * B)) :=
    foldM (fun out kv => y <~ f (fst kv) (snd kv) ;; ret (match y with Some v => dict_set (fst kv) v out | None => out end)) [] m.
  Definition m_filterMap {A B} (m : list (string * A)) (f : A -> M S (option B)) := m_filterMapWithKey m (fun _ => f).
  (** 484-494; 472-482 *)
  Definition m_flatMapWithKey {A B} (m : list (string * A)) (f : string -> A -> M S (list (string * B))) : M S (list (string * B)) :=
    foldM (fun out kv => y <~ f (fst kv) (snd kv) ;; ret (fold_left (fun d e => dict_set (fst e) (snd e) d) y out)) [] m.
  Definition m_flatMap {A B} (m : list (string * A)) (f : A -> M S (list (string * B))) := m_flatMapWithKey m (fun _ => f).
  (** x[k] for x in maps, 511 *)
  Fixpoint look_all {A} (k : string) (maps : list (list (string * A))) : res (list A) :=
    match maps with
    | [] => Ok []
    | x :: maps' => match assoc k x with Some v => r <- look_all k maps' ;; Ok (v :: r) | None => Raise (PyErr "KeyError") end
    end.
  (** 515-532; 496-513: two to four maps *)
  Definition m_zipmapWithKey {A B} code (maps : list (list (string * A))) (f : string -> list A -> M S B) : M S (list (string * B)) :=
    match maps with
    | [] => raise (PyErr "IndexError")
    | m0 :: _ =>
        if forallb (fun x => keys_eq (map fst m0) (map fst x)) maps
        then foldM (fun out k => vs <~ lift (look_all k maps) ;; v <~ f k vs ;; ret (dict_set k v out)) [] (map fst m0)
        else raise (PFAErr code)
    end.
  Definition m_zipmap {A B} maps (f : list A -> M S B) := m_zipmapWithKey 26370 maps (fun _ => f).
  (** 549-560; 536-547. The keys are visited in the order of a Python set of strings, which is not determined by the
      program: [order] lists the keys of a in that order. *)
  Definition m_correspondsWithKey {A B} (order : list string) (a : list (string * A)) (b : list (string * B))
      (f : string -> A -> B -> M S bool) : M S bool :=
    if forallb (fun k => has_key k b) (map fst a) && forallb (fun k => has_key k a) (map fst b) then
      a_all order (fun k => match assoc k a, assoc k b with
                            | Some x, Some y => f k x y
                            | _, _ => raise (PyErr "KeyError")
                            end)
    else ret false.
  Definition m_corresponds {A B} order (a : list (string * A)) (b : list (string * B)) (f : A -> B -> M S bool) :=
    m_correspondsWithKey order a b (fun _ => f).
End HigherOrder.
