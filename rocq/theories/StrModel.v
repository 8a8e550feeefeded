(** Model of lib/pfastring.py.

    A string is the list of its code points. The methods of Python's str that the library calls
    (in, count, index, rindex, startswith, endswith, join, split, replace, strip, format of integers)
    are modelled by the textbook algorithms; lower, upper and s.number of doubles are not modelled. *)
From Verif Require Import Base ArrayModel.
Open Scope string_scope.
Open Scope list_scope.
Open Scope Z_scope.

Notation str := (list Z).

(** str.startswith *)
Fixpoint starts (needle hay : str) : bool :=
  match needle, hay with
  | [], _ => true
  | c :: n', d :: h' => (c =? d) && starts n' h'
  | _, [] => false
  end.
(** the first position, from [i] on *)
Fixpoint find_from (i : Z) (needle hay : str) : option Z :=
  if starts needle hay then Some i
  else match hay with [] => None | _ :: h' => find_from (i + 1) needle h' end.
(** the last one *)
Fixpoint rfind_from (i : Z) (needle hay : str) : option Z :=
  match match hay with [] => None | _ :: h' => rfind_from (i + 1) needle h' end with
  | Some k => Some k
  | None => if starts needle hay then Some i else None
  end.
(** str.count for a needle that is not empty: non-overlapping, from the left; [skip] characters belong to
    an occurrence already counted. *)
Fixpoint count_from (skip : nat) (needle hay : str) : Z :=
  match hay with
  | [] => 0
  | _ :: h' =>
      match skip with
      | S k => count_from k needle h'
      | O => if starts needle hay then 1 + count_from (length needle - 1) needle h' else count_from 0 needle h'
      end
  end.
(** str.split for a separator that is not empty; [cur] is the current piece, reversed. *)
Fixpoint split_from (skip : nat) (cur : str) (sep s : str) : list str :=
  match s with
  | [] => [rev cur]
  | c :: s' =>
      match skip with
      | S k => split_from k cur sep s'
      | O => if starts sep s then rev cur :: split_from (length sep - 1) [] sep s' else split_from 0 (c :: cur) sep s'
      end
  end.
(** str.replace(old, new, limit) for an old that is not empty; no limit is None *)
Fixpoint replace_from (skip : nat) (limit : option nat) (old new s : str) : str :=
  match s with
  | [] => []
  | c :: s' =>
      match skip with
      | S k => replace_from k limit old new s'
      | O =>
          if starts old s && negb (match limit with Some O => true | _ => false end) then
            new ++ replace_from (length old - 1) (option_map pred limit) old new s'
          else c :: replace_from 0 limit old new s'
      end
  end.
(** str.replace: an empty old is found before every character and at the end *)
Definition py_replace (limit : option nat) (s old new : str) : str :=
  match old with
  | [] => match limit with
          | Some O => s
          | Some (S O) => new ++ s
          | _ => new ++ concat (map (fun c => c :: new) s)   (* limits above 1 are not used *)
          end
  | _ => replace_from 0 limit old new s
  end.
(** str.join *)
Fixpoint py_join (sep : str) (l : list str) : str :=
  match l with
  | [] => []
  | [s] => s
  | s :: l' => s ++ sep ++ py_join sep l'
  end.
(** str.lstrip(chars) *)
Fixpoint py_lstrip (s chars : str) : str :=
  match s with
  | c :: s' => if existsb (Z.eqb c) chars then py_lstrip s' chars else s
  | [] => []
  end.
Definition py_rstrip (s chars : str) : str := rev (py_lstrip (rev s) chars).

(** lib/pfastring.py:41-68 *)
Definition s_len (s : str) : Z := zlen s.
Definition s_substr (s : str) (start stop : Z) : str := py_slice s start stop.
Definition s_substrto (s : str) (start stop : Z) (replacement : str) : str :=
  let '(ns, ne) := start_end (zlen s) start stop in
  py_slice_to s ns ++ replacement ++ py_slice_from s ne.
(** lib/pfastring.py:72-127 *)
Definition s_contains (hay needle : str) : bool := match find_from 0 needle hay with Some _ => true | None => false end.
Definition s_count (hay needle : str) : Z :=
  if (zlen hay =? 0) || (zlen needle =? 0) then 0 else count_from 0 needle hay.
Definition s_index (hay needle : str) : Z := match find_from 0 needle hay with Some i => i | None => -1 end.
Definition s_rindex (hay needle : str) : Z := match rfind_from 0 needle hay with Some i => i | None => -1 end.
Definition s_startswith (hay needle : str) : bool := starts needle hay.
Definition s_endswith (hay needle : str) : bool := starts (rev needle) (rev hay).
(** lib/pfastring.py:131-148 *)
Definition s_join (l : list str) (sep : str) : str := py_join sep l.
Definition s_split (s sep : str) : list str := if zlen sep =? 0 then [] else split_from 0 [] sep s.

(** Digits of n >= 0 in base b, most significant first *)
Fixpoint digits_fuel (fuel : nat) (b n : Z) (acc : list Z) : list Z :=
  match fuel with
  | O => acc
  | S f => if n <? b then n :: acc else digits_fuel f b (n / b) (n mod b :: acc)
  end.
Definition digits (b n : Z) : list Z := digits_fuel (S (Z.to_nat (Z.log2 n))) b n [].
Definition digit_char (d : Z) : Z := if d <? 10 then 48 + d else 87 + d.
Definition sign (x : Z) : str := if x <? 0 then [45] else [].
Definition body (b x : Z) : str := map digit_char (digits b (Z.abs x)).
Definition pad (c : Z) (n : Z) : str := repeat c (Z.to_nat n).
(** "{0:d}", "{0:<5d}", "{0:5d}" and "{0:05d}" (x instead of d for base 16) *)
Definition plain (b x : Z) : str := sign x ++ body b x.
Definition left_just (b x width : Z) : str := plain b x ++ pad 32 (width - zlen (plain b x)).
Definition right_just (b x width : Z) : str := pad 32 (width - zlen (plain b x)) ++ plain b x.
Definition zero_padded (b x width : Z) : str := sign x ++ pad 48 (width - zlen (plain b x)) ++ body b x.
(** the format strings of lib/pfastring.py:167-181 and 196-210 *)
Definition formatted (b code x width : Z) (zeroPad : bool) : res str :=
  if negb zeroPad then
    if width <? 0 then Ok (left_just b x (- width))
    else if width =? 0 then Ok []
    else Ok (right_just b x width)
  else
    if width <? 0 then Raise (PFAErr code)
    else if width =? 0 then Ok []
    else Ok (zero_padded b x width).
(** Hex.__call__, lib/pfastring.py:155-181 *)
Definition s_hex (x : Z) : res str := if x <? 0 then Raise (PFAErr 39111) else Ok (plain 16 x).
Definition s_hex3 (x width : Z) (zeroPad : bool) : res str :=
  if x <? 0 then Raise (PFAErr 39111) else formatted 16 39110 x width zeroPad.
(** StringInt.__call__, lib/pfastring.py:189-210 (and Number.__call__ on integers, 220-241) *)
Definition s_int (x : Z) : str := plain 10 x.
Definition s_int3 (x width : Z) (zeroPad : bool) : res str := formatted 10 39240 x width zeroPad.

(** lib/pfastring.py:307-321: s * n is empty for n <= 0 *)
Definition s_concat (x y : str) : str := x ++ y.
Definition s_repeat (s : str) (n : Z) : str := concat (repeat s (Z.to_nat n)).
(** lib/pfastring.py:339-361 *)
Definition s_lstrip := py_lstrip.
Definition s_rstrip := py_rstrip.
Definition s_strip (s chars : str) : str := py_rstrip (py_lstrip s chars) chars.
(** lib/pfastring.py:363-393 *)
Definition s_replaceall (s original replacement : str) : str := py_replace None s original replacement.
Definition s_replacefirst (s original replacement : str) : str :=
  if 0 <? zlen s then py_replace (Some 1%nat) s original replacement else py_replace None s original replacement.
Definition s_replacelast (s original replacement : str) : str :=
  let backward := rev s in
  let replaced := if 0 <? zlen s then py_replace (Some 1%nat) backward (rev original) (rev replacement)
                  else py_replace None backward (rev original) (rev replacement) in
  rev replaced.
(** lib/pfastring.py:395-409 *)
Fixpoint index_of (i : Z) (c : Z) (l : str) : option Z :=
  match l with [] => None | d :: l' => if c =? d then Some i else index_of (i + 1) c l' end.
Definition s_translate (s oldchars newchars : str) : str :=
  concat (map (fun c =>
    match index_of 0 c oldchars with
    | None => [c]
    | Some i => if i <? zlen newchars then match nth_error newchars (Z.to_nat i) with Some d => [d] | None => [] end else []
    end) s).
