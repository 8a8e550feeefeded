(** PFA versions and lifespans of library functions: titus/signature.py:52-169. *)
From Verif Require Import Base.
Open Scope Z_scope.

(** 52-76; fromString and __repr__ are not modelled *)
Record version := Ver { major : Z; minor : Z; release : Z }.
Definition make_version (a b c : Z) : res version :=
  if ((a <? 0) || (b <? 0) || (c <? 0))%bool then Raise (PyErr "ValueError") else Ok (Ver a b c).
(** __lt__, 80-87 *)
Definition ver_lt (x y : version) : bool :=
  if ((major x =? major y) && (minor x =? minor y))%bool then release x <? release y
  else if major x =? major y then minor x <? minor y
  else major x <? major y.
(** __ge__, 88-95 *)
Definition ver_ge (x y : version) : bool :=
  if ((major x =? major y) && (minor x =? minor y))%bool then release y <=? release x
  else if major x =? major y then minor y <=? minor x
  else major y <=? major x.
(** x > y and x <= y have no method of their own: Python takes the reflected y < x and y >= x *)
Definition ver_gt (x y : version) : bool := ver_lt y x.
Definition ver_le (x y : version) : bool := ver_ge y x.
(** 119-153 *)
Record lifespan := Life { birth : option version; deprecation : option version; death : option version }.
Definition make_lifespan (b d e : option version) : res lifespan :=
  let ok1 := match d, e with None, None => true | Some d', Some e' => ver_lt d' e' | _, _ => false end in
  let bad2 := match b, d with Some b', Some d' => ver_ge b' d' | _, _ => false end in
  if negb ok1 then Raise (PyErr "ValueError") else if bad2 then Raise (PyErr "ValueError") else Ok (Life b d e).
(** 155-161 *)
Definition current (l : lifespan) (now : version) : bool :=
  (match birth l with None => true | Some b => ver_ge now b end && match deprecation l with None => true | Some d => ver_lt now d end)%bool.
(** 163-169 *)
Definition deprecated (l : lifespan) (now : version) : bool :=
  match deprecation l, death l with
  | Some d, Some e => (ver_le d now && ver_lt now e)%bool
  | _, _ => false
  end.
