(** Model of lib/interp.py: binning, nearest neighbour tables and linear interpolation.

    [interp.bin] is modelled for an arbitrary arithmetic (record [real_ops] of StatModel), which is
    instantiated with binary64 floats ([bin_ops_float]) and with exact rationals; the tables of
    linear interpolation are over exact rationals (no rounding, no infinities or nan). *)
From Coq Require Import QArith Qabs Qround SpecFloat.
From Verif Require Import Base PyNum Effects StatModel ClusterModel.
Open Scope string_scope.
Open Scope list_scope.
Open Scope Z_scope.

Section Bin.
  Context {T : Type} (o : real_ops T).

  (** [div] of util.py:84-105 with a nan or infinite result for a zero denominator; [weird n] is that
      result. Over the rationals the denominators below are never zero. *)
  Context (weird : T -> T).
  Definition g_div (a b : T) : T := match op_div o a b with Some q => q | None => weird a end.

  (** Bin.__call__ with numbins, low, high, lib/interp.py:48-61. *)
  Definition bin_fixed (x : T) (numbins : Z) (low high : T) : res Z :=
    if op_le o high low || op_isnan o low || op_isnan o high then Raise (PFAErr 22000)
    else if numbins <? 1 then Raise (PFAErr 22001)
    else if op_isnan o x || op_lt o x low || op_le o high x then Raise (PFAErr 22002)
    else
      out <- op_floor o (op_mul o (op_of_Z o numbins) (g_div (op_sub o x low) (op_sub o high low))) ;;
      if (out <? 0) || (numbins <=? out) then Raise (PFAErr 22002) else Ok out.

  (** Bin.__call__ with origin and width, lib/interp.py:62-71. The declared result type is int. *)
  Definition bin_open (x origin width : T) : res Z :=
    if op_isnan o origin || op_isinf o origin then Raise (PFAErr 22000)
    else if op_le o width (op_of_Z o 0) || op_isnan o width then Raise (PFAErr 22001)
    else if op_isnan o x || op_isinf o x then Raise (PFAErr 22002)
    else op_floor o (g_div (op_sub o x origin) width).
End Bin.

(** util.py:98-105 on floats *)
Definition weird_float (a : pf) : pf :=
  if num_gt (NF a) (NF f0) then finf else if num_lt (NF a) (NF f0) then fninf else fnan.
Definition bin_fixed_float := bin_fixed float_ops weird_float.
Definition bin_open_float := bin_open float_ops weird_float.
Definition bin_fixed_rat := bin_fixed rat_ops (fun a => a).
Definition bin_open_rat := bin_open rat_ops (fun a => a).

(** ** interp.nearest *)
Section Nearest.
  Context {S R T : Type} (to : R -> T).
  (** The loop of the three signatures, lib/interp.py:86-93, 96-106, 109-116; [dist] computes the
      distance from the datum to the table entry and may raise. *)
  Fixpoint nearest_loop (dist : R -> M S pf) (best : option (R * pf)) (table : list R) : M S T :=
    match table with
    | [] => match best with Some (one, _) => ret (to one) | None => raise (PyErr "TypeError") end
    | item :: table' =>
        d <~ dist item ;;
        nearest_loop dist
          (match best with
           | None => Some (item, d)
           | Some (one, oned) => if flt d oned then Some (item, d) else Some (one, oned)
           end) table'
    end.
  (** Nearest.__call__, lib/interp.py:80-116. *)
  Definition nearest (dist : R -> M S pf) (table : list R) : M S T :=
    match table with [] => raise (PFAErr 22010) | _ => nearest_loop dist None table end.
  (** the distances of signature 1 (112) and 2 (99-102) *)
  Definition abs_dist (x : R -> pf) (datum : pf) (item : R) : M S pf := ret (fabs (fsub datum (x item))).
  Definition vec_dist (x : R -> list pf) (datum : list pf) (item : R) : M S pf :=
    if negb (Nat.eqb (length (x item)) (length datum)) then raise (PFAErr 22011)
    else lift (sqdist datum (x item)).
End Nearest.

(** ** Linear interpolation *)
Definition qltb (a b : Q) : bool := negb (Qle_bool b a).
Section Linear.
  (** a table entry is its "x" and its "to" *)
  Context {Y : Type}.
  Local Notation entry := (Q * Y)%type.

  (** First loop of Linear.closest, lib/interp.py:126-136. The distances belowd, aboved are
      recomputed from the entries. *)
  Fixpoint below_above (datum : Q) (below above : option entry) (table : list entry) : option entry * option entry :=
    match table with
    | [] => (below, above)
    | item :: table' =>
        let below' :=
          if Qle_bool (fst item) datum &&
             match below with None => true | Some b => qltb (datum - fst item) (datum - fst b) end
          then Some item else below in
        let above' :=
          if qltb datum (fst item) &&
             match above with None => true | Some a => qltb (fst item - datum) (fst a - datum) end
          then Some item else above in
        below_above datum below' above' table'
    end.
  (** Second loop, lib/interp.py:140-153. *)
  Definition away (datum : Q) (e : entry) : Q := Qabs (datum - fst e).
  Fixpoint two_closest (datum : Q) (one two : option entry) (table : list entry) : option entry * option entry :=
    match table with
    | [] => (one, two)
    | item :: table' =>
        let d := away datum item in
        match one with
        | None => two_closest datum (Some item) one table'
        | Some o =>
            if qltb d (away datum o) then two_closest datum (Some item) one table'
            else if match two with None => true | Some t => qltb d (away datum t) end &&
                    negb (Qeq_bool d (away datum o))
            then two_closest datum one (Some item) table'
            else two_closest datum one two table'
        end
    end.
  (** Linear.closest, lib/interp.py:125-156. *)
  Definition closest_entries (datum : Q) (table : list entry) (code : Z) : res (entry * entry * bool) :=
    match below_above datum None None table with
    | (Some b, Some a) => Ok (b, a, true)
    | _ =>
        match two_closest datum None None table with
        | (Some one, Some two) => Ok (one, two, false)
        | _ => Raise (PFAErr code)
        end
    end.

  (** [unitless], lib/interp.py:163, 171; the denominator is not zero since the two x values differ. *)
  Definition unitless (datum : Q) (one two : entry) : Q := ((datum - fst one) / (fst two - fst one))%Q.

  (** [interpolate datum one two] is interpolateSingle or interpolateMulti. *)
  Context (interpolate : Q -> entry -> entry -> res Y).
  (** Linear.__call__, lib/interp.py:175-180. *)
  Definition linear (datum : Q) (table : list entry) : res Y :=
    c <- closest_entries datum table 22020 ;;
    let '(one, two, between) := c in interpolate datum one two.
  (** LinearFlat.__call__, lib/interp.py:188-195. *)
  Definition linearFlat (datum : Q) (table : list entry) : res Y :=
    c <- closest_entries datum table 22030 ;;
    let '(one, two, between) := c in
    if negb between then Ok (snd one) else interpolate datum one two.
  (** LinearMissing.__call__, lib/interp.py:203-210; None is null. *)
  Definition linearMissing (datum : Q) (table : list entry) : res (option Y) :=
    c <- closest_entries datum table 22040 ;;
    let '(one, two, between) := c in
    if negb between && negb (Qeq_bool (fst one) datum) then Ok None
    else y <- interpolate datum one two ;; Ok (Some y).
End Linear.
(** interpolateSingle, lib/interp.py:158-164. *)
Definition interpolateSingle (datum : Q) (one two : Q * Q) : res Q :=
  let u := unitless datum one two in Ok ((1 - u) * snd one + u * snd two)%Q.
(** interpolateMulti, lib/interp.py:166-174; [code] is 22021, 22031 or 22041. *)
Fixpoint mix (u : Q) (a b : list Q) : list Q :=
  match a, b with x :: a', y :: b' => ((1 - u) * x + u * y)%Q :: mix u a' b' | _, _ => [] end.
Definition interpolateMulti (code : Z) (datum : Q) (one two : Q * list Q) : res (list Q) :=
  if negb (Nat.eqb (length (snd one)) (length (snd two))) then Raise (PFAErr code)
  else Ok (mix (unitless datum one two) (snd one) (snd two)).
