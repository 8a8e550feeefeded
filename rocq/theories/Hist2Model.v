(** Model of stat.sample.fillHistogram2d (lib/stat/sample.py:604-713), over any arithmetic of positions and of weights,
    as fillHistogram in StatModel. *)
From Verif Require Import Base StatModel.
Open Scope string_scope.
Open Scope list_scope.
Open Scope Z_scope.

(** the ten flow fields; the first word is about x, the second about y *)
Inductive flow2 := UnderUnder | UnderMid | UnderOver | MidUnder | MidOver | OverUnder | OverMid | OverOver | Nan2 | Inf2.
Definition flow2_eqb (a b : flow2) : bool :=
  match a, b with
  | UnderUnder, UnderUnder | UnderMid, UnderMid | UnderOver, UnderOver | MidUnder, MidUnder | MidOver, MidOver
  | OverUnder, OverUnder | OverMid, OverMid | OverOver, OverOver | Nan2, Nan2 | Inf2, Inf2 => true
  | _, _ => false
  end.

Section Fill2.
  Context {W T : Type} (wadd : W -> W -> W) (wzero : W) (o : real_ops T).

  Record axis := Axis { ax_n : Z; ax_low : T; ax_high : T }.
  (** a flow field is None when the record type lacks it (genpy, 609-631) *)
  Record hist2 := Hist2 { g_x : axis; g_y : axis; g_values : list (list W); g_flow : flow2 -> option W }.

  (** the chain of tests, 655-676; None: the datum goes into a bin *)
  Definition which_flow (hasInf : bool) (ax ay : axis) (x y : T) : option flow2 :=
    let ge a b := op_le o b a in
    let xlow := ax_low ax in let xhigh := ax_high ax in
    let ylow := ax_low ay in let yhigh := ax_high ay in
    if op_isnan o x || op_isnan o y then Some Nan2
    else if hasInf && (op_isinf o x || op_isinf o y) then Some Inf2
    else if ge x xhigh && ge y yhigh then Some OverOver
    else if ge x xhigh && ge y ylow && op_lt o y yhigh then Some OverMid
    else if ge x xhigh && op_lt o y ylow then Some OverUnder
    else if ge x xlow && op_lt o x xhigh && ge y yhigh then Some MidOver
    else if ge x xlow && op_lt o x xhigh && op_lt o y ylow then Some MidUnder
    else if op_lt o x xlow && ge y yhigh then Some UnderOver
    else if op_lt o x xlow && ge y ylow && op_lt o y yhigh then Some UnderMid
    else if op_lt o x xlow && op_lt o y ylow then Some UnderUnder
    else None.

  (** l[i] = f(l[i]), with Python's rule for the index; the row is looked up before anything is changed *)
  Definition change_at {A} (l : list A) (i : Z) (f : A -> res A) : res (list A) :=
    let n := Z.of_nat (length l) in
    let j := if i <? 0 then i + n else i in
    if j <? 0 then Raise (PyErr "IndexError")
    else match nth_error l (Z.to_nat j) with
         | None => Raise (PyErr "IndexError")
         | Some a => a' <- f a ;; Ok (firstn (Z.to_nat j) l ++ [a'] ++ skipn (S (Z.to_nat j)) l)
         end.

  Definition bad_axis (a : axis) : bool := bad o (ax_low a) || bad o (ax_high a).

  (** FillHistogram2d.__call__, 633-711 *)
  Definition fillHistogram2d (x y : T) (w : W) (h : hist2) : res hist2 :=
    let ax := g_x h in let ay := g_y h in let values := g_values h in
    if (ax_n ax <? 1) || (ax_n ay <? 1) then Raise (PFAErr 14092)
    else if negb (Z.of_nat (length values) =? ax_n ax) || existsb (fun r => negb (Z.of_nat (length r) =? ax_n ay)) values
    then Raise (PFAErr 14090)
    else if op_le o (ax_high ax) (ax_low ax) || op_le o (ax_high ay) (ax_low ay) || bad_axis ax || bad_axis ay
    then Raise (PFAErr 14091)
    else
      let f := which_flow (is_some (g_flow h Inf2)) ax ay x y in
      newValues <- match f with
                   | None =>
                       xindex <- bin_index o x (ax_low ax) (ax_high ax) (ax_n ax) ;;
                       yindex <- bin_index o y (ax_low ay) (ax_high ay) (ax_n ay) ;;
                       change_at values xindex (fun row => add_at wadd wzero row yindex w)
                   | Some _ => Ok values
                   end ;;
      Ok (Hist2 ax ay newValues
            (fun k => addflow wadd wzero (g_flow h k) w (match f with Some k' => flow2_eqb k k' | None => false end))).
End Fill2.
