(** Specification vocabulary for histograms: the slots of a histogram and which of them a datum
    belongs to, read off the histogram's own description of its bins. *)
From Coq Require Import QArith.
From Verif Require Import Base StatModel.
Open Scope list_scope.
Open Scope Z_scope.

Inductive slot := Bin (i : nat) | Under | Over | NanFlow | InfFlow.

Section Slots.
  Context {W T : Type} (wadd : W -> W -> W) (wzero : W) (o : real_ops T).

  (** content of a slot; [None] when the histogram has no such slot *)
  Definition content (h : hist (W := W) (T := T)) (s : slot) : option W :=
    match s with
    | Bin i => nth_error (h_values h) i
    | Under => h_under h | Over => h_over h | NanFlow => h_nan h | InfFlow => h_inf h
    end.

  (** the slot took the weight (a bin that did not exist before starts from the weight alone;
      a slot the histogram does not have stays absent: the weight is lost) *)
  Definition took (w : W) (h h' : hist) (s : slot) : Prop :=
    match s with
    | Bin i => content h' s = Some (match content h s with Some v => wadd v w | None => w end)
    | _ => content h' s = option_map (fun v => wadd v w) (content h s)
    end.
  (** the slot kept its content; the code adds 0 to every other flow counter; new bins are 0 *)
  Definition kept_slot (h h' : hist) (s : slot) : Prop :=
    match s with
    | Bin i => content h' s = content h s \/ (content h s = None /\ content h' s = Some wzero)
    | _ => content h' s = option_map (fun v => wadd v wzero) (content h s)
    end.

  (** where a datum should go when the histogram has a lower (and maybe an upper) end:
      [inside] tells which bins are acceptable *)
  Definition goes_to (has_inf : bool) (low : T) (high : option T) (x : T) (s : slot) : Prop :=
    match s with
    | InfFlow => has_inf = true /\ op_isinf o x = true
    | _ => ~ (has_inf = true /\ op_isinf o x = true) /\
        match s with
        | NanFlow => op_isnan o x = true
        | _ => op_isnan o x = false /\
            let above := match high with
                         | Some h => op_le o h x = true
                         | None => op_isinf o x = true /\ op_lt o (op_of_Z o 0) x = true
                         end in
            match s with
            | Over => above
            | Under => ~ above /\ op_lt o x low = true
            | _ => ~ above /\ op_lt o x low = false
            end
        end
    end.

  (** the datum falls in the range (low included, high excluded) *)
  Definition falls_in (x : T) (r : list T) : Prop :=
    exists a b, r = [a; b] /\ op_le o a x = true /\ op_lt o x b = true.

  (** at most one range contains the datum *)
  Definition disjoint_at (x : T) (ranges : list (list T)) : Prop :=
    forall i j r r', nth_error ranges i = Some r -> nth_error ranges j = Some r' ->
      falls_in x r -> falls_in x r' -> i = j.

  (** sum of everything in the histogram *)
  Definition flow_sum (f : option W) : W := match f with Some v => v | None => wzero end.
  Definition contents_total (h : hist (W := W) (T := T)) : W :=
    wadd (fold_right wadd wzero (h_values h))
      (wadd (flow_sum (h_under h)) (wadd (flow_sum (h_over h)) (wadd (flow_sum (h_nan h)) (flow_sum (h_inf h))))).
  Definition all_flows (h : hist (W := W) (T := T)) : Prop :=
    h_under h <> None /\ h_over h <> None /\ h_nan h <> None.
End Slots.

(** weights whose addition is commutative, associative, with a zero (exact arithmetic) *)
Record exact_weights {W} (wadd : W -> W -> W) (wzero : W) : Prop := {
  ew_comm : forall a b, wadd a b = wadd b a;
  ew_assoc : forall a b c, wadd a (wadd b c) = wadd (wadd a b) c;
  ew_zero : forall a, wadd a wzero = a }.
