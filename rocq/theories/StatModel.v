(** Model of titus/lib/stat/change.py and of titus/lib/stat/sample.py (running statistics).

    Arithmetic. The trigger counters are Python ints (never wrapped by the code).  The running
    moments are modelled over exact rationals [Q]: the property they serve is about the formulas,
    not about rounding.  A division by zero, which util.div (util.py:84-105) turns into inf or nan,
    has no rational result and is [None] here.  The histograms are modelled over an arbitrary
    arithmetic [real_ops], instantiated below with binary64 floats and with rationals. *)
From Coq Require Import QArith Qround SpecFloat.
From Verif Require Import Base PyNum Effects ArrayModel.
Open Scope string_scope.
Open Scope list_scope.
Open Scope Z_scope.

(** ** stat.change *)

(** The history record of stat.change.updateTrigger (lib/stat/change.py:39); its other fields are
    kept by [dict(history, ...)] (60) and not modelled. *)
Record trigger := Trigger { numEvents : Z; numRuns : Z; currentRun : Z; longestRun : Z }.

(** UpdateTrigger.__call__, lib/stat/change.py:41-60. *)
Definition updateTrigger (predicate : bool) (h : trigger) : res trigger :=
  if (numEvents h <? 0) || (numRuns h <? 0) || (currentRun h <? 0) || (longestRun h <? 0)
  then Raise (PFAErr 37000)
  else if predicate then
    let runs := if currentRun h =? 0 then numRuns h + 1 else numRuns h in
    let cur := currentRun h + 1 in
    let lon := if longestRun h <? cur then cur else longestRun h in
    Ok (Trigger (numEvents h + 1) runs cur lon)
  else Ok (Trigger (numEvents h) (numRuns h) 0 (longestRun h)).

(** A cell updated once per datum, oldest datum first. *)
Fixpoint runTrigger (ps : list bool) (h : trigger) : res trigger :=
  match ps with
  | [] => Ok h
  | p :: ps' => h' <- updateTrigger p h ;; runTrigger ps' h'
  end.

(** UpdateCUSUM.__call__, lib/stat/change.py:95-100, on exact numbers. *)
Definition updateCUSUM (llr last reset : Z) : Z :=
  let out := llr + last in
  if reset <? out then out else reset.

(** repeated use, starting at the reset value *)
Definition run_cusum (reset : Z) (l : list Z) : Z := fold_left (fun last llr => updateCUSUM llr last reset) l reset.

(** ** stat.sample: running count, mean, variance *)

(** util.div (util.py:84-105) on exact numbers; [None] stands for inf, -inf or nan. *)
Definition qdiv (a b : Q) : option Q := if Qeq_bool b 0 then None else Some (a / b)%Q.

Definition obind {A B} (m : option A) (f : A -> option B) : option B :=
  match m with Some a => f a | None => None end.
Notation "x <-? m ;; k" := (obind m (fun x => k)) (at level 61, m at next level, right associativity).

(** The fields count, mean and variance of the state record.  [level] is what
    UpdateMeanVariance.genpy (lib/stat/sample.py:42-63) finds in the record type: 0 count only,
    1 count and mean, 2 all three.  A field that the type lacks is present in this record but is
    neither read nor written. *)
Record moments := Moments { m_count : Q; m_mean : Q; m_var : Q }.

(** Update.__call__, lib/stat/sample.py:76-92. *)
Definition update (x w : Q) (st : moments) (level : nat) : option moments :=
  let originalCount := m_count st in
  let count := (originalCount + w)%Q in
  match level with
  | O => Some (Moments count (m_mean st) (m_var st))
  | _ =>
      let delta := (x - m_mean st)%Q in
      shift <-? qdiv (delta * w) count ;;
      let mean := (m_mean st + shift)%Q in
      match level with
      | 1%nat => Some (Moments count mean (m_var st))
      | _ =>
          let vtc := (m_var st * originalCount + originalCount * delta * shift)%Q in
          v <-? qdiv vtc count ;;
          Some (Moments count mean v)
      end
  end.

(** A cell updated once per weighted datum, oldest first. *)
Fixpoint run_update (level : nat) (xs : list (Q * Q)) (st : moments) : option moments :=
  match xs with
  | [] => Some st
  | (x, w) :: xs' => st' <-? update x w st level ;; run_update level xs' st'
  end.

(** ** stat.sample.updateWindow *)

(** One record of the window (lib/stat/sample.py:174). *)
Record wrec := WRec { w_x : Q; w_w : Q; w_count : Q; w_mean : Q; w_var : Q }.

(** The loop over removed items, lib/stat/sample.py:222-228:
    accumulated count, mean and variance correction. *)
Fixpoint remove_old (old : list wrec) (acc mean corr : Q) : option (Q * Q) :=
  match old with
  | [] => Some (mean, corr)
  | r :: old' =>
      let ow := (- w_w r)%Q in
      let acc := (acc + ow)%Q in
      let delta2 := (w_x r - mean)%Q in
      shift2 <-? qdiv (delta2 * ow) acc ;;
      remove_old old' acc (mean + shift2)%Q (corr + (acc - ow) * delta2 * shift2)%Q
  end.

(** [sum(oldw)] of lib/stat/sample.py:209. *)
Definition sum_oldw (old : list wrec) : Q := fold_left (fun a r => a + - w_w r)%Q old 0%Q.

(** Python's [l[-1]] for a list known not to be empty. *)
Definition last_rec (l : list wrec) (d : wrec) : wrec := last l d.

(** Outcome of updateWindow: a result that exact numbers cannot express (division by zero) is
    [Ok None]. UpdateWindow.__call__, lib/stat/sample.py:179-263. The error 14021 for record types with other
    fields (195) cannot occur with this record. *)
Definition updateWindow (x w : Q) (st : list wrec) (windowSize : Z) (level : nat)
  : res (option (list wrec)) :=
  if windowSize <? 2 then Raise (PFAErr 14020)
  else match st with
  | [] => Ok (Some [WRec x w w x 0])
  | r0 :: _ =>
      let record := last_rec st r0 in
      let originalCount := w_count record in
      let count := (originalCount + w)%Q in
      Ok (
      if windowSize <=? Z.of_nat (length st) then
        let splitAt := Z.to_nat (Z.of_nat (length st) - windowSize + 1) in
        let removed := firstn splitAt st in
        let keep := skipn splitAt st in
        let count2 := (count + sum_oldw removed)%Q in
        match level with
        | O => Some (keep ++ [WRec x w count2 (w_mean record) (w_var record)])
        | _ =>
            let delta := (x - w_mean record)%Q in
            shift <-? qdiv (delta * w) count ;;
            mc <-? remove_old removed count (w_mean record + shift)%Q 0%Q ;;
            match level with
            | 1%nat => Some (keep ++ [WRec x w count2 (fst mc) (w_var record)])
            | _ =>
                let vtc := (w_var record * originalCount + originalCount * delta * shift + snd mc)%Q in
                v <-? qdiv vtc count2 ;;
                Some (keep ++ [WRec x w count2 (fst mc) v])
            end
        end
      else
        match level with
        | O => Some (st ++ [WRec x w count (w_mean record) (w_var record)])
        | _ =>
            let delta := (x - w_mean record)%Q in
            shift <-? qdiv (delta * w) count ;;
            let mean := (w_mean record + shift)%Q in
            match level with
            | 1%nat => Some (st ++ [WRec x w count mean (w_var record)])
            | _ =>
                let vtc := (w_var record * originalCount + originalCount * delta * shift)%Q in
                v <-? qdiv vtc count ;;
                Some (st ++ [WRec x w count mean v])
            end
        end)
  end.

(** Repeated use; the window size may change from one datum to the next. *)
Fixpoint run_window (level : nat) (ds : list (Q * Q * Z)) (st : list wrec) : res (option (list wrec)) :=
  match ds with
  | [] => Ok (Some st)
  | (x, w, k) :: ds' =>
      match updateWindow x w st k level with
      | Ok (Some st') => run_window level ds' st'
      | r => r
      end
  end.

(** ** stat.sample.updateCovariance, array variant *)

Record covstate := Cov { c_count : Q; c_mean : list Q; c_cov : list (list Q) }.

Fixpoint omapM {A B} (f : A -> option B) (l : list A) : option (list B) :=
  match l with
  | [] => Some []
  | a :: l' => b <-? f a ;; bs <-? omapM f l' ;; Some (b :: bs)
  end.

Definition qnth (l : list Q) (i : nat) : Q := nth i l 0%Q.

(** lib/stat/sample.py:102-105 and 148-166 (array branch).  [Ok None]: some entry is inf or nan. *)
Definition updateCovariance (x : list Q) (w : Q) (st : covstate) : res (option covstate) :=
  let size := length x in
  if (size <? 2)%nat then Raise (PFAErr 14011)
  else if negb (size =? length (c_mean st))%nat || negb (size =? length (c_cov st))%nat
          || existsb (fun xi => negb (size =? length xi)%nat) (c_cov st)
  then Raise (PFAErr 14012)
  else
    let newCount := (c_count st + w)%Q in
    Ok (
      newMean <-? omapM (fun i =>
                   let oldm := qnth (c_mean st) i in
                   s <-? qdiv ((qnth x i - oldm) * w) newCount ;; Some (oldm + s)%Q)
                 (seq 0 (length (c_mean st))) ;;
      newCov <-? omapM (fun i => omapM (fun j =>
                   let oldc := qnth (nth i (c_cov st) []) j in
                   t <-? qdiv ((qnth x i - qnth (c_mean st) i) * (qnth x j - qnth (c_mean st) j)
                              * w * c_count st) newCount ;;
                   qdiv (oldc * c_count st + t) newCount) (seq 0 size)) (seq 0 size) ;;
      Some (Cov newCount newMean newCov)).

Fixpoint run_cov (xs : list (list Q * Q)) (st : covstate) : res (option covstate) :=
  match xs with
  | [] => Ok (Some st)
  | (x, w) :: xs' =>
      match updateCovariance x w st with
      | Ok (Some st') => run_cov xs' st'
      | r => r
      end
  end.

(** ** stat.sample.updateEWMA *)

(** UpdateEWMA.__call__, lib/stat/sample.py:287-300; [hasVariance] comes from genpy (279-285).
    State: mean and variance (the latter neither read nor written when the type lacks it). *)
Definition updateEWMA (x alpha : Q) (mean variance : Q) (hasVariance : bool) : res (Q * Q) :=
  if negb (Qle_bool 0 alpha) || negb (Qle_bool alpha 1) then Raise (PFAErr 14030)
  else
    let diff := (x - mean)%Q in
    let incr := (alpha * diff)%Q in
    if hasVariance then Ok ((mean + incr)%Q, ((1 - alpha) * (variance + diff * incr))%Q)
    else Ok ((mean + incr)%Q, variance).

Section Q1. Local Open Scope Q_scope.
(** repeated use *)
Fixpoint run_ewma (alpha : Q) (xs : list Q) (mean var : Q) (hasVar : bool) : res (Q * Q) :=
  match xs with
  | [] => Ok (mean, var)
  | x :: xs' => match updateEWMA x alpha mean var hasVar with
                | Ok (m, v) => run_ewma alpha xs' m v hasVar
                | Raise e => Raise e
                end
  end.
End Q1.

(** ** stat.sample.topN *)

Section TopN.
  Context {A : Type} (lessThan : A -> A -> bool).
  (** [lessThan(best, x)] is the user's function, taken pure here. lib/stat/sample.py:730-744:
      x goes before the first [best] smaller than it. *)
  Fixpoint topn_index (x : A) (top : list A) : nat :=
    match top with
    | [] => O
    | best :: top' => if lessThan best x then O else S (topn_index x top')
    end.
  Definition s_topN (x : A) (top : list A) (n : Z) : list A :=
    if n <=? 0 then []
    else
      let index := topn_index x top in
      let out := if (index =? length top)%nat then top ++ [x]
                 else firstn index top ++ [x] ++ skipn index top in
      firstn (Z.to_nat n) out.
End TopN.

(** ** stat.sample.fillCounter *)

Section Fill.
  Context {W : Type} (wadd : W -> W -> W) (wzero : W).

  (** FillCounter.__call__, lib/stat/sample.py:719-722. *)
  Definition fillCounter (x : string) (w : W) (counter : list (string * W)) : list (string * W) :=
    dict_set x (wadd (match assoc x counter with Some v => v | None => wzero end) w) counter.

  (** repeated use *)
  Definition run_counter (ds : list (string * W)) (c : list (string * W)) : list (string * W) :=
    fold_left (fun c p => fillCounter (fst p) (snd p) c) ds c.

  (** ** stat.sample.fillHistogram *)

  (** The arithmetic on positions. [op_div] is Python's [/]: [None] is ZeroDivisionError. *)
  Record real_ops (T : Type) := RealOps {
    op_add : T -> T -> T; op_sub : T -> T -> T; op_mul : T -> T -> T;
    op_div : T -> T -> option T; op_of_Z : Z -> T;
    op_le : T -> T -> bool; op_lt : T -> T -> bool;
    op_isnan : T -> bool; op_isinf : T -> bool; op_floor : T -> res Z }.
  Arguments op_add {T}. Arguments op_sub {T}. Arguments op_mul {T}. Arguments op_div {T}.
  Arguments op_of_Z {T}. Arguments op_le {T}. Arguments op_lt {T}. Arguments op_isnan {T}.
  Arguments op_isinf {T}. Arguments op_floor {T}.

  Context {T : Type} (o : real_ops T).

  (** The three kinds of binning (lib/stat/sample.py:437-441), fixed by the record type (454-468). *)
  Inductive binning :=
  | Fixed (numbins : Z) (low high : T)
  | Open (low binsize : T)
  | Ranges (ranges : list (list T)).

  (** The histogram record. A flow field is [None] when the record type lacks it, so that
      [hasUnderflow] etc. of genpy (470-473) are [is_some]. *)
  Record hist := Hist { h_bin : binning; h_values : list W;
                        h_under : option W; h_over : option W; h_nan : option W; h_inf : option W }.

  Definition is_some {X} (x : option X) : bool := match x with Some _ => true | None => false end.

  (** The four booleans underflow, overflow, nanflow, infflow. *)
  Record flows := Flows { fl_under : bool; fl_over : bool; fl_nan : bool; fl_inf : bool }.
  Definition noflow : flows := Flows false false false false.

  Definition addflow (old : option W) (w : W) (b : bool) : option W :=
    match old with Some v => Some (wadd v (if b then w else wzero)) | None => None end.

  (** updateHistogram, lib/stat/sample.py:477-487. *)
  Definition updateHistogram (w : W) (h : hist) (newValues : list W) (f : flows) : hist :=
    Hist (h_bin h) newValues (addflow (h_under h) w (fl_under f)) (addflow (h_over h) w (fl_over f))
         (addflow (h_nan h) w (fl_nan f)) (addflow (h_inf h) w (fl_inf f)).

  (** [newValues[index] = newValues[index] + w] with Python's index rule. *)
  Definition add_at (l : list W) (i : Z) (w : W) : res (list W) :=
    let n := Z.of_nat (length l) in
    let j := if i <? 0 then i + n else i in
    if (j <? 0) || (n <=? j) then Raise (PyErr "IndexError")
    else Ok (firstn (Z.to_nat j) l ++ [wadd (nth (Z.to_nat j) l wzero) w] ++ skipn (S (Z.to_nat j)) l).

  (** [math.floor((x - low) / (high - low) * n)], 0 on ZeroDivisionError: lib/stat/sample.py:515-528
      (math.floor gives an int, so that the branch for an infinite [indexFloat] is never taken),
      554-557. *)
  Definition bin_index (x low high : T) (n : Z) : res Z :=
    match op_div o (op_sub o x low) (op_sub o high low) with
    | None => Ok 0
    | Some q => op_floor o (op_mul o q (op_of_Z o n))
    end.

  Definition bad (x : T) : bool := op_isnan o x || op_isinf o x.

  (** lib/stat/sample.py:502-512 *)
  Definition flows_fixed (hasInf : bool) (x low high : T) : flows :=
    if hasInf && op_isinf o x then Flows false false false true
    else if op_isnan o x then Flows false false true false
    else if op_le o high x then Flows false true false false
    else if op_lt o x low then Flows true false false false
    else noflow.

  (** lib/stat/sample.py:542-552 *)
  Definition flows_open (hasInf : bool) (x low : T) : flows :=
    if hasInf && op_isinf o x then Flows false false false true
    else if op_isnan o x then Flows false false true false
    else if op_isinf o x && op_lt o (op_of_Z o 0) x then Flows false true false false
    else if op_lt o x low then Flows true false false false
    else noflow.

  Definition is_noflow (f : flows) : bool :=
    negb (fl_under f) && negb (fl_over f) && negb (fl_nan f) && negb (fl_inf f).

  Definition zerosZ (n : Z) : list W := repeat wzero (Z.to_nat n).

  (** the test of lib/stat/sample.py:576 for one range *)
  Definition bad_range (r : list T) : bool :=
    match r with
    | [a; b] => op_le o b a || bad a || bad b
    | _ => true
    end.

  (** lib/stat/sample.py:589-595 for one range *)
  Definition in_range (x : T) (r : list T) : bool :=
    match r with
    | [a; b] => (op_le o a b && op_le o b a && (op_le o a x && op_le o x a))
                || (op_le o a x && op_lt o x b)
    | _ => false
    end.

  (** The loop of lib/stat/sample.py:584-595: new values and hitOne. *)
  Fixpoint fill_ranges (x : T) (w : W) (ranges : list (list T)) (values : list W) : list W * bool :=
    match ranges, values with
    | r :: rs, v :: vs =>
        let (vs', hit) := fill_ranges x w rs vs in
        if in_range x r then (wadd v w :: vs', true) else (v :: vs', hit)
    | _, _ => (values, false)
    end.

  (** FillHistogram.__call__, lib/stat/sample.py:489-602. *)
  Definition fillHistogram (x : T) (w : W) (h : hist) : res hist :=
    let values := h_values h in
    let hasInf := is_some (h_inf h) in
    match h_bin h with
    | Fixed numbins low high =>
        if numbins <? 1 then Raise (PFAErr 14082)
        else if negb (Z.of_nat (length values) =? numbins) then Raise (PFAErr 14080)
        else if op_le o high low || bad low || bad high then Raise (PFAErr 14081)
        else
          let f := flows_fixed hasInf x low high in
          if is_noflow f then
            i <- bin_index x low high numbins ;;
            vs <- add_at values i w ;;
            Ok (updateHistogram w h vs f)
          else Ok (updateHistogram w h values f)
    | Open low binsize =>
        if op_le o binsize (op_of_Z o 0) || bad binsize then Raise (PFAErr 14082)
        else
          let f := flows_open hasInf x low in
          let n := Z.of_nat (length values) in
          if is_noflow f then
            let currentHigh := op_add o low (op_mul o binsize (op_of_Z o n)) in
            i <- bin_index x low currentHigh n ;;
            vs <- (if i <? n then add_at values i w
                   else Ok (values ++ zerosZ (i - n) ++ [w])) ;;
            Ok (updateHistogram w h vs f)
          else Ok (updateHistogram w h values f)
    | Ranges ranges =>
        if negb (length values =? length ranges)%nat then Raise (PFAErr 14080)
        else if existsb bad_range ranges then Raise (PFAErr 14083)
        else
          let isInfinite := op_isinf o x in
          let isNan := op_isnan o x in
          let (vs, hit) := if negb isInfinite && negb isNan then fill_ranges x w ranges values
                           else (values, false) in
          let f := if hasInf && isInfinite then Flows false false false true
                   else if isNan then Flows false false true false
                   else if negb hit then Flows true false false false
                   else noflow in
          Ok (updateHistogram w h vs f)
    end.
End Fill.

Arguments op_add {T}. Arguments op_sub {T}. Arguments op_mul {T}. Arguments op_div {T}.
Arguments op_of_Z {T}. Arguments op_le {T}. Arguments op_lt {T}. Arguments op_isnan {T}.
Arguments op_isinf {T}. Arguments op_floor {T}.

(** Binary64 floats. *)
Definition float_ops : real_ops pf :=
  RealOps pf fadd fsub fmul (fun a b => if is_fzero b then None else Some (fdiv a b)) f_of_Z
    (fun a b => num_le (NF a) (NF b)) (fun a b => num_lt (NF a) (NF b)) isnan isinf py_floor.

(** Exact rationals: no rounding, no infinities. *)
Definition rat_ops : real_ops Q :=
  RealOps Q Qplus Qminus Qmult (fun a b => if Qeq_bool b 0 then None else Some (a / b)%Q) inject_Z
    Qle_bool (fun a b => negb (Qle_bool b a)) (fun _ => false) (fun _ => false) (fun a => Ok (Qfloor a)).
