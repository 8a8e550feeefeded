(** Model of the Holt-Winters functions of stat.sample (lib/stat/sample.py:304-435), over any arithmetic. *)
From Verif Require Import Base.
Open Scope list_scope.
Open Scope Z_scope.

Section Holt.
  Context {T : Type} (zero one : T) (add sub mul : T -> T -> T) (of_Z : Z -> T) (lt : T -> T -> bool).
  (** div of util.py:84-105; None: a result that is no number of [T] *)
  Context (div : T -> T -> option T).

  Record holt := Holt { level : T; trend : T }.
  (** the record with the fields cycle and multiplicative *)
  Record periodic := Periodic { p_level : T; p_trend : T; cycle : list T; multiplicative : bool }.

  Definition out_of_range (a : T) : bool := lt a zero || lt one a.
  (** UpdateHoltWinters.__call__, 308-317 *)
  Definition update_holt (x alpha beta : T) (s : holt) : res holt :=
    if out_of_range alpha then Raise (PFAErr 14040)
    else if out_of_range beta then Raise (PFAErr 14041)
    else
      let level' := add (mul alpha x) (mul (sub one alpha) (add (level s) (trend s))) in
      let trend' := add (mul beta (sub level' (level s))) (mul (sub one beta) (trend s)) in
      Ok (Holt level' trend').

  (** [cycle_unrotated[1:] + [cycle_unrotated[0]]], 337 *)
  Definition rotate (c : list T) : list T := match c with [] => [] | c0 :: r => r ++ [c0] end.
  (** UpdateHoltWintersPeriodic.__call__, 324-350 *)
  Definition update_periodic (x alpha beta gamma : T) (s : periodic) : res (option periodic) :=
    if out_of_range alpha then Raise (PFAErr 14050)
    else if out_of_range beta then Raise (PFAErr 14051)
    else if out_of_range gamma then Raise (PFAErr 14052)
    else
      match rotate (cycle s) with
      | [] => Raise (PFAErr 14053)
      | cycle_prev :: rest =>
          let old := mul (sub one alpha) (add (p_level s) (p_trend s)) in
          let trend_of l := add (mul beta (sub l (p_level s))) (mul (sub one beta) (p_trend s)) in
          if multiplicative s then
            Ok (match div (mul alpha x) cycle_prev with
                | None => None
                | Some q =>
                    let l := add q old in
                    match div (mul gamma x) l with
                    | None => None
                    | Some r => Some (Periodic l (trend_of l) (add r (mul (sub one gamma) cycle_prev) :: rest) true)
                    end
                end)
          else
            let l := add (mul alpha (sub x cycle_prev)) old in
            let c := add (mul gamma (sub x l)) (mul (sub one gamma) cycle_prev) in
            Ok (Some (Periodic l (trend_of l) (c :: rest) false))
      end.

  (** Forecast1HoltWinters.__call__, 378-394, without and with a cycle *)
  Definition forecast1_holt (s : holt) : T := add (level s) (trend s).
  Definition season (c : list T) (i : Z) : T := nth (Z.to_nat (i mod Z.of_nat (length c))) c zero.
  Definition forecast1_periodic (s : periodic) : res T :=
    match cycle s with
    | [] => Raise (PFAErr 14060)
    | _ => let t := add (p_level s) (p_trend s) in
           Ok (if multiplicative s then mul t (season (cycle s) 1) else add t (season (cycle s) 1))
    end.
  (** ForecastHoltWinters.__call__, 418-433; range(1, n + 1) *)
  Definition upto (n : Z) : list Z := map (fun k => Z.of_nat k + 1) (seq 0 (Z.to_nat n)).
  Definition forecast_holt (n : Z) (s : holt) : list T := map (fun i => add (level s) (mul (of_Z i) (trend s))) (upto n).
  Definition forecast_periodic (n : Z) (s : periodic) : res (list T) :=
    match cycle s with
    | [] => Raise (PFAErr 14070)
    | _ => Ok (map (fun i => let t := add (p_level s) (mul (of_Z i) (p_trend s)) in
                             if multiplicative s then mul t (season (cycle s) i) else add t (season (cycle s) i)) (upto n))
    end.
End Holt.
Arguments Holt {T}. Arguments level {T}. Arguments trend {T}.
Arguments Periodic {T}. Arguments p_level {T}. Arguments p_trend {T}. Arguments cycle {T}. Arguments multiplicative {T}.
