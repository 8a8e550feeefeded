(** Specification of paths into nested values. *)
From Verif Require Import Base ScopeModel CoreModel.

(** [w] is found in [v] by following the path (map keys or record fields, and array positions counted from 0). *)
Inductive at_path : val -> list val -> val -> Prop :=
| at_here v : at_path v [] v
| at_key d k v p w : assoc k d = Some v -> at_path v p w -> at_path (VDict d) (VStr k :: p) w
| at_item l i v p w : nth_error l i = Some v -> at_path v p w -> at_path (VArr l) (VInt (Z.of_nat i) :: p) w.

(** The two paths agree up to some point and then name different places (positions counted from 0). *)
Definition is_position (k : val) : Prop := match k with VInt i => 0 <= i | _ => True end.
Definition diverge (p q : list val) : Prop :=
  exists common j k p' q', p = common ++ j :: p' /\ q = common ++ k :: q' /\ j <> k /\ is_position k.

(** The path can be followed down to [v], where the next step [k] (of the right kind: a key for a map, a position for
    an array) leads nowhere; [code] is the error code for that kind. *)
Definition missing_at (obj : val) (before : list val) (k : val) (arrayErr mapErr code : Z) : Prop :=
  exists v, at_path obj before v /\
    match v, k with
    | VDict d, VStr x => assoc x d = None /\ code = mapErr
    | VArr l, VInt i => Z.of_nat (length l) <= i /\ code = arrayErr
    | _, _ => False
    end.
