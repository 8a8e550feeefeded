(** What "json change" of pfainspector is to do. *)
From Verif Require Import Base PyNum ScopeModel ToolsModel ToolsSpec InspModel InspSpec ChgModel.
Open Scope string_scope.
Open Scope list_scope.

Section Filled.
Variable P : cmd -> val -> Prop.
Fixpoint fill_entries (l : list (string * cmd)) (d : list (string * val)) : Prop :=
  match l, d with [], [] => True | (k, c) :: l', (j, y) :: d' => j = k /\ P c y /\ fill_entries l' d' | _, _ => False end.
End Filled.
(** [filled g r y]: the value y is the replacement r, with the groups g for the numbers in parentheses. *)
Fixpoint filled (g : list (string * val)) (r : cmd) (y : val) {struct r} : Prop :=
  match r with
  | CWord s => (s = "null" /\ y = VNull) \/ (s = "true" /\ y = VBool true) \/ (s = "false" /\ y = VBool false) \/ (s <> "null" /\ s <> "true" /\ s <> "false" /\ y = VStr s)
  | CString s => y = VStr s
  | CNum (NI z) => y = VInt z
  | CNum (NF f) => y = VFlt f
  | CObject l false => exists d, y = VDict d /\ fill_entries (filled g) l d
  | CArray l false false => exists w, y = VArr w /\ say_items (filled g) l w
  | CGroup [[CNum (NI z)]] => assoc (int_name z) g = Some y
  | _ => False
  end.

(** [upward R v w]: from the leaves upwards, every part, after its own parts, becomes what R allows. *)
Inductive upward (R : val -> val -> Prop) : val -> val -> Prop :=
| up_dict d e y : Forall2 (fun kx ky => fst kx = fst ky /\ upward R (snd kx) (snd ky)) d e -> R (VDict e) y -> upward R (VDict d) y
| up_arr l m y : Forall2 (upward R) l m -> R (VArr m) y -> upward R (VArr l) y
| up_leaf v y : (forall d, v <> VDict d) -> (forall l, v <> VArr l) -> R v y -> upward R v y.
(** the same for all parts but the whole *)
Definition within (R : val -> val -> Prop) (v w : val) : Prop :=
  match v with
  | VDict d => exists e, w = VDict e /\ Forall2 (fun kx ky => fst kx = fst ky /\ upward R (snd kx) (snd ky)) d e
  | VArr l => exists m, w = VArr m /\ Forall2 (upward R) l m
  | _ => w = v
  end.
(** the part matches and is replaced *)
Definition replaced_by (p : pat) (r : cmd) (x y : val) : Prop := matches p x /\ exists m, getmatch p x = Ok (Some m) /\ filled (m_groups m) r y.
Definition maybe (p : pat) (r : cmd) (x y : val) : Prop := y = x \/ replaced_by p r x y.
Definition surely (p : pat) (r : cmd) (x y : val) : Prop := (~ matches p x /\ y = x) \/ replaced_by p r x y.
