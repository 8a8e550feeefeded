(** What searching by regular expressions means, told of the positions of matches. *)
From Verif Require Import Base BytesModel RegexModel.
Open Scope list_scope.

(** matches have a whole, which lies in the text, and groups, which lie in the whole *)
Definition wf_engine (e : engine) : Prop :=
  forall s gs, regexec e s = Some gs -> exists b n rest, gs = Some (b, n) :: rest /\ (b <= n <= length s)%nat /\
    Forall (fun g => match g with Some (b', n') => (b <= b' /\ b' <= n' /\ n' <= n)%nat | None => True end) rest.
(** the first match of what follows a position, if anything follows; the positions count from the beginning of the whole text *)
Definition find_at (e : engine) (h : list Z) (start : nat) : option (list group) :=
  if Nat.leb (length h) start then None
  else option_map (map (option_map (fun be => (fst be + start, snd be + start)%nat))) (regexec e (cstring (skipn start h))).
(** matches one after the other, each searched for from the end of the one before *)
Inductive matches (e : engine) (h : list Z) : nat -> list (list group) -> Prop :=
| m_none : forall start, find_at e h start = None -> matches e h start []
| m_some : forall start b n gs l, find_at e h start = Some (Some (b, n) :: gs) -> matches e h n l -> matches e h start ((Some (b, n) :: gs) :: l).
(** a match that ends where its search began is reached: it will be found again and again *)
Inductive stuck (e : engine) (h : list Z) : nat -> Prop :=
| s_here : forall start b gs, find_at e h start = Some (Some (b, start) :: gs) -> stuck e h start
| s_later : forall start b n gs, find_at e h start = Some (Some (b, n) :: gs) -> stuck e h n -> stuck e h start.
(** where a match begins and ends; its groups that took part *)
Definition place (m : list group) : nat * nat := match m with Some be :: _ => be | _ => (0, 0)%nat end.
Definition present (m : list group) : list (nat * nat) := flat_map (fun g => match g with Some be => [be] | None => [] end) m.
(** the text between the matches *)
Definition between (h : list Z) (i j : nat) : list Z := firstn (j - i) (skipn i h).
Fixpoint gaps (h : list Z) (start : nat) (l : list (nat * nat)) : list (list Z) :=
  match l with [] => [skipn start h] | (b, n) :: l' => between h start b :: gaps h n l' end.
(** g1 r1 g2 r2 ... gk *)
Fixpoint weave {A} (gs rs : list (list A)) : list A :=
  match gs, rs with g :: gs', r :: rs' => g ++ r ++ weave gs' rs' | g :: _, [] => g | [], _ => [] end.
(** without the first and the last piece when they are empty *)
Definition is_nil {A} (l : list A) : bool := match l with [] => true | _ => false end.
Definition trim (l : list (list Z)) : list (list Z) :=
  let l := if is_nil (last l [0%Z]) then removelast l else l in
  match l with [] :: l' => l' | _ => l end.
