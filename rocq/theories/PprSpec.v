(** What PrettyPFA programs do, said without translating them: a name is a variable where one is in scope, else a cell, a pool or a function; the right-hand side of = is evaluated once and is
    the new value, that of "to" is the function that makes it. *)
From Verif Require Import Base PprModel.
Open Scope string_scope.

Section Run.
Variables V W : Type.
Variable M : machine V W.
Variable st : names.
Notation state := (state V W).
Definition values (r : list string) : list V := map (v_str _ _ M) r.
Definition unknown {A} : res A := Raise (PyErr "unknown symbol").
Definition word (n : dotted) : option V :=
  if same_dotted n ("null", []) then Some (v_null _ _ M) else if same_dotted n ("true", []) then Some (v_bool _ _ M true)
  else if same_dotted n ("false", []) then Some (v_bool _ _ M false) else None.
(** the value at the end of a path that begins at a cell or pool *)
Definition read (w : W) (b : string) (path : list V) : res V :=
  if mem b (cells st) then cell_get _ _ M b path w else if mem b (pools st) then pool_get _ _ M b path w else unknown.
Definition name_value (s : state) (n : dotted) : res V :=
  match word n with
  | Some v => Ok v
  | None => if (match look (fst s) (fst n) with None => true | _ => false end && negb (mem (fst n) (cells st)) && negb (mem (fst n) (pools st)) && is_function st n)%bool
            then Ok (v_fcn _ _ M n)
            else match look (fst s) (fst n), snd n with
                 | Some v, [] => Ok v
                 | Some v, r => attr_get _ _ M v (values r)
                 | None, r => read (snd s) (fst n) (values r)
                 end
  end.
(** changing what stands at the end of a path that begins at a cell or pool: a pool item that is not there is made from [init] *)
Definition write (s : state) (b : string) (path : list V) (c : change V) (init : V) : res (V * state) :=
  if mem b (cells st) then in_world _ _ (fst s) (cell_to _ _ M b path c (snd s))
  else if mem b (pools st) then in_world _ _ (fst s) (pool_to _ _ M b path c init (snd s)) else unknown.
Definition shared (b : string) : bool := (mem b (cells st) || mem b (pools st))%bool.
(** x = v *)
Definition store (s : state) (b : string) (v : V) : res (V * state) :=
  match look (fst s) b with
  | Some _ => e <- assign (fst s) b v ;; Ok (v_null _ _ M, (e, snd s))
  | None => write s b [] (Direct v) v
  end.
Fixpoint store_all (s : state) (bs : list string) (vs : list V) : res (V * state) :=
  match bs, vs with b :: bs', v :: vs' => r <- store s b v ;; store_all (snd r) bs' vs' | _, _ => Ok (v_null _ _ M, s) end.

Definition body (m : mini) : list mini := match m with MDo l => l | _ => [m] end.
Fixpoint run (fuel : nat) (s : state) (m : mini) : res (V * state) :=
  match fuel with
  | O => Raise (PyErr "fuel")
  | S n =>
      let group s m := block V W M _ (run n) s (body m) in
      match m with
      | MName d => v <- name_value s d ;; Ok (v, s)
      | MNum z => Ok (v_num _ _ M z, s)
      | MStr x => Ok (v_str _ _ M x, s)
      | MCall f args =>
          r <- seq _ _ _ (run n) s (map snd args) ;;
          match args with
          | (Some _, _) :: _ => Ok (v_fill _ _ M f (combine (flat_map (fun a => match fst a with Some k => [k] | None => [] end) args) (fst r)), snd r)
          | _ => in_world _ _ (fst (snd r)) (call _ _ M f (fst r) (snd (snd r)))
          end
      | MDo l => block V W M _ (run n) s l
      | MGenGet e p => r <- run n s e ;; q <- seq _ _ _ (run n) (snd r) p ;; v <- attr_get _ _ M (fst r) (fst q) ;; Ok (v, snd q)
      | MGet (b, r) p =>
          match look (fst s) b with
          | Some x => q <- seq _ _ _ (run n) s p ;; v <- attr_get _ _ M x (values r ++ fst q) ;; Ok (v, snd q)
          | None => if shared b then q <- seq _ _ _ (run n) s p ;; v <- read (snd (snd q)) b (values r ++ fst q) ;; Ok (v, snd q) else unknown
          end
      | MTo (b, r) p direct t init =>
          let change v := if direct then Direct v else Through v in
          match look (fst s) b with
          | Some x => q <- seq _ _ _ (run n) s p ;; u <- run n (snd q) t ;; in_world _ _ (fst (snd u)) (attr_to _ _ M x (values r ++ fst q) (change (fst u)) (snd (snd u)))
          | None => if shared b
                    then q <- seq _ _ _ (run n) s p ;; u <- run n (snd q) t ;; w <- match init with None => Ok u | Some i => run n (snd u) i end ;;
                         write (snd w) b (values r ++ fst q) (change (fst u)) (fst w)
                    else unknown
          end
      | MIf pairs els => conds V W M _ _ (run n) group s pairs els
      | MWhile p b true => r <- run n s p ;; if truth _ _ M (fst r) then r <- group (snd r) b ;; run n (snd r) m else Ok (v_null _ _ M, snd r)
      | MWhile p b false => r <- group s b ;; r <- run n (snd r) p ;; if truth _ _ M (fst r) then Ok (v_null _ _ M, snd r) else run n (snd r) m
      | MGenAssign e p t => r <- run n s e ;; q <- seq _ _ _ (run n) (snd r) p ;; u <- run n (snd q) t ;;
          in_world _ _ (fst (snd u)) (attr_to _ _ M (fst r) (fst q) (Direct (fst u)) (snd (snd u)))
      | MAssign true pairs => r <- seq _ _ _ (run n) s (map snd pairs) ;; Ok (v_null _ _ M, (declare_all V (fst (snd r)) (map (fun q => fst (fst q)) pairs) (fst r), snd (snd r)))
      | MAssign false [((b, []), t)] => u <- run n s t ;; store (snd u) b (fst u)
      | MAssign false [((b, r), t)] =>
          match look (fst s) b with
          | Some x => u <- run n s t ;; in_world _ _ (fst (snd u)) (attr_to _ _ M x (values r) (Direct (fst u)) (snd (snd u)))
          | None => if shared b then u <- run n s t ;; write (snd u) b (values r) (Direct (fst u)) (fst u) else unknown
          end
      | MAssign false pairs => r <- seq _ _ _ (run n) s (map snd pairs) ;; store_all (snd r) (map (fun q => fst (fst q)) pairs) (fst r)
      end
  end.
End Run.

(** Programs whose meaning the translation keeps. *)
Section Clean.
Variable st : names.
(** no cell, pool or function begins with the name *)
Definition free (x : string) : Prop := mem x (cells st) = false /\ mem x (pools st) = false /\ (forall f, In f (functions st) -> fst f <> x).
(** no function begins with the name of a cell or pool, and no cell has the name of a pool *)
Definition good : Prop :=
  (forall f, In f (functions st) -> mem (fst f) (cells st) = false /\ mem (fst f) (pools st) = false) /\ (forall x, mem x (cells st) = true -> mem x (pools st) = false).
Definition names_of {V} (e : env V) : list string := concat (map (map fst) e).
Definition clean_env {V} (e : env V) : Prop := forall x, In x (names_of e) -> free x.
Section AllP.
Variables (A : Type) (P : A -> Prop).
Fixpoint allP (l : list A) : Prop := match l with [] => True | a :: l' => P a /\ allP l' end.
End AllP.
Arguments allP {A} P l.
(** evaluating it changes nothing *)
Definition quiet (m : mini) : Prop := match m with MName _ | MNum _ | MStr _ => True | _ => False end.
Definition partial (m : mini) : bool := match m with MCall _ args => existsb is_named args | _ => false end.
Definition refers (m : mini) : bool := match m with MName n => is_function st n | _ => partial m end.
Definition pool_only (b : string) : Prop := mem b (cells st) = false /\ mem b (pools st) = true.
Fixpoint clean (m : mini) : Prop :=
  match m with
  | MName _ | MNum _ | MStr _ => True
  | MCall _ args => allP (fun a => match a with (_, e) => clean e end) args /\ (forallb is_named args = true \/ existsb is_named args = false)
  | MDo l => allP clean l
  | MGenGet e p => clean e /\ allP clean p
  | MGet _ p => allP clean p
  | MTo (b, _) p _ t init => allP clean p /\ clean t /\ match init with None => pool_only b -> quiet t | Some i => clean i end
  | MIf pairs els => allP (fun q => match q with (p, t) => clean p /\ clean t end) pairs /\ match els with None => True | Some e => clean e end
  | MWhile p b _ => clean p /\ clean b
  | MGenAssign e p t => clean e /\ allP clean p /\ clean t /\ refers t = false
  | MAssign true pairs => allP (fun q => match q with ((b, _), t) => free b /\ clean t end) pairs
  | MAssign false [((b, _), t)] => clean t /\ partial t = false /\ (pool_only b -> quiet t)
  | MAssign false pairs => allP (fun q => match q with ((b, _), t) => mem b (cells st) = false /\ mem b (pools st) = false /\ clean t end) pairs
  end.
End Clean.
Arguments allP {A} P l.
