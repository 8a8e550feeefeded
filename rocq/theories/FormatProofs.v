(** Proofs about format strings: which declaration every documented spelling gets. *)
From Coq Require Import Ascii.
From Verif Require Import Base PackModel PackSpec.
Open Scope string_scope.
Open Scope list_scope.
Open Scope Z_scope.

Definition nonempty {A} (l : list A) : bool := match l with [] => false | _ => true end.
Lemma re_match_ne r s : re_match r s = nonempty (rests r s).
Proof. reflexivity. Qed.
Lemma ne_app {A} (l r : list A) : nonempty (l ++ r) = nonempty l || nonempty r.
Proof. destruct l; reflexivity. Qed.

(** The empty pattern at the end, and trailing white space, never decide whether a prefix matches. *)
Definition total (r : rx) : Prop := forall s, rests r s <> [].
Lemma ne_seq_total a b s : total b -> nonempty (rests (Seq a b) s) = nonempty (rests a s).
Proof.
  intros T. cbn [rests]. destruct (rests a s) as [|x l]; [reflexivity|]. cbn [flat_map]. specialize (T x). destruct (rests b x); [congruence|reflexivity].
Qed.
Lemma total_sp : total SpStar.
Proof. intros s. cbn [rests]. destruct (plus_rests is_space s); discriminate. Qed.
Lemma total_end : total (seqs [SpStar]).
Proof.
  intros s H. cbn [seqs fold_right rests] in H. pose proof (total_sp s) as T. cbn [rests] in T.
  destruct (plus_rests is_space s ++ [s]) as [|x l]; [congruence|]. cbn [flat_map drop_lit] in H. discriminate.
Qed.

(** Patterns that cannot match at a white space character. *)
Definition nospace (r : rx) : Prop := forall c s, is_space c = true -> rests r (String c s) = [].
Definition starts (s : string) : Prop := match s with EmptyString => True | String c _ => is_space c = false end.

Lemma plus_app w t : spaces w -> starts t -> plus_rests is_space (w ++ t) = match w with EmptyString => [] | String _ w' => plus_rests is_space (w' ++ t) ++ [(w' ++ t)%string] end.
Proof.
  intros W T. destruct w as [|c w]; cbn [String.append plus_rests].
  - destruct t as [|c t]; [reflexivity|]. cbn in T |- *. now rewrite T.
  - inversion W; subst. now rewrite H1.
Qed.

(** White space before a pattern that does not start with white space is skipped entirely. *)
Lemma rests_skip r w t : nospace r -> spaces w -> starts t -> rests (Seq SpStar r) (w ++ t) = rests r t.
Proof.
  intros N W T. cbn [rests]. rewrite flat_map_app. cbn [flat_map]. rewrite app_nil_r.
  assert (Go : forall w, spaces w -> flat_map (rests r) (plus_rests is_space (w ++ t)) ++ rests r (w ++ t) = rests r t).
  { induction w0 as [|c w0 IH]; intros W0; rewrite plus_app by assumption; [reflexivity|].
    inversion W0; subst. rewrite flat_map_app. cbn [flat_map]. rewrite app_nil_r, IH by assumption.
    cbn [String.append]. rewrite N by assumption. apply app_nil_r. }
  now apply Go.
Qed.
Lemma rests_skip0 r t : nospace r -> starts t -> rests (Seq SpStar r) t = rests r t.
Proof. intros N T. apply (rests_skip r "" t N); [constructor|exact T]. Qed.

Lemma nospace_lit c p : is_space c = false -> nospace (Lit (String c p)).
Proof.
  intros C c' s H. cbn [rests drop_lit]. destruct (Ascii.eqb_spec c c'); [congruence|reflexivity].
Qed.
Lemma nospace_seq a b : nospace a -> nospace (Seq a b).
Proof. intros N c s H. cbn [rests]. now rewrite N. Qed.
Lemma nospace_alt a b : nospace a -> nospace b -> nospace (Alt a b).
Proof. intros N M c s H. cbn [rests]. now rewrite N, M. Qed.

(** White space at the front of a format with optional byte order. *)
Lemma lead_endian N w t : nospace N -> spaces w -> starts t ->
  re_match (seqs [SpStar; endian; SpStar; N; SpStar]) (w ++ t) = nonempty (rests (Seq endian (Seq SpStar N)) t).
Proof.
  intros HN W T. rewrite re_match_ne.
  set (R1 := Seq endian (Seq SpStar N)).
  assert (NN : nospace (alts (Lit "<") [Lit ">"; Lit "!"; Lit "little"; Lit "big"; Lit "network"])).
  { cbn [alts fold_left]. repeat apply nospace_alt; apply nospace_lit; reflexivity. }
  assert (E0 : forall s, nonempty (rests (seqs [endian; SpStar; N; SpStar]) s) = nonempty (rests R1 s)).
  { intros s. unfold R1, endian. cbn [seqs fold_right rests]. rewrite !flat_map_app. cbn [flat_map].
    assert (Q : forall l, nonempty (flat_map (fun s0 : string => flat_map (fun s1 : string => flat_map (fun s2 : string => flat_map (rests (Lit "")) (plus_rests is_space s2 ++ [s2])) (rests N s1)) (plus_rests is_space s0 ++ [s0])) l)
       = nonempty (flat_map (fun s0 => flat_map (rests N) (plus_rests is_space s0 ++ [s0])) l)).
    { assert (Q0 : forall s2, nonempty (flat_map (rests (Lit "")) (plus_rests is_space s2 ++ [s2])) = true).
      { intros s2. pose proof (total_end s2) as TE. cbn [seqs fold_right rests] in TE. destruct (flat_map _ _) eqn:EE; [|reflexivity]. exfalso. now apply TE. }
      assert (Q1 : forall l, nonempty (flat_map (fun s2 : string => flat_map (rests (Lit "")) (plus_rests is_space s2 ++ [s2])) l) = nonempty l).
      { intros [|x l]; [reflexivity|]. cbn [flat_map]. rewrite ne_app, Q0. reflexivity. }
      assert (Q2 : forall l, nonempty (flat_map (fun s1 : string => flat_map (fun s2 : string => flat_map (rests (Lit "")) (plus_rests is_space s2 ++ [s2])) (rests N s1)) l) = nonempty (flat_map (rests N) l)).
      { induction l as [|x l IH]; [reflexivity|]. cbn [flat_map]. now rewrite !ne_app, Q1, IH. }
      induction l as [|x l IH]; [reflexivity|]. cbn [flat_map]. now rewrite !ne_app, Q2, IH. }
    rewrite !app_nil_r. rewrite !ne_app. f_equal.
    - apply Q.
    - specialize (Q [s]). cbn [flat_map] in Q. rewrite !app_nil_r in Q. exact Q. }
  assert (SpN : forall u, spaces u -> nonempty (rests R1 (u ++ t)) = true -> nonempty (rests R1 t) = true).
  { intros u U H. destruct u as [|c u]; [exact H|]. inversion U; subst.
    unfold R1, endian in H. cbn [rests] in H. cbn [String.append] in H. rewrite flat_map_app in H.
    change (nonempty (flat_map (rests (Seq SpStar N)) (rests (alts (Lit "<") [Lit ">"; Lit "!"; Lit "little"; Lit "big"; Lit "network"]) (String c (u ++ t))) ++ flat_map (rests (Seq SpStar N)) [String c (u ++ t)]) = true) in H.
    rewrite NN in H by assumption. cbn [flat_map app] in H. rewrite app_nil_r in H.
    change (String c (u ++ t)) with (String c u ++ t)%string in H. rewrite rests_skip in H by assumption.
    unfold R1, endian. cbn [rests]. rewrite flat_map_app, ne_app. apply orb_true_iff. right. cbn [flat_map]. rewrite app_nil_r.
    change (nonempty (rests (Seq SpStar N) t) = true). now rewrite rests_skip0. }
  change (seqs [SpStar; endian; SpStar; N; SpStar]) with (Seq SpStar (seqs [endian; SpStar; N; SpStar])).
  cbn [rests]. rewrite flat_map_app, ne_app. cbn [flat_map]. rewrite app_nil_r.
  assert (Go : forall w, spaces w -> nonempty (flat_map (rests (seqs [endian; SpStar; N; SpStar])) (plus_rests is_space (w ++ t))) || nonempty (rests (seqs [endian; SpStar; N; SpStar]) (w ++ t)) = nonempty (rests R1 t)).
  { induction w0 as [|c w0 IH]; intros W0; rewrite plus_app by assumption.
    - cbn [flat_map]. rewrite E0. reflexivity.
    - inversion W0; subst. rewrite flat_map_app, ne_app. cbn [flat_map]. rewrite app_nil_r, IH by assumption. rewrite E0.
      destruct (nonempty (rests R1 (String c w0 ++ t))) eqn:E; [|apply orb_false_r]. apply SpN in E; [|assumption]. now rewrite E. }
  now apply Go.
Qed.

(** Formats without byte order. *)
Lemma lead_plain r w t : nospace r -> spaces w -> starts t -> re_match (Seq SpStar r) (w ++ t) = nonempty (rests r t).
Proof. intros N W T. rewrite re_match_ne. now rewrite rests_skip. Qed.

(** * Literals *)

Definition hit (p s : string) : bool := match drop_lit p s with Some _ => true | None => false end.
Definition uhit (p s : string) : bool := nonempty (rests (uns p) s).
Definition eh (N : rx) (s : string) : bool := nonempty (rests (Seq endian (Seq SpStar N)) s).

Lemma ne_lit p s : nonempty (rests (Lit p) s) = hit p s.
Proof. cbn [rests]. unfold hit. destruct (drop_lit p s); reflexivity. Qed.
Lemma ne_alt a b s : nonempty (rests (Alt a b) s) = nonempty (rests a s) || nonempty (rests b s).
Proof. cbn [rests]. apply ne_app. Qed.

Lemma drop_lit_spaces a p w : is_space a = false -> spaces w -> drop_lit (String a p) w = None.
Proof.
  intros A W. destruct w as [|c w]; [reflexivity|]. inversion W; subst. cbn [drop_lit]. destruct (Ascii.eqb_spec a c); [congruence|reflexivity].
Qed.
Definition inky (p : string) : Prop := Forall (fun c => is_space c = false) (list_ascii_of_string p).
Lemma hit_app p n w : inky p -> spaces w -> hit p (n ++ w) = hit p n.
Proof.
  intros P W. unfold hit. revert n. induction p as [|a p IH]; intros n; [reflexivity|]. inversion P; subst.
  destruct n as [|c n].
  - cbn [String.append]. rewrite drop_lit_spaces by assumption. reflexivity.
  - cbn [String.append drop_lit]. destruct (Ascii.eqb a c); [|reflexivity]. now apply IH.
Qed.

Lemma spaces_app w v : spaces w -> spaces v -> spaces (w ++ v).
Proof. induction w as [|c w IH]; intros W V; [exact V|]. inversion W; subst. constructor; [assumption|now apply IH]. Qed.
Lemma append_assoc (a b c : string) : ((a ++ b) ++ c = a ++ (b ++ c))%string.
Proof. induction a as [|x a IH]; [reflexivity|]. cbn [String.append]. now rewrite IH. Qed.

Lemma uhit_none p s : hit "unsigned" s = false -> uhit p s = false.
Proof.
  unfold uhit, uns, hit. cbn [seqs fold_right rests]. destruct (drop_lit "unsigned" s); [discriminate|reflexivity].
Qed.
Lemma uhit_some c p w n : is_space c = false -> spaces w -> starts n -> uhit (String c p) ("unsigned" ++ w ++ n) = hit (String c p) n.
Proof.
  intros C W N. unfold uhit, uns. cbn [seqs fold_right].
  assert (E : rests (Seq (Lit "unsigned") (Seq SpStar (Seq (Lit (String c p)) (Lit "")))) ("unsigned" ++ w ++ n)
            = rests (Seq SpStar (Seq (Lit (String c p)) (Lit ""))) (w ++ n)).
  { cbn [rests String.append drop_lit Ascii.eqb Bool.eqb flat_map]. apply app_nil_r. }
  rewrite E. rewrite rests_skip; [|apply nospace_seq; now apply nospace_lit|exact W|exact N].
  rewrite ne_seq_total; [apply ne_lit|]. intros s. cbn [rests drop_lit]. discriminate.
Qed.

Definition orders : list string := ["<"; ">"; "!"; "little"; "big"; "network"].
Lemma eh_none N t : nospace N -> starts t -> existsb (fun o => hit o t) orders = false -> eh N t = nonempty (rests N t).
Proof.
  intros HN T O. unfold eh, endian. cbn [rests]. rewrite flat_map_app, ne_app. cbn [flat_map]. rewrite app_nil_r.
  replace (rests (alts (Lit "<") [Lit ">"; Lit "!"; Lit "little"; Lit "big"; Lit "network"]) t) with (@nil string).
  - cbn [flat_map nonempty orb]. change (nonempty (rests (Seq SpStar N) t) = nonempty (rests N t)). now rewrite rests_skip0.
  - symmetry. cbn [alts fold_left rests]. unfold orders, hit in O. cbn [existsb] in O.
    repeat (apply orb_false_elim in O as [?O O]).
    destruct (drop_lit "<" t), (drop_lit ">" t), (drop_lit "!" t), (drop_lit "little" t), (drop_lit "big" t), (drop_lit "network" t); try discriminate. reflexivity.
Qed.
Lemma eh_some N o w n : nospace N -> In o orders -> spaces w -> starts n ->
  nonempty (rests N (o ++ w ++ n)) = false -> eh N (o ++ w ++ n) = nonempty (rests N n).
Proof.
  intros HN O W S F. unfold eh, endian. cbn [rests]. rewrite flat_map_app, ne_app. cbn [flat_map]. rewrite app_nil_r.
  assert (E : rests (alts (Lit "<") [Lit ">"; Lit "!"; Lit "little"; Lit "big"; Lit "network"]) (o ++ w ++ n) = [(w ++ n)%string]).
  { destruct O as [<-|[<-|[<-|[<-|[<-|[<-|[]]]]]]]; reflexivity. }
  rewrite E. cbn [flat_map]. rewrite app_nil_r.
  change (nonempty (rests (Seq SpStar N) (w ++ n)) || nonempty (rests (Seq SpStar N) (o ++ w ++ n)) = nonempty (rests N n)).
  rewrite rests_skip by assumption. rewrite rests_skip0; [|assumption|].
  - rewrite F. apply orb_false_r.
  - destruct O as [<-|[<-|[<-|[<-|[<-|[<-|[]]]]]]]; reflexivity.
Qed.

(** The patterns of the names. *)
Definition nShort := alts (Lit "short") [Lit "int16"].
Definition nUShort := alts (uns "short") [uns "int16"].
Definition nInt := alts (Lit "int") [Lit "int32"].
Definition nUInt := alts (uns "int") [uns "int32"].
Definition nLong := alts (Lit "long") [seqs [Lit "long"; SpPlus; Lit "long"]; Lit "int64"].
Definition nULong := alts (uns "long") [seqs [Lit "unsigned"; SpStar; Lit "long"; SpPlus; Lit "long"]; uns "int64"].
Definition nFloat := alts (Lit "float") [Lit "float32"].
Definition nDouble := alts (Lit "double") [Lit "float64"].

Ltac nosp := unfold nShort, nUShort, nInt, nUInt, nLong, nULong, nFloat, nDouble, uns; cbn [alts fold_left seqs fold_right];
  repeat (apply nospace_alt || apply nospace_seq || (apply nospace_lit; reflexivity)).

Lemma N_short s : nonempty (rests nShort s) = hit "short" s || hit "int16" s.
Proof. unfold nShort. cbn [alts fold_left]. now rewrite ne_alt, !ne_lit. Qed.
Lemma N_ushort s : nonempty (rests nUShort s) = uhit "short" s || uhit "int16" s.
Proof. unfold nUShort. cbn [alts fold_left]. now rewrite ne_alt. Qed.
Lemma N_int s : nonempty (rests nInt s) = hit "int" s || hit "int32" s.
Proof. unfold nInt. cbn [alts fold_left]. now rewrite ne_alt, !ne_lit. Qed.
Lemma N_uint s : nonempty (rests nUInt s) = uhit "int" s || uhit "int32" s.
Proof. unfold nUInt. cbn [alts fold_left]. now rewrite ne_alt. Qed.
Lemma N_long s : nonempty (rests nLong s) = hit "long" s || hit "int64" s.
Proof.
  unfold nLong. cbn [alts fold_left]. rewrite !ne_alt, !ne_lit. f_equal.
  destruct (hit "long" s) eqn:E; [reflexivity|]. cbn [orb]. cbn [seqs fold_right rests]. unfold hit in E. now destruct (drop_lit "long" s).
Qed.
Lemma N_ulong s : nonempty (rests nULong s) = uhit "long" s || uhit "int64" s.
Proof.
  unfold nULong. cbn [alts fold_left]. rewrite !ne_alt. fold (uhit "long" s) (uhit "int64" s). f_equal.
  destruct (uhit "long" s) eqn:E; [reflexivity|]. cbn [orb]. unfold uhit, uns in E. cbn [seqs fold_right] in E |- *.
  cbn [rests] in *. destruct (drop_lit "unsigned" s) as [s1|]; [|reflexivity]. cbn [flat_map] in *. rewrite app_nil_r in *.
  induction (plus_rests is_space s1 ++ [s1]) as [|x l IH]; [reflexivity|]. cbn [flat_map] in *. rewrite ne_app in *.
  apply orb_false_elim in E as [E1 E2]. rewrite (IH E2), orb_false_r. destruct (drop_lit "long" x); [discriminate|reflexivity].
Qed.
Lemma N_float s : nonempty (rests nFloat s) = hit "float" s || hit "float32" s.
Proof. unfold nFloat. cbn [alts fold_left]. now rewrite ne_alt, !ne_lit. Qed.
Lemma N_double s : nonempty (rests nDouble s) = hit "double" s || hit "float64" s.
Proof. unfold nDouble. cbn [alts fold_left]. now rewrite ne_alt, !ne_lit. Qed.

(** formatToDeclare, after white space, by literals. *)
Lemma F_plain c p w t : is_space c = false -> spaces w -> starts t -> re_match (seqs [SpStar; Lit (String c p); SpStar]) (w ++ t) = hit (String c p) t.
Proof.
  intros C W T. cbn [seqs fold_right]. rewrite lead_plain; [|apply nospace_seq; now apply nospace_lit|exact W|exact T].
  rewrite ne_seq_total; [apply ne_lit|apply total_end].
Qed.
Lemma F_byte w t : spaces w -> starts t -> re_match formatByte (w ++ t) = hit "byte" t || hit "int8" t.
Proof.
  intros W T. unfold formatByte. cbn [seqs fold_right]. rewrite lead_plain; [|apply nospace_seq; nosp|exact W|exact T].
  rewrite ne_seq_total by apply total_end. cbn [alts fold_left]. now rewrite ne_alt, !ne_lit.
Qed.
Lemma ne_flat_ext {A B C} (f : A -> list B) (g : A -> list C) l : (forall s, nonempty (f s) = nonempty (g s)) ->
  nonempty (flat_map f l) = nonempty (flat_map g l).
Proof. intros E. induction l as [|x l IH]; [reflexivity|]. cbn [flat_map]. now rewrite !ne_app, E, IH. Qed.
Lemma ne_flat_or {A B C D} (f : A -> list B) (g : A -> list C) (h : A -> list D) l : (forall s, nonempty (f s) = nonempty (g s) || nonempty (h s)) ->
  nonempty (flat_map f l) = nonempty (flat_map g l) || nonempty (flat_map h l).
Proof.
  intros E. induction l as [|x l IH]; [reflexivity|]. cbn [flat_map]. rewrite !ne_app, E, IH.
  destruct (nonempty (g x)), (nonempty (h x)), (nonempty (flat_map g l)); reflexivity.
Qed.
Lemma F_ubyte w t : spaces w -> starts t -> re_match formatUnsignedByte (w ++ t) = uhit "byte" t || uhit "int8" t.
Proof.
  intros W T. unfold formatUnsignedByte. cbn [seqs fold_right]. rewrite lead_plain; [|apply nospace_seq; nosp|exact W|exact T].
  unfold uhit, uns. cbn [seqs fold_right].
  assert (TE : total (Lit "")) by (intros s; discriminate).
  change (nonempty (flat_map (rests (Seq SpStar (Seq (alts (Lit "byte") [Lit "int8"]) (seqs [SpStar])))) (rests (Lit "unsigned") t))
    = nonempty (flat_map (rests (Seq SpStar (Seq (Lit "byte") (Lit "")))) (rests (Lit "unsigned") t))
    || nonempty (flat_map (rests (Seq SpStar (Seq (Lit "int8") (Lit "")))) (rests (Lit "unsigned") t))).
  apply ne_flat_or. intros s.
  change (nonempty (flat_map (rests (Seq (alts (Lit "byte") [Lit "int8"]) (seqs [SpStar]))) (rests SpStar s))
    = nonempty (flat_map (rests (Seq (Lit "byte") (Lit ""))) (rests SpStar s))
    || nonempty (flat_map (rests (Seq (Lit "int8") (Lit ""))) (rests SpStar s))).
  apply ne_flat_or. intros u. rewrite !ne_seq_total by (assumption || apply total_end).
  cbn [alts fold_left]. apply ne_alt.
Qed.
Lemma F_endian N w t : nospace N -> spaces w -> starts t -> re_match (seqs [SpStar; endian; SpStar; N; SpStar]) (w ++ t) = eh N t.
Proof. intros; now apply lead_endian. Qed.

Definition chosen (t : string) (little : bool) : option declare :=
  if hit "pad" t || hit "boolean" t || hit "byte" t || hit "int8" t || uhit "byte" t || uhit "int8" t then None
  else if eh nShort t then Some (DShort little false)
  else if eh nUShort t then Some (DShort little true)
  else if eh nInt t then Some (DInt little false)
  else if eh nUInt t then Some (DInt little true)
  else if eh nLong t then Some (DLong little false)
  else if eh nULong t then Some (DLong little true)
  else if eh nFloat t then Some (DFloat little)
  else if eh nDouble t then Some (DDouble little)
  else None.

Lemma chosen_ok w t out d : spaces w -> starts t -> chosen t (str_in "<" (w ++ t) || str_in "little" (w ++ t)) = Some d ->
  formatToDeclare (w ++ t) out = Ok d.
Proof.
  intros W T. unfold chosen, formatToDeclare.
  unfold formatPad, formatBoolean. rewrite !F_plain by (assumption || reflexivity). rewrite F_byte, F_ubyte by assumption.
  unfold formatShort, formatUnsignedShort, formatInt, formatUnsignedInt, formatLong, formatUnsignedLong, formatFloat, formatDouble.
  fold nShort nUShort nInt nUInt nLong nULong nFloat nDouble.
  rewrite !F_endian by (assumption || nosp).
  destruct (hit "pad" t); [discriminate|]. destruct (hit "boolean" t); [discriminate|].
  destruct (hit "byte" t); [discriminate|]. destruct (hit "int8" t); [discriminate|].
  destruct (uhit "byte" t); [discriminate|]. destruct (uhit "int8" t); [discriminate|]. cbn [orb].
  repeat match goal with |- context [if ?b then _ else _] => destruct b end; congruence.
Qed.

Lemma str_in_skip c p w s : is_space c = false -> spaces w -> str_in (String c p) (w ++ s) = str_in (String c p) s.
Proof.
  intros C W. induction w as [|a w IH]; [reflexivity|]. inversion W; subst. cbn [String.append str_in drop_lit].
  destruct (Ascii.eqb_spec c a); [congruence|]. now apply IH.
Qed.
Lemma str_in_spaces c p w : is_space c = false -> spaces w -> str_in (String c p) w = false.
Proof.
  intros C W. induction w as [|a w IH]; [reflexivity|]. inversion W; subst. cbn [str_in drop_lit].
  destruct (Ascii.eqb_spec c a); [congruence|]. now apply IH.
Qed.

(** * The choice, given which names and which "unsigned" names stand at the front *)

Definition pick (h u : string -> bool) (little : bool) : option declare :=
  if h "short" || h "int16" then Some (DShort little false)
  else if u "short" || u "int16" then Some (DShort little true)
  else if h "int" || h "int32" then Some (DInt little false)
  else if u "int" || u "int32" then Some (DInt little true)
  else if h "long" || h "int64" then Some (DLong little false)
  else if u "long" || u "int64" then Some (DLong little true)
  else if h "float" || h "float32" then Some (DFloat little)
  else if h "double" || h "float64" then Some (DDouble little)
  else None.

Lemma chosen_none t little : starts t -> existsb (fun o => hit o t) orders = false ->
  hit "pad" t || hit "boolean" t || hit "byte" t || hit "int8" t || uhit "byte" t || uhit "int8" t = false ->
  chosen t little = pick (fun p => hit p t) (fun p => uhit p t) little.
Proof.
  intros S O F. unfold chosen, pick. rewrite F. rewrite !eh_none by (assumption || nosp).
  rewrite N_short, N_ushort, N_int, N_uint, N_long, N_ulong, N_float, N_double. reflexivity.
Qed.

Definition words : list string :=
  ["pad"; "boolean"; "byte"; "int8"; "short"; "int16"; "int"; "int32"; "long"; "int64"; "float"; "float32"; "double"; "float64"; "unsigned"].
Lemma chosen_some o w n little : In o orders -> spaces w -> starts n ->
  chosen (o ++ w ++ n) little = pick (fun p => hit p n) (fun p => uhit p n) little.
Proof.
  intros O W S.
  assert (H : forall p, In p words -> hit p (o ++ w ++ n) = false).
  { intros p P. unfold words in P. cbn [In] in P.
    destruct O as [<-|[<-|[<-|[<-|[<-|[<-|[]]]]]]]; decompose [or] P; subst; try reflexivity; contradiction. }
  assert (U : forall p, uhit p (o ++ w ++ n) = false) by (intros p; apply uhit_none, H; cbn; tauto).
  unfold chosen, pick. rewrite !U. rewrite !H by (cbn; tauto). cbn [orb].
  rewrite !eh_some; try assumption; try nosp;
    rewrite ?N_short, ?N_ushort, ?N_int, ?N_uint, ?N_long, ?N_ulong, ?N_float, ?N_double, ?U; try reflexivity;
    rewrite !H by (cbn; tauto); reflexivity.
Qed.

Ltac inks := repeat (constructor; [reflexivity|]); constructor.

Lemma pick_signed n w little : spaces w -> hit "unsigned" n = false -> pick (fun p => hit p (n ++ w)) (fun p => uhit p (n ++ w)) little = pick (fun p => hit p n) (fun _ => false) little.
Proof.
  intros W U. unfold pick. rewrite !hit_app by (assumption || inks).
  rewrite !uhit_none by (rewrite hit_app by (assumption || inks); exact U). reflexivity.
Qed.
Lemma pick_unsigned v n w little : spaces v -> spaces w -> starts (n ++ w) ->
  pick (fun p => hit p ("unsigned" ++ v ++ n ++ w)) (fun p => uhit p ("unsigned" ++ v ++ n ++ w)) little = pick (fun _ => false) (fun p => hit p n) little.
Proof.
  intros V W S. unfold pick. rewrite !uhit_some by (assumption || reflexivity). rewrite !(fun p => hit_app p n w) by (assumption || inks).
  unfold hit. cbn [String.append drop_lit Ascii.eqb Bool.eqb orb]. reflexivity.
Qed.

(** Everything but 64-bit names gets what it says; the names "int64" and "float64" are read as "int" and "float". *)
Definition actual (n : string) (k : kind) : kind :=
  match k with
  | KInt u b => if String.eqb n "int64" then KInt u 4 else k
  | KFloat b => if String.eqb n "float64" then KFloat 4 else k
  end.

Lemma str_in_cons sub c s : drop_lit sub (String c s) = None -> str_in sub (String c s) = str_in sub s.
Proof. intros H. cbn [str_in]. now rewrite H. Qed.
Lemma str_in_here sub c s : hit sub (String c s) = true -> str_in sub (String c s) = true.
Proof. unfold hit. intros H. cbn [str_in]. destruct (drop_lit sub (String c s)); [reflexivity|discriminate]. Qed.

Lemma spelled_little w1 w2 o little rest : In (o, little) byte_orders -> spaces w1 -> spaces w2 ->
  str_in "<" rest = false -> str_in "little" rest = false ->
  str_in "<" (w1 ++ o ++ w2 ++ rest) || str_in "little" (w1 ++ o ++ w2 ++ rest) = little.
Proof.
  intros O W1 W2 R1 R2. rewrite !(fun c p => str_in_skip c p w1) by (assumption || reflexivity).
  unfold byte_orders in O. cbn [In] in O.
  decompose [or] O; try contradiction;
    match goal with H : (_, _) = (_, _) |- _ => injection H as <- <- end;
    cbn [String.append];
    repeat ((rewrite str_in_here by reflexivity) || (rewrite str_in_cons by reflexivity));
    rewrite ?str_in_skip by (assumption || reflexivity); rewrite ?R1, ?R2; reflexivity.
Qed.

Lemma chosen_at w1 w2 o little body d out :
  In (o, little) byte_orders -> spaces w1 -> spaces w2 -> starts body ->
  str_in "<" body = false -> str_in "little" body = false ->
  existsb (fun o => hit o body) orders = false ->
  hit "pad" body || hit "boolean" body || hit "byte" body || hit "int8" body || uhit "byte" body || uhit "int8" body = false ->
  pick (fun p => hit p body) (fun p => uhit p body) little = Some d ->
  formatToDeclare (w1 ++ o ++ w2 ++ body) out = Ok d.
Proof.
  intros O W1 W2 S R1 R2 E F P.
  pose proof (spelled_little w1 w2 o little body O W1 W2 R1 R2) as L.
  assert (Oo : o = "" \/ In o orders).
  { unfold byte_orders in O. cbn [In] in O. decompose [or] O; try contradiction;
      match goal with H : (_, _) = (_, _) |- _ => injection H as <- <- end; cbn; tauto. }
  destruct Oo as [->|Oo].
  - cbn [String.append] in *. rewrite <- append_assoc in *. apply chosen_ok; [now apply spaces_app|exact S|].
    rewrite L. now rewrite chosen_none.
  - apply chosen_ok; [exact W1| |].
    + destruct Oo as [<-|[<-|[<-|[<-|[<-|[<-|[]]]]]]]; reflexivity.
    + rewrite L. now rewrite chosen_some.
Qed.

Lemma spelled f little n k out : spelling f little n k -> exists d, formatToDeclare f out = Ok d /\ says little (actual n k) d.
Proof.
  intros H. destruct H as [w1 o little w2 n k w3 W1 W2 W3 O N|w1 o little w2 w n k w3 W1 W2 W W3 O N].
  - unfold multi_byte_names in N. cbn [In] in N.
    decompose [or] N; try contradiction; match goal with H : (_, _) = (n, k) |- _ => injection H as <- <- end; clear N;
      (eexists; split; [eapply chosen_at; [exact O|exact W1|exact W2|reflexivity| | | | |rewrite pick_signed by (exact W3 || reflexivity); reflexivity]|now split || reflexivity]).
    all: try (cbn [String.append]; repeat (rewrite str_in_cons by reflexivity); apply str_in_spaces; [reflexivity|exact W3]).
    all: try (unfold orders; cbn [existsb]; rewrite !hit_app by (exact W3 || inks); reflexivity).
    all: rewrite !hit_app by (exact W3 || inks); rewrite !uhit_none by (rewrite hit_app by (exact W3 || inks); reflexivity); reflexivity.
  - unfold unsigned_names in N. cbn [In] in N.
    decompose [or] N; try contradiction; match goal with H : (_, _) = (n, k) |- _ => injection H as <- <- end; clear N;
      (eexists; split; [eapply chosen_at; [exact O|exact W1|exact W2|reflexivity| | | | |rewrite pick_unsigned by (exact W || exact W3 || reflexivity); reflexivity]|now split || reflexivity]).
    all: try (cbn [String.append]; repeat (rewrite str_in_cons by reflexivity); rewrite str_in_skip by (exact W || reflexivity);
              cbn [String.append]; repeat (rewrite str_in_cons by reflexivity); apply str_in_spaces; [reflexivity|exact W3]).
    all: try reflexivity.
    all: rewrite !uhit_some by (exact W || reflexivity); rewrite !(fun p n => hit_app p n w3) by (exact W3 || inks); reflexivity.
Qed.
