(** Properties C32 and C33: binary packing. *)
From Coq Require Import Ascii.
From Coq Require Import SpecFloat.
From Verif Require Import Base PyNum PackModel PackSpec PackProofs FormatProofs.
Open Scope string_scope.
Open Scope list_scope.
Open Scope Z_scope.

(** A row of a format: symbol, value, declaration. *)
Definition row := (string * (pval * declare))%type.
Definition fmt_of (l : list row) : list (string * declare) := map (fun x => (fst x, snd (snd x))) l.
Definition total_bytes (l : list row) : Z := fold_right (fun x a => nbytes (snd (snd x)) (fst (snd x)) + a) 0 l.

(** C32. Values that fit their formats are packed, into as many bytes as the formats say, and unpacking those bytes with
    the same formats binds every symbol to the value packed. *)
Theorem C32_roundtrip (l : list row) : Forall (fun x => fits (snd (snd x)) (fst (snd x))) l ->
  exists bytes ws,
    pack (map snd l) = Ok bytes
    /\ unpack (plain bytes) (fmt_of l) = Ok (Some (combine (map fst l) ws))
    /\ Forall2 (fun x w => came_back (snd (snd x)) (fst (snd x)) w) l ws
    /\ Z.of_nat (length bytes) = total_bytes l
    /\ Forall (fun b => 0 <= b < 256) bytes.
Proof.
  intros F. destruct (roundtrip_loop l F) as (b & ws & P & U & C & L & R). exists b, ws.
  split; [exact P|]. split; [|split; [exact C|split; [exact L|exact R]]].
  unfold unpack, fmt_of. specialize (U []). rewrite app_nil_r in U. rewrite U. reflexivity.
Qed.
Print Assumptions C32_roundtrip.

(** All bytes must be consumed and none may be missing: with bytes appended, or with bytes cut off the end, the
    then-clause is not run. *)
Theorem C32_trailing_truncated (l : list row) bytes : Forall (fun x => fits (snd (snd x)) (fst (snd x))) l -> pack (map snd l) = Ok bytes ->
  (forall extra, extra <> [] -> unpack (plain (bytes ++ extra)) (fmt_of l) = Ok None)
  /\ (forall front cut, bytes = front ++ cut -> cut <> [] -> unpack (plain front) (fmt_of l) = Ok None).
Proof.
  intros F P. destruct (roundtrip_loop l F) as (b & ws & P' & U & _). rewrite P in P'. injection P' as <-. split.
  - intros extra N. unfold unpack, fmt_of. rewrite U. cbn [plain b_data]. destruct extra; [congruence|reflexivity].
  - intros front cut E N. unfold unpack, fmt_of.
    destruct (unpack_loop (plain front) _) as [[vs b']| |e] eqn:L; [|reflexivity|exfalso; exact (plain_noerr _ _ _ L)].
    pose proof (unpack_loop_more _ _ _ _ cut L) as M. unfold more in M. cbn [plain b_str b_data] in M. fold (plain (front ++ cut)) in M. rewrite <- E in M.
    specialize (U []). rewrite app_nil_r in U. rewrite U in M. injection M as _ M1 M2. destruct (b_data b'); [|reflexivity].
    cbn [app] in M2. congruence.
Qed.
Print Assumptions C32_trailing_truncated.

(** Different lists of values have different packed forms. *)
Theorem C32_injective (l1 l2 : list row) bytes :
  Forall (fun x => fits (snd (snd x)) (fst (snd x))) l1 -> Forall (fun x => fits (snd (snd x)) (fst (snd x))) l2 ->
  fmt_of l1 = fmt_of l2 -> pack (map snd l1) = Ok bytes -> pack (map snd l2) = Ok bytes ->
  exists ws, Forall2 (fun x w => came_back (snd (snd x)) (fst (snd x)) w) l1 ws
          /\ Forall2 (fun x w => came_back (snd (snd x)) (fst (snd x)) w) l2 ws.
Proof.
  intros F1 F2 E P1 P2.
  destruct (C32_roundtrip l1 F1) as (b1 & w1 & Q1 & U1 & C1 & _). rewrite P1 in Q1. injection Q1 as <-.
  destruct (C32_roundtrip l2 F2) as (b2 & w2 & Q2 & U2 & C2 & _). rewrite P2 in Q2. injection Q2 as <-.
  exists w1. split; [exact C1|]. rewrite E, U2 in U1. injection U1 as U1.
  assert (N : map fst l1 = map fst l2).
  { apply (f_equal (map fst)) in E. unfold fmt_of in E. rewrite !map_map in E. exact E. }
  rewrite N in U1. replace w1 with w2; [exact C2|].
  assert (L1 : length w1 = length (map fst l2)) by (rewrite <- N, map_length; clear -C1; induction C1; cbn; congruence).
  assert (L2 : length w2 = length (map fst l2)) by (rewrite map_length; clear -C2; induction C2; cbn; congruence).
  clear -U1 L1 L2. revert w1 w2 U1 L1 L2. generalize (map fst l2). induction l as [|s l IH]; intros [|x w1] [|y w2] U L1 L2; try discriminate; [reflexivity|].
  cbn [combine] in U. injection U as -> U. f_equal. apply IH; [exact U| |]; cbn [length] in *; congruence.
Qed.
Print Assumptions C32_injective.

(** The other direction: if some bytes unpack, packing the values found gives the same bytes back (padding and booleans,
    which have more than one byte for the same value, and NaNs aside). *)
Theorem C32_repack (fmt : list (string * declare)) bytes vs :
  Forall (fun x => exact_format (snd x)) fmt -> Forall (fun x => not_nan (snd x)) vs ->
  Forall (fun b => 0 <= b < 256) bytes -> unpack (plain bytes) fmt = Ok (Some vs) ->
  map fst vs = map fst fmt /\ pack (combine (map snd vs) (map snd fmt)) = Ok bytes.
Proof.
  intros X N B U. unfold unpack in U. destruct (unpack_loop (plain bytes) fmt) as [[vs' b']| |] eqn:L; [|discriminate|discriminate].
  assert (b_data b' = [] /\ vs' = vs) as [E ->] by (destruct (b_data b'); [injection U as ->; auto|discriminate]).
  destruct (repack_loop fmt bytes vs b' X N B L) as (p & P1 & P2 & _ & P4). rewrite E, app_nil_r in P2. subst p. now split.
Qed.
Print Assumptions C32_repack.

(** Unpacking a bytes object never fails with an exception: it runs either the then-clause or the else-clause. *)
Theorem C32_unpack_total (fmt : list (string * declare)) bytes : exists o, unpack (plain bytes) fmt = Ok o.
Proof.
  unfold unpack. destruct (unpack_loop (plain bytes) fmt) as [[vs b']| |e] eqn:L; [eexists; reflexivity|eexists; reflexivity|].
  exfalso. exact (plain_noerr _ _ _ L).
Qed.
Print Assumptions C32_unpack_total.

(** A concrete case: a little-endian short, 1.5 as a float, a prefixed string, and 2^63 given as a double. *)
Example C32_example :
  let l := [("a", (VNum (NI (-2)), DShort true false)); ("b", (VNum (NF (S754_finite false 6755399441055744 (-52))), DFloat false));
            ("c", (VBytes [104; 105], DPrefixed)); ("d", (VNum (NF (S754_finite false 4503599627370496 11)), DLong false true))] in
  Forall (fun x => fits (snd (snd x)) (fst (snd x))) l
  /\ pack (map snd l) = Ok [254; 255; 63; 192; 0; 0; 2; 104; 105; 128; 0; 0; 0; 0; 0; 0; 0]
  /\ unpack (plain [254; 255; 63; 192; 0; 0; 2; 104; 105; 128; 0; 0; 0; 0; 0; 0; 0]) (fmt_of l)
     = Ok (Some [("a", VNum (NI (-2))); ("b", VNum (NF (S754_finite false 6755399441055744 (-52)))); ("c", VBytes [104; 105]); ("d", VNum (NI 9223372036854775808))]).
Proof.
  cbn zeta. split; [|split; reflexivity]. constructor; [|constructor; [|constructor; [|constructor; [|constructor]]]]; cbn [fits snd fst].
  - exists (-2). split; [reflexivity|]. split; [|reflexivity]. discriminate.
  - exists (NF (S754_finite false 6755399441055744 (-52))), (S754_finite false 6755399441055744 (-52)), (S754_finite false 12582912 (-23)).
    repeat split; discriminate.
  - exists [104; 105]. split; [|cbn; lia]. split; [now left|]. repeat constructor; lia.
  - exists (NF (S754_finite false 4503599627370496 11)), 9223372036854775808. repeat split; lia || reflexivity.
Qed.

(** What does not come back, although pack accepts it: *)
(** ... null-terminated bytes that contain a null, *)
Theorem C32_terminated_refuted : exists v bytes,
  content v [65; 0; 66] /\ pack [(v, DToNull)] = Ok bytes /\ unpack (plain bytes) [("x", DToNull)] = Ok None.
Proof. exists (VBytes [65; 0; 66]), [65; 0; 66; 0]. split; [split; [now left|]|split; reflexivity]. repeat constructor; lia. Qed.
Print Assumptions C32_terminated_refuted.

(** ... a "float" that is not a single precision number (0.1), *)
Theorem C32_float_refuted : exists x bytes y,
  double x /\ pack [(VNum (NF x), DFloat false)] = Ok bytes
  /\ unpack (plain bytes) [("x", DFloat false)] = Ok (Some [("x", VNum (NF y))]) /\ y <> x.
Proof.
  exists (S754_finite false 7205759403792794 (-56)), [61; 204; 204; 205], (S754_finite false 7205759511166976 (-56)).
  repeat split; try reflexivity. discriminate.
Qed.
Print Assumptions C32_float_refuted.

(** ... integers outside the format, which the type checker lets through: struct.error instead of a PFA error, *)
Theorem C32_range_refuted little u z :
  ~ in_bits u 8 z -> pack [(VNum (NI z), DByte u)] = Raise (PyErr "struct.error")
  /\ (~ in_bits u 16 z -> pack [(VNum (NI z), DShort little u)] = Raise (PyErr "struct.error"))
  /\ (~ in_bits u 32 z -> pack [(VNum (NI z), DInt little u)] = Raise (PyErr "struct.error")).
Proof.
  assert (R : forall n, ~ in_bits u (8 * Z.of_nat n) z -> int_range (negb u) n z = false).
  { intros n N. unfold int_range. destruct u; cbn [negb]; apply andb_false_iff;
      [destruct (Z.leb_spec 0 z); [right; apply Z.ltb_ge|now left]|destruct (Z.leb_spec (- 2 ^ (8 * Z.of_nat n - 1)) z); [right; apply Z.ltb_ge|now left]];
      unfold in_bits in N; lia. }
  intros N1. split; [|split; intros N2].
  - apply (R 1%nat) in N1. cbn [pack declare_str fst snd]. unfold packOne, struct_pack, pack_int. destruct u; cbn in N1 |- *; now rewrite N1.
  - apply (R 2%nat) in N2. cbn [pack declare_str fst snd]. unfold packOne, struct_pack, pack_int.
    destruct u, little; cbn [ord_ String.append parse_fmt letter option_map Ascii.eqb Bool.eqb String.eqb str_in drop_lit orb negb] in *; now rewrite N2.
  - apply (R 4%nat) in N2. cbn [pack declare_str fst snd]. unfold packOne, struct_pack, pack_int.
    destruct u, little; cbn [ord_ String.append parse_fmt letter option_map Ascii.eqb Bool.eqb String.eqb str_in drop_lit orb negb] in *; now rewrite N2.
Qed.
Print Assumptions C32_range_refuted.

(** ... and bytes held as a string (as decoded from JSON), on which unpack fails with a TypeError for every format with a
    number, a boolean, padding or a terminator. *)
Theorem C32_string_refuted : exists fmt b, unpack {| b_str := false; b_data := b |} fmt <> Ok None
  /\ unpack {| b_str := true; b_data := b |} fmt = Raise (PyErr "TypeError").
Proof. exists [("x", DByte false)], [7]. split; [discriminate|reflexivity]. Qed.
Print Assumptions C32_string_refuted.

(** An "unsigned long" is declared to give a double, but what unpack binds is an integer, which need not be a double. *)
Theorem C32_unsigned_long_refuted : exists bytes z,
  unpack (plain bytes) [("x", DLong false true)] = Ok (Some [("x", VNum (NI z))])
  /\ declare_type (DLong false true) = TyDouble /\ (forall f, double f -> py_int f <> Ok z).
Proof.
  exists [255; 255; 255; 255; 255; 255; 255; 255], 18446744073709551615. split; [reflexivity|]. split; [reflexivity|].
  intros f D. destruct f as [s|s| |s m e]; try discriminate. apply valid_finite in D as [D1 D2]. pose proof (pos_bounds m) as B.
  unfold py_int. set (d := Zpos (digits2_pos m)) in *. assert (Dl : d <= 53) by lia.
  assert (M : Zpos m < 2 ^ 53) by (assert (2 ^ d <= 2 ^ 53) by (apply Z.pow_le_mono_r; lia); lia).
  destruct (Z.leb_spec 0 e) as [P|P]; intros H; injection H as H.
  - destruct (Z.eq_dec e 0) as [->|Ne]; [destruct s; cbn [zsign] in H; lia|].
    replace e with (Z.succ (e - 1)) in H by lia. rewrite Z.pow_succ_r in H by lia. destruct s; cbn [zsign] in H; lia.
  - assert (Q : 0 <= Zpos m / 2 ^ (- e) <= Zpos m).
    { split; [apply Z.div_pos; [lia|apply Z.pow_pos_nonneg; lia]|]. apply Z.div_le_upper_bound; [apply Z.pow_pos_nonneg; lia|].
      assert (1 <= 2 ^ (- e)) by (change 1 with (2 ^ 0); apply Z.pow_le_mono_r; lia). nia. }
    destruct s; cbn [zsign] in H; lia.
Qed.
Print Assumptions C32_unsigned_long_refuted.

(** C33. Every spelling of every documented multi-byte name except those of "int64" and "float64", with any byte order
    and any white space, is declared with the size, signedness and byte order it says. *)
Theorem C33_spelling_partial f little n k out : spelling f little n k -> n <> "int64" -> n <> "float64" ->
  exists d, formatToDeclare f out = Ok d /\ says little k d.
Proof.
  intros S N1 N2. destruct (spelled f little n k out S) as (d & D & Q). exists d. split; [exact D|].
  replace (actual n k) with k in Q; [exact Q|]. unfold actual. apply String.eqb_neq in N1, N2. rewrite N1, N2. destruct k; reflexivity.
Qed.
Print Assumptions C33_spelling_partial.

(** All spellings of "int64", "unsigned int64" and "float64" are declared with 4 bytes instead of 8. *)
Theorem C33_64bit_refuted f little n k out : spelling f little n k -> n = "int64" \/ n = "float64" ->
  (exists u, k = KInt u 8 /\ formatToDeclare f out = Ok (DInt little u)) \/ (k = KFloat 8 /\ formatToDeclare f out = Ok (DFloat little)).
Proof.
  intros S N. destruct (spelled f little n k out S) as (d & D & Q).
  assert (K : (n = "int64" /\ exists u, k = KInt u 8) \/ (n = "float64" /\ k = KFloat 8)).
  { inversion S as [? ? ? ? ? ? ? ? ? ? ? Hn|? ? ? ? ? ? ? ? ? ? ? ? ? Hn]; subst; unfold multi_byte_names, unsigned_names in Hn; cbn [In] in Hn;
      decompose [or] Hn; try contradiction; match goal with H : (_, _) = (n, k) |- _ => injection H as <- <- end;
      destruct N as [N|N]; try discriminate; [left; split; [reflexivity|eexists; reflexivity]|now right|left; split; [reflexivity|eexists; reflexivity]]. }
  destruct K as [[-> [u ->]]|[-> ->]]; cbn in Q.
  - left. exists u. split; [reflexivity|]. destruct d; try contradiction. destruct Q as [-> ->]. exact D.
  - right. split; [reflexivity|]. destruct d; try contradiction. subst. exact D.
Qed.
Print Assumptions C33_64bit_refuted.

(** Single-byte names. *)
Theorem C33_bytes w1 w w3 out : spaces w1 -> spaces w -> spaces w3 ->
  formatToDeclare (w1 ++ "pad" ++ w3) out = Ok DPad /\ formatToDeclare (w1 ++ "boolean" ++ w3) out = Ok DBoolean
  /\ formatToDeclare (w1 ++ "byte" ++ w3) out = Ok (DByte false) /\ formatToDeclare (w1 ++ "int8" ++ w3) out = Ok (DByte false)
  /\ formatToDeclare (w1 ++ "unsigned" ++ w ++ "byte" ++ w3) out = Ok (DByte true)
  /\ formatToDeclare (w1 ++ "unsigned" ++ w ++ "int8" ++ w3) out = Ok (DByte true).
Proof.
  intros W1 W W3. unfold formatToDeclare, formatPad, formatBoolean.
  rewrite !(F_plain "p"), !(F_plain "b") by (exact W1 || reflexivity).
  rewrite !F_byte, !F_ubyte by (exact W1 || reflexivity).
  rewrite !uhit_some by (exact W || reflexivity). rewrite !(fun p n => hit_app p n w3) by (exact W3 || inks).
  repeat split.
Qed.
Print Assumptions C33_bytes.

(** Concrete spellings, and the sizes that result when packing. *)
Example C33_example :
  spelling "  little  unsigned   long " true "long" (KInt true 8)
  /\ formatToDeclare "  little  unsigned   long " true = Ok (DLong true true)
  /\ formatToDeclare "network int16" false = Ok (DShort false false)
  /\ formatToDeclare "raw 12" false = Ok (DRawSize 12) /\ formatToDeclare "null terminated" false = Ok DToNull
  /\ formatToDeclare "length prefixed" false = Ok DPrefixed /\ formatToDeclare "raw" true = Ok DRaw
  /\ formatToDeclare "int64" true = Ok (DInt false false) /\ formatToDeclare "> float64" true = Ok (DFloat false).
Proof.
  split; [|repeat split; reflexivity].
  apply (sp_unsigned "  " "little" true "  " "   " "long" (KInt true 8) " "); try (repeat (constructor; [reflexivity|]); constructor);
    unfold byte_orders, unsigned_names; cbn [In]; tauto.
Qed.

(** Text after a recognised name is ignored, so that misspelt formats are accepted silently; a "little" anywhere in it
    even changes the byte order. *)
Theorem C33_garbage_refuted :
  formatToDeclare "integer of unknown size" true = Ok (DInt false false)
  /\ formatToDeclare "big int, not little" true = Ok (DInt true false)
  /\ formatToDeclare "doubtful" true = Raise (PyErr "NameError") /\ formatToDeclare "raw" false = Raise (PyErr "NameError").
Proof. repeat split; reflexivity. Qed.
Print Assumptions C33_garbage_refuted.
