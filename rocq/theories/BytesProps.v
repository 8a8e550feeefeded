(** C76: bytes, encodings, base 64, fixed and enum. *)
From Coq Require Import Lia.
From Verif Require Import Base ArrayModel ArraySpec ArrayProps BytesModel BytesSpec BytesProofs.
Open Scope string_scope.
Open Scope list_scope.
Open Scope Z_scope.

(** What was encoded is decoded to the same text. *)
Theorem C76_roundtrip : forall k s v, bytes_encode k s = Ok v -> bytes_ok v /\ bytes_decode k v = Ok s.
Proof.
  intros k s v. unfold bytes_encode, bytes_to_string. destruct (py_encode k s) as [b|] eqn:E; [|discriminate]. intros Q; inversion Q; subst v; clear Q.
  assert (B : Forall (fun x => 0 <= x < 256) b).
  { destruct k; cbn [py_encode] in E.
    - eapply encode_bytes; [|exact E]. intros c x. apply below_bytes. lia.
    - eapply encode_bytes; [|exact E]. intros c x. apply below_bytes. lia.
    - eapply encode_bytes; [|exact E]. apply utf8_bytes.
    - destruct (encode_with (utf16_char true) s) as [y|] eqn:Ey; [|discriminate]. inversion E; subst. do 2 (constructor; [lia|]).
      eapply encode_bytes; [|exact Ey]. apply utf16_bytes.
    - eapply encode_bytes; [|exact E]. apply utf16_bytes.
    - eapply encode_bytes; [|exact E]. apply utf16_bytes. }
  split; [exact B|]. unfold bytes_decode. rewrite as_bytes_ok by exact B. cbn [contents rbind].
  replace (py_decode k b) with (Some s); [reflexivity|]. symmetry. destruct k; cbn [py_encode] in E; cbn [py_decode].
  - apply below_roundtrip in E as [-> F]. unfold decode_below. replace (forallb _ s) with true; auto. symmetry. apply forallb_below.
    eapply Forall_impl; [|exact F]. simpl; intros; lia.
  - apply below_roundtrip in E as [-> F]. unfold decode_below. replace (forallb _ s) with true; auto. symmetry. apply forallb_below.
    eapply Forall_impl; [|exact F]. simpl; intros; lia.
  - now apply utf8_roundtrip.
  - destruct (encode_with (utf16_char true) s) as [y|] eqn:Ey; [|discriminate]. inversion E; subst. now apply utf16_roundtrip.
  - now apply utf16_roundtrip.
  - now apply utf16_roundtrip.
Qed.
(** Encoding succeeds exactly for texts made of characters of the encoding, and fails with the documented error otherwise. *)
Theorem C76_encode_domain : forall k s,
  (Forall (has_char k) s -> exists b, bytes_encode k s = Ok (BStr b))
  /\ (~ Forall (has_char k) s -> bytes_encode k s = Raise (PFAErr (encode_err k))).
Proof.
  intros k s. assert (H : (exists b, py_encode k s = Some b) <-> Forall (has_char k) s).
  { destruct k; cbn [py_encode has_char].
    - apply encode_domain. apply below_domain.
    - apply encode_domain. apply below_domain.
    - apply encode_domain. apply utf8_domain.
    - rewrite <- (encode_domain _ (utf16_char true) s (utf16_domain true)). destruct (encode_with (utf16_char true) s); split; intros [b E]; eauto; discriminate.
    - apply encode_domain. apply utf16_domain.
    - apply encode_domain. apply utf16_domain. }
  unfold bytes_encode. destruct (py_encode k s) as [b|] eqn:E; split; intros F; eauto.
  - exfalso. apply F, H. eauto.
  - exfalso. apply H in F as [b F]. discriminate.
Qed.
(** Except for UTF-16 with a byte order mark, a text has one encoding only: what was decoded is encoded to the same bytes. *)
Theorem C76_canonical : forall k v s, k <> Utf16 -> bytes_ok v -> bytes_decode k v = Ok s -> bytes_encode k s = Ok (BStr (contents v)).
Proof.
  intros k v s Nk B. unfold bytes_decode, bytes_encode. rewrite as_bytes_ok by exact B. cbn [rbind].
  assert (F : Forall (fun b => 0 <= b < 256) (contents v)) by (destruct v; exact B).
  destruct (py_decode k (contents v)) as [s'|] eqn:E; [|discriminate]. intros Q; inversion Q; subst s'; clear Q.
  replace (py_encode k s) with (Some (contents v)); [reflexivity|]. symmetry. destruct k; cbn [py_encode py_decode] in *; try congruence.
  - unfold decode_below in E. destruct (forallb _ _) eqn:A; [|discriminate]. inversion E; subst. apply below_all. apply forallb_below in A.
    rewrite Forall_forall in *. intros x I. specialize (F x I). specialize (A x I). simpl in *. lia.
  - unfold decode_below in E. destruct (forallb _ _) eqn:A; [|discriminate]. inversion E; subst. apply below_all; auto.
  - now apply utf8_canonical.
  - now apply utf16_canonical.
  - now apply utf16_canonical.
Qed.
Theorem C76_canonical_utf16_refuted : exists v w s, bytes_ok v /\ bytes_ok w /\ bytes_decode Utf16 v = Ok s /\ bytes_decode Utf16 w = Ok s /\ contents v <> contents w.
Proof.
  exists (BBytes [255; 254; 65; 0]), (BBytes [254; 255; 0; 65]), [65].
  split; [repeat constructor; lia|]. split; [repeat constructor; lia|]. repeat split; discriminate.
Qed.
(** Decoding fails with the documented error or gives a text of the encoding. *)
Theorem C76_decode : forall k v, bytes_ok v ->
  (exists s, bytes_decode k v = Ok s /\ Forall (has_char k) s) \/ bytes_decode k v = Raise (PFAErr (decode_err k)).
Proof.
  intros k v B. unfold bytes_decode. rewrite as_bytes_ok by exact B. cbn [rbind].
  assert (F : Forall (fun b => 0 <= b < 256) (contents v)) by (destruct v; exact B).
  destruct (py_decode k (contents v)) as [s|] eqn:E; [left|now right]. exists s. split; [reflexivity|].
  assert (U : forall le l, Forall (fun b => 0 <= b < 256) l -> utf16_decode le l = Some s -> Forall (fun c => 0 <= c < 55296 \/ 57344 <= c < 1114112) s).
  { intros le l Fl D. apply (utf16_canonical le l Fl) in D. eapply (encode_domain _ (utf16_char le) s (utf16_domain le)). eauto. }
  destruct k; cbn [py_decode has_char] in *.
  - unfold decode_below in E. destruct (forallb _ _) eqn:A; [|discriminate]. inversion E; subst. apply forallb_below in A.
    rewrite Forall_forall in *. intros x I. specialize (F x I). specialize (A x I). simpl in *. lia.
  - unfold decode_below in E. destruct (forallb _ _) eqn:A; [|discriminate]. inversion E; subst. exact F.
  - apply (utf8_canonical _ F) in E. eapply (encode_domain _ utf8_char s utf8_domain). eauto.
  - assert (G : exists le l, Forall (fun b => 0 <= b < 256) l /\ utf16_decode le l = Some s).
    { revert E F. generalize (contents v). intros l E F.
      assert (D : (exists r, l = 255 :: 254 :: r /\ utf16_decode true r = Some s) \/ (exists r, l = 254 :: 255 :: r /\ utf16_decode false r = Some s) \/ utf16_decode true l = Some s).
      { destruct l as [|a [|b r]].
        - right; right. exact E.
        - right; right. rewrite <- E. clear E F. destruct a as [|p|p]; auto. repeat (destruct p as [p|p|]; auto).
        - destruct (Z.eq_dec a 255) as [->|Na]; [destruct (Z.eq_dec b 254) as [->|Nb]|destruct (Z.eq_dec a 254) as [->|Na']; [destruct (Z.eq_dec b 255) as [->|Nb]|]].
          + left; eauto.
          + right; right. rewrite <- E. clear E F. destruct b as [|p|p]; auto. repeat (destruct p as [p|p|]; auto). congruence.
          + right; left; eauto.
          + right; right. rewrite <- E. clear E F. destruct b as [|p|p]; auto. repeat (destruct p as [p|p|]; auto). congruence.
          + right; right. rewrite <- E. clear E F. destruct a as [|p|p]; auto. repeat (destruct p as [p|p|]; auto); congruence. }
      destruct D as [(r & -> & D)|[(r & -> & D)|D]].
      - inversion F as [|? ? _ F1]; subst. inversion F1; subst. eauto.
      - inversion F as [|? ? _ F1]; subst. inversion F1; subst. eauto.
      - eauto. }
    destruct G as (le & l & Fl & D). eauto.
  - eauto.
  - eauto.
Qed.
(** The testers say whether the decoder, or the encoder, works; but for bytes held as a str, as library functions give them, they end in a TypeError. *)
Theorem C76_tester : forall k,
  (forall b, Forall (fun x => 0 <= x < 256) b -> exists r, is_codec k (TBytesArg (BBytes b)) = Ok r /\ (r = true <-> exists s, bytes_decode k (BBytes b) = Ok s))
  /\ (forall s, exists r, is_codec k (TStringArg s) = Ok r /\ (r = true <-> exists v, bytes_encode k s = Ok v)).
Proof.
  intros k; split.
  - intros b F. eexists; split; [reflexivity|]. unfold bytes_decode; cbn [as_bytes rbind]. destruct (py_decode k b); split; eauto; try discriminate. intros [s E]; discriminate.
  - intros s. eexists; split; [reflexivity|]. unfold bytes_encode. destruct (py_encode k s); split; eauto; try discriminate. intros [v E]; discriminate.
Qed.
Theorem C76_tester_refuted : forall k s v, bytes_encode k s = Ok v -> is_codec k (TBytesArg v) = Raise (PyErr "TypeError").
Proof. intros k s v. unfold bytes_encode. destruct (py_encode k s); [|discriminate]. intros E; inversion E; reflexivity. Qed.

(** Base 64 carries every list of bytes. *)
Theorem C76_base64 : forall v, bytes_ok v -> exists t, to_base64 v = Ok t /\ from_base64 t = Ok (BStr (contents v)).
Proof.
  intros v B. assert (F : Forall (fun b => 0 <= b < 256) (contents v)) by (destruct v; exact B).
  exists (b64encode (contents v)). unfold to_base64, from_base64. rewrite as_bytes_ok by exact B. split; [reflexivity|].
  now rewrite b64_looks_encode, a2b_encode.
Qed.
Theorem C76_base64_injective : forall v w t, bytes_ok v -> bytes_ok w -> to_base64 v = Ok t -> to_base64 w = Ok t -> contents v = contents w.
Proof.
  intros v w t V W E1 E2. destruct (C76_base64 v V) as (a & A1 & A2). destruct (C76_base64 w W) as (b & B1 & B2). rewrite A1 in E1. rewrite B1 in E2.
  inversion E1; inversion E2; subst. rewrite A2 in B2. now inversion B2.
Qed.
(** It is text of the alphabet, four characters for every three bytes begun. *)
Theorem C76_base64_text : forall v t, bytes_ok v -> to_base64 v = Ok t ->
  Forall (fun c => b64_alphabet c \/ c = 61) t /\ Z.of_nat (length t) = (bytes_len v + 2) / 3 * 4.
Proof.
  intros v t B. unfold to_base64. rewrite as_bytes_ok by exact B. intros E; inversion E; subst; clear E.
  assert (F : Forall (fun b => 0 <= b < 256) (contents v)) by (destruct v; exact B).
  assert (L : bytes_len v = Z.of_nat (length (contents v))) by (destruct v; reflexivity). rewrite L. clear L B.
  assert (C : forall x, 0 <= x < 64 -> b64_alphabet (b64_char x) \/ b64_char x = 61).
  { intros x H. left. unfold b64_alphabet, b64_char. ltb; lia. }
  induction (contents v) as [|a|a b|a b c l IH] using list_three.
  - split; [constructor|reflexivity].
  - inversion F; subst. split; [|reflexivity]. cbn [b64encode]. repeat (constructor; [first [now right|apply C; Zdiv]|]). constructor.
  - inversion F as [|? ? Ra F0]; subst. inversion F0 as [|? ? Rb F1]; subst. split; [|reflexivity]. cbn [b64encode]. repeat (constructor; [first [now right|apply C; Zdiv]|]). constructor.
  - inversion F as [|? ? Ra F0]; subst. inversion F0 as [|? ? Rb F1]; subst. inversion F1 as [|? ? Rc F2]; subst. destruct (IH F2) as [I1 I2].
    cbn [b64encode]. split; [repeat (constructor; [apply C; Zdiv|]); auto|]. cbn [length]. rewrite !Nat2Z.inj_succ. rewrite I2. Zdiv.
Qed.
(** It is the text of RFC 4648: the digits carry the number that the bytes carry, followed by zero bits, and are padded with = to a multiple of four. *)
Theorem C76_base64_digits : forall v t, bytes_ok v -> to_base64 v = Ok t -> exists digits pad,
  Forall2 (fun d c => 0 <= d < 64 /\ nth_error b64_table (Z.to_nat d) = Some c) digits (firstn (length digits) t)
  /\ skipn (length digits) t = repeat 61 pad /\ (pad < 3)%nat /\ Z.of_nat (length digits + pad) mod 4 = 0
  /\ 0 <= 6 * Z.of_nat (length digits) - 8 * bytes_len v < 6
  /\ number 64 digits = number 256 (contents v) * 2 ^ (6 * Z.of_nat (length digits) - 8 * bytes_len v).
Proof.
  intros v t B. unfold to_base64. rewrite as_bytes_ok by exact B. intros E; inversion E; subst; clear E.
  assert (F : Forall (fun b => 0 <= b < 256) (contents v)) by (destruct v; exact B).
  assert (L : bytes_len v = Z.of_nat (length (contents v))) by (destruct v; reflexivity). rewrite L. clear L B.
  assert (C : forall d, 0 <= d < 64 -> 0 <= d < 64 /\ nth_error b64_table (Z.to_nat d) = Some (b64_char d)) by (intros d H; split; [exact H|now apply b64_table_char]).
  induction (contents v) as [|a|a b|a b c l IH] using list_three.
  - exists [], 0%nat. repeat split; simpl; try lia. constructor.
  - inversion F; subst. exists [a / 4; a mod 4 * 16], 2%nat. cbn [b64encode length firstn skipn]. split; [repeat constructor; try apply C; try Zdiv|].
    split; [reflexivity|]. split; [lia|]. split; [reflexivity|]. split; [lia|]. unfold number; cbn [fold_left]. change (2 ^ _) with 16. Zdiv.
  - inversion F as [|? ? Ra F0]; subst. inversion F0 as [|? ? Rb F1]; subst. exists [a / 4; a mod 4 * 16 + b / 16; b mod 16 * 4], 1%nat.
    cbn [b64encode length firstn skipn]. split; [repeat constructor; try apply C; try Zdiv|].
    split; [reflexivity|]. split; [lia|]. split; [reflexivity|]. split; [lia|]. unfold number; cbn [fold_left]. change (2 ^ _) with 4. Zdiv.
  - inversion F as [|? ? Ra F0]; subst. inversion F0 as [|? ? Rb F1]; subst. inversion F1 as [|? ? Rc F2]; subst.
    destruct (IH F2) as (ds & pad & I1 & I2 & I3 & I4 & I5 & I6).
    exists (a / 4 :: (a mod 4 * 16 + b / 16) :: (b mod 16 * 4 + c / 64) :: c mod 64 :: ds), pad. cbn [b64encode length firstn skipn].
    split; [repeat (constructor; [apply C; Zdiv|]); exact I1|]. split; [exact I2|]. split; [exact I3|]. split; [rewrite <- I4; Zdiv|]. split; [lia|].
    change (a / 4 :: (a mod 4 * 16 + b / 16) :: (b mod 16 * 4 + c / 64) :: c mod 64 :: ds) with ([a / 4; a mod 4 * 16 + b / 16; b mod 16 * 4 + c / 64; c mod 64] ++ ds).
    change (a :: b :: c :: l) with ([a; b; c] ++ l). rewrite !number_app, I6.
    set (e := 6 * Z.of_nat (length ds) - 8 * Z.of_nat (length l)) in *.
    replace (6 * Z.of_nat (S (S (S (S (length ds))))) - 8 * Z.of_nat (S (S (S (length l))))) with e by (unfold e; lia).
    assert (P : 64 ^ Z.of_nat (length ds) = 256 ^ Z.of_nat (length l) * 2 ^ e).
    { change 64 with (2 ^ 6). change 256 with (2 ^ 8). rewrite <- !Z.pow_mul_r by lia. rewrite <- Z.pow_add_r by lia. f_equal. unfold e. lia. }
    rewrite P. replace (number 64 [a / 4; a mod 4 * 16 + b / 16; b mod 16 * 4 + c / 64; c mod 64]) with (number 256 [a; b; c]); [ring|].
    unfold number; cbn [fold_left]. Zdiv.
Qed.
(** What does not look like base 64 is refused with the documented error; but text of the alphabet with wrong padding ends in Python's own error. *)
Theorem C76_base64_refused : forall s, (exists p c q, s = p ++ c :: q /\ Forall b64_alphabet p /\ ~ b64_alphabet c /\ c <> 61 /\ (c <> 10 \/ q <> [])) ->
  from_base64 s = Raise (PFAErr 16220).
Proof.
  intros s (p & c & q & -> & F & N & N61 & N10). unfold from_base64. replace (b64_looks (p ++ c :: q)) with false; auto. symmetry.
  assert (Nv : b64_value c = None).
  { unfold b64_value, b64_alphabet in *. ltb; cbn [andb]; try reflexivity; exfalso; apply N; lia. }
  induction F as [|x p Hx F IH]; cbn [app b64_looks].
  - rewrite Nv. cbn [pads_only]. destruct (Z.eqb_spec c 61); [congruence|]. cbn [andb].
    destruct q as [|d q]; [destruct N10; [|congruence]|].
    + destruct c as [|u|u]; auto. repeat (destruct u as [u|u|]; auto). congruence.
    + destruct c as [|u|u]; auto. repeat (destruct u as [u|u|]; auto).
  - destruct (b64_value x) eqn:E; [exact IH|]. exfalso. revert E. unfold b64_value, b64_alphabet in *. ltb; cbn [andb]; try discriminate; lia.
Qed.
Theorem C76_base64_padding_refuted : from_base64 [81; 85; 73] = Raise (PyErr "binascii.Error") /\ from_base64 [81; 85; 73; 61] = Ok (BStr [65; 66]).
Proof. split; reflexivity. Qed.

(** Slices do not depend on how the bytes are held. *)
Theorem C76_slices : forall v i j r, bytes_ok v -> bytes_ok r ->
  bytes_len v = len (contents v) /\ contents (bytes_subseq v i j) = a_subseq (contents v) i j /\ bytes_ok (bytes_subseq v i j)
  /\ exists w, bytes_subseqto v i j r = Ok w /\ contents w = a_subseqto (contents v) i j (contents r) /\ bytes_ok w.
Proof.
  intros v i j r V R. assert (Fv : Forall (fun b => 0 <= b < 256) (contents v)) by (destruct v; exact V).
  assert (Fr : Forall (fun b => 0 <= b < 256) (contents r)) by (destruct r; exact R).
  assert (Sl : forall l a b, Forall (fun b => 0 <= b < 256) l -> Forall (fun b => 0 <= b < 256) (py_slice l a b)).
  { intros l a b F. unfold py_slice. rewrite Forall_forall in *. intros x I. apply F.
    assert (G1 : forall n (m : list Z), In x (firstn n m) -> In x m) by (intros n m; revert n; induction m as [|z m IHm]; intros [|n]; simpl; try tauto; intros [Q|Q]; eauto).
    assert (G2 : forall n (m : list Z), In x (skipn n m) -> In x m) by (intros n m; revert n; induction m as [|z m IHm]; intros [|n]; simpl; try tauto; eauto).
    eauto. }
  split; [destruct v; reflexivity|]. split; [destruct v; reflexivity|]. split; [destruct v; apply Sl; auto|].
  unfold bytes_subseqto. rewrite !as_bytes_ok by auto. cbn [rbind]. unfold a_subseqto. destruct (start_end (zlen (contents v)) i j) as [ns ne].
  eexists; split; [reflexivity|]. split; [reflexivity|]. cbn [bytes_ok]. unfold bytes_to_string. apply Forall_app; split; [apply Sl; auto|]. apply Forall_app; split; auto. apply Sl; auto.
Qed.

(** fixed.fromBytes overwrites from the left and keeps the size. *)
Theorem C76_fixed : forall o r, let w := fixed_from_bytes o r in
  bytes_len w = bytes_len o
  /\ (forall i, (i < length (contents o))%nat -> nth_error (contents w) i = (if Nat.ltb i (length (contents r)) then nth_error (contents r) i else nth_error (contents o) i))
  /\ contents (fixed_to_bytes w) = contents w
  /\ contents (fixed_from_bytes w r) = contents w
  /\ contents (fixed_from_bytes o (fixed_to_bytes o)) = contents o.
Proof.
  intros o r. unfold fixed_from_bytes, fixed_to_bytes. change (raw o) with (contents o). change (raw r) with (contents r).
  set (a := contents o). set (b := contents r). set (n := Nat.min (length a) (length b)).
  assert (L1 : length (firstn n b) = n) by (rewrite firstn_length; lia).
  assert (L2 : length (skipn n a) = (length a - n)%nat) by apply skipn_length.
  assert (L : length (firstn n b ++ skipn n a) = length a) by (rewrite app_length, L1, L2; lia).
  cbn [contents raw bytes_len]. split; [rewrite L; unfold a; destruct o; reflexivity|]. split; [|split; [reflexivity|split]].
  - intros i Hi. destruct (Nat.ltb_spec i (length b)).
    + rewrite nth_error_app1 by lia. assert (G : forall m (l : list Z) k, (k < m)%nat -> nth_error (firstn m l) k = nth_error l k).
      { induction m as [|m IH]; intros l k Hk; [lia|]. destruct l, k; simpl; auto. apply IH; lia. }
      apply G; lia.
    + rewrite nth_error_app2 by lia. rewrite L1. assert (G : forall m (l : list Z) k, nth_error (skipn m l) k = nth_error l (m + k)).
      { induction m as [|m IH]; intros l k; auto. destruct l; simpl; [now destruct k|apply IH]. }
      rewrite G. f_equal. lia.
  - rewrite L. fold n. rewrite skipn_app, L1. rewrite (skipn_all2 (firstn n b)) by lia. rewrite Nat.sub_diag. reflexivity.
  - unfold raw; fold (contents o); fold a. rewrite Nat.min_id. rewrite firstn_all, skipn_all. apply app_nil_r.
Qed.
(** enum.toInt numbers the symbols from 0, without repetition. *)
Theorem C76_enum : forall symbols x y i,
  (In x symbols -> enum_to_string symbols x = Ok x /\ exists k, enum_to_int symbols x = Ok k /\ 0 <= k < enum_num_symbols symbols /\ nth_error symbols (Z.to_nat k) = Some x)
  /\ (~ In x symbols -> enum_to_string symbols x = Raise AvroErr /\ enum_to_int symbols x = Raise AvroErr)
  /\ (enum_to_int symbols x = Ok i -> enum_to_int symbols y = Ok i -> x = y).
Proof.
  intros symbols x y i.
  assert (E : existsb (String.eqb x) symbols = true <-> In x symbols).
  { rewrite existsb_exists. split; [intros (z & I & Q); apply String.eqb_eq in Q; now subst|intros I; exists x; split; auto; apply String.eqb_refl]. }
  assert (P : forall x k, index_of x symbols = Some k -> 0 <= k < Z.of_nat (length symbols) /\ nth_error symbols (Z.to_nat k) = Some x).
  { clear. intros x. induction symbols as [|z l IH]; cbn [index_of]; [discriminate|]. intros k. destruct (String.eqb x z) eqn:Q.
    - intros Ek; inversion Ek; subst. apply String.eqb_eq in Q; subst. split; [simpl; lia|reflexivity].
    - destruct (index_of x l) as [j|]; [|discriminate]. intros Ek; inversion Ek; subst. destruct (IH j eq_refl) as [R N]. split; [simpl length; lia|].
      replace (Z.to_nat (j + 1)) with (S (Z.to_nat j)) by lia. exact N. }
  assert (T : In x symbols -> exists k, index_of x symbols = Some k).
  { clear. induction symbols as [|z l IH]; cbn [index_of]; [intros []|]. intros [->|I]; [rewrite String.eqb_refl; eauto|]. destruct (String.eqb x z); eauto. destruct (IH I) as [k ->]. eauto. }
  unfold enum_to_string, enum_to_int, enum_num_symbols. split; [|split].
  - intros I. rewrite (proj2 E I). split; auto. destruct (T I) as [k Ek]. rewrite Ek. destruct (P _ _ Ek). eauto.
  - intros N. split; [destruct (existsb (String.eqb x) symbols); auto; exfalso; apply N, E; reflexivity|].
    destruct (index_of x symbols) as [k|] eqn:Ek; auto. exfalso. destruct (P _ _ Ek) as [_ Q]. apply nth_error_In in Q. auto.
  - destruct (index_of x symbols) as [k|] eqn:Ex; [|discriminate]. destruct (index_of y symbols) as [j|] eqn:Ey; [|discriminate].
    intros A B; inversion A; inversion B; subst. destruct (P _ _ Ex) as [_ Q1]. destruct (P _ _ Ey) as [_ Q2]. congruence.
Qed.

(** ** Examples *)
(** a, e with acute accent, the euro sign, the treble clef *)
Example text_encodings :
  let s := [97; 233; 8364; 119070] in
  bytes_encode Utf8 s = Ok (BStr [97; 195; 169; 226; 130; 172; 240; 157; 132; 158])
  /\ bytes_encode Utf16 s = Ok (BStr [255; 254; 97; 0; 233; 0; 172; 32; 52; 216; 30; 221])
  /\ bytes_encode Utf16be s = Ok (BStr [0; 97; 0; 233; 32; 172; 216; 52; 221; 30])
  /\ bytes_encode Latin1 s = Raise (PFAErr 16160) /\ bytes_encode Ascii [97] = Ok (BStr [97])
  /\ bytes_decode Utf8 (BBytes [97; 195; 169; 226; 130; 172; 240; 157; 132; 158]) = Ok s.
Proof. repeat split. Qed.
Example bad_utf8 :
  bytes_decode Utf8 (BBytes [192; 128]) = Raise (PFAErr 16110) /\ bytes_decode Utf8 (BBytes [237; 160; 128]) = Raise (PFAErr 16110)
  /\ bytes_decode Utf8 (BBytes [244; 144; 128; 128]) = Raise (PFAErr 16110) /\ bytes_decode Utf16le (BBytes [0; 216]) = Raise (PFAErr 16140).
Proof. repeat split. Qed.
Example base64_text : to_base64 (BBytes [104; 101; 108; 108; 111]) = Ok [97; 71; 86; 115; 98; 71; 56; 61] /\ from_base64 [97; 71; 86; 42] = Raise (PFAErr 16220).
Proof. split; reflexivity. Qed.
Example refused_text : exists p c q, [97; 71; 42; 61] = p ++ c :: q /\ Forall b64_alphabet p /\ ~ b64_alphabet c /\ c <> 61 /\ (c <> 10 \/ q <> []).
Proof. exists [97; 71], 42, [61]. unfold b64_alphabet. repeat split; try lia. repeat constructor; lia. Qed.
Example fixed_example : fixed_from_bytes (BBytes [1; 2; 3]) (BStr [9; 8]) = BStr [9; 8; 3] /\ fixed_from_bytes (BBytes [1; 2]) (BStr [9; 8; 7]) = BStr [9; 8].
Proof. split; reflexivity. Qed.
Example slices_example : bytes_subseq (BBytes [1; 2; 3; 4]) 1 (-1) = BStr [2; 3] /\ bytes_subseqto (BStr [1; 2; 3; 4]) 1 (-1) (BBytes [200]) = Ok (BStr [1; 200; 4]).
Proof. split; reflexivity. Qed.
Example enum_example : enum_to_int ["a"; "b"; "c"] "c" = Ok 2 /\ enum_to_int ["a"; "b"; "c"] "d" = Raise AvroErr.
Proof. split; reflexivity. Qed.
Print Assumptions C76_roundtrip.
Print Assumptions C76_encode_domain.
Print Assumptions C76_canonical.
Print Assumptions C76_canonical_utf16_refuted.
Print Assumptions C76_decode.
Print Assumptions C76_tester.
Print Assumptions C76_tester_refuted.
Print Assumptions C76_base64.
Print Assumptions C76_base64_injective.
Print Assumptions C76_base64_text.
Print Assumptions C76_base64_digits.
Print Assumptions C76_base64_refused.
Print Assumptions C76_base64_padding_refuted.
Print Assumptions C76_slices.
Print Assumptions C76_fixed.
Print Assumptions C76_enum.
