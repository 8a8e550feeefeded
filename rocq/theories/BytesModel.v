(** lib/bytes.py, lib/fixed.py, lib/enum.py, and util.bytesToString, stringToBytes (util.py:401-433).
    Text is a list of code points. A value of type bytes is, at run time, a Python str with one character for each byte
    (literals, results of library functions) or a Python bytes (input, after checkData). The codecs of Python are modelled
    after their definition (RFC 3629, RFC 2781), binascii.a2b_base64 after its C source. *)
From Verif Require Import Base ArrayModel.
Open Scope string_scope.
Open Scope list_scope.
Open Scope Z_scope.

Notation text := (list Z).
Inductive bval := BStr (l : list Z) | BBytes (l : list Z).

(** ** util.py:401-433 *)
Definition bytes_to_string (l : list Z) : text := l.
Definition string_to_bytes (s : text) : res (list Z) :=
  if forallb (fun c => ((0 <=? c) && (c <? 256))%bool) s then Ok s else Raise (PyErr "TypeError").
Definition as_bytes (x : bval) : res (list Z) := match x with BStr s => string_to_bytes s | BBytes b => Ok b end.

(** ** Codecs *)
Inductive codec := Ascii | Latin1 | Utf8 | Utf16 | Utf16be | Utf16le.
Definition surrogate (c : Z) : bool := ((55296 <=? c) && (c <? 57344))%bool.

(** one code point; None: UnicodeEncodeError *)
Definition utf8_char (c : Z) : option (list Z) :=
  if c <? 0 then None
  else if c <? 128 then Some [c]
  else if c <? 2048 then Some [192 + c / 64; 128 + c mod 64]
  else if surrogate c then None
  else if c <? 65536 then Some [224 + c / 4096; 128 + c / 64 mod 64; 128 + c mod 64]
  else if c <? 1114112 then Some [240 + c / 262144; 128 + c / 4096 mod 64; 128 + c / 64 mod 64; 128 + c mod 64]
  else None.
Definition unit_bytes (little : bool) (u : Z) : list Z := if little then [u mod 256; u / 256] else [u / 256; u mod 256].
Definition utf16_char (little : bool) (c : Z) : option (list Z) :=
  if c <? 0 then None
  else if surrogate c then None
  else if c <? 65536 then Some (unit_bytes little c)
  else if c <? 1114112 then
    Some (unit_bytes little (55296 + (c - 65536) / 1024) ++ unit_bytes little (56320 + (c - 65536) mod 1024))
  else None.
Fixpoint encode_with (f : Z -> option (list Z)) (s : text) : option (list Z) :=
  match s with
  | [] => Some []
  | c :: s' => match f c, encode_with f s' with Some b, Some bs => Some (b ++ bs) | _, _ => None end
  end.
Definition below (n : Z) (c : Z) : option (list Z) := if ((0 <=? c) && (c <? n))%bool then Some [c] else None.
(** codecs.encode(s, codec, "strict") *)
Definition py_encode (k : codec) (s : text) : option (list Z) :=
  match k with
  | Ascii => encode_with (below 128) s
  | Latin1 => encode_with (below 256) s
  | Utf8 => encode_with utf8_char s
  | Utf16be => encode_with (utf16_char false) s
  | Utf16le => encode_with (utf16_char true) s
  | Utf16 => match encode_with (utf16_char true) s with Some b => Some (255 :: 254 :: b) | None => None end     (* with a mark; little endian machine *)
  end.

Definition cont (b : Z) : bool := ((128 <=? b) && (b <? 192))%bool.
(** None: UnicodeDecodeError *)
Fixpoint utf8_decode (l : list Z) : option text :=
  match l with
  | [] => Some []
  | b0 :: r0 =>
      if b0 <? 128 then match utf8_decode r0 with Some s => Some (b0 :: s) | None => None end
      else if b0 <? 194 then None
      else if b0 <? 224 then
        match r0 with
        | b1 :: r => if cont b1 then match utf8_decode r with Some s => Some ((b0 - 192) * 64 + (b1 - 128) :: s) | None => None end else None
        | [] => None
        end
      else if b0 <? 240 then
        match r0 with
        | b1 :: b2 :: r =>
            let c := (b0 - 224) * 4096 + (b1 - 128) * 64 + (b2 - 128) in
            if (cont b1 && cont b2 && (2048 <=? c) && negb (surrogate c))%bool then match utf8_decode r with Some s => Some (c :: s) | None => None end else None
        | _ => None
        end
      else if b0 <? 245 then
        match r0 with
        | b1 :: b2 :: b3 :: r =>
            let c := (b0 - 240) * 262144 + (b1 - 128) * 4096 + (b2 - 128) * 64 + (b3 - 128) in
            if (cont b1 && cont b2 && cont b3 && (65536 <=? c) && (c <? 1114112))%bool then match utf8_decode r with Some s => Some (c :: s) | None => None end else None
        | _ => None
        end
      else None
  end.
Definition unit_of (little : bool) (a b : Z) : Z := if little then b * 256 + a else a * 256 + b.
Fixpoint utf16_decode (little : bool) (l : list Z) : option text :=
  match l with
  | [] => Some []
  | a :: b :: r =>
      let u := unit_of little a b in
      if negb (surrogate u) then match utf16_decode little r with Some s => Some (u :: s) | None => None end
      else if u <? 56320 then
        match r with
        | a' :: b' :: r' =>
            let u' := unit_of little a' b' in
            if ((56320 <=? u') && (u' <? 57344))%bool then
              match utf16_decode little r' with Some s => Some (65536 + (u - 55296) * 1024 + (u' - 56320) :: s) | None => None end
            else None
        | _ => None
        end
      else None
  | _ => None
  end.
Definition decode_below (n : Z) (l : list Z) : option text := if forallb (fun b => b <? n) l then Some l else None.
(** codecs.decode(b, codec, "strict") of a bytes object *)
Definition py_decode (k : codec) (l : list Z) : option text :=
  match k with
  | Ascii => decode_below 128 l
  | Latin1 => decode_below 256 l
  | Utf8 => utf8_decode l
  | Utf16be => utf16_decode false l
  | Utf16le => utf16_decode true l
  | Utf16 => match l with
             | 255 :: 254 :: r => utf16_decode true r
             | 254 :: 255 :: r => utf16_decode false r
             | _ => utf16_decode true l
             end
  end.

(** ** Access: 41-75 *)
Definition bytes_len (x : bval) : Z := match x with BStr l | BBytes l => Z.of_nat (length l) end.
Definition bytes_subseq (x : bval) (i j : Z) : bval := match x with BStr s => BStr (py_slice s i j) | BBytes b => BStr (bytes_to_string (py_slice b i j)) end.
Definition bytes_subseqto (x : bval) (i j : Z) (r : bval) : res bval :=
  r <- as_bytes r ;; b <- as_bytes x ;;
  let '(ns, ne) := start_end (zlen b) i j in
  Ok (BStr (bytes_to_string (py_slice_to b ns ++ r ++ py_slice_from b ne))).
(** ** Testers: 79-133 *)
Inductive targ := TBytesArg (x : bval) | TStringArg (s : text).
Definition is_codec (k : codec) (x : targ) : res bool :=
  match x with
  | TBytesArg (BBytes b) => Ok (match py_decode k b with Some _ => true | None => false end)
  | TBytesArg (BStr _) => Raise (PyErr "TypeError")             (* codecs.decode of a str *)
  | TStringArg s => Ok (match py_encode k s with Some _ => true | None => false end)
  end.
(** ** Decoders and encoders: 137-230 *)
Definition decode_err (k : codec) : Z := match k with Ascii => 16090 | Latin1 => 16100 | Utf8 => 16110 | Utf16 => 16120 | Utf16be => 16130 | Utf16le => 16140 end.
Definition encode_err (k : codec) : Z := match k with Ascii => 16150 | Latin1 => 16160 | Utf8 => 16170 | Utf16 => 16180 | Utf16be => 16190 | Utf16le => 16200 end.
Definition bytes_decode (k : codec) (x : bval) : res text :=
  b <- as_bytes x ;; match py_decode k b with Some s => Ok s | None => Raise (PFAErr (decode_err k)) end.
Definition bytes_encode (k : codec) (s : text) : res bval :=
  match py_encode k s with Some b => Ok (BStr (bytes_to_string b)) | None => Raise (PFAErr (encode_err k)) end.

(** ** Base 64: 234-256 *)
Definition b64_char (v : Z) : Z :=
  if v <? 26 then 65 + v else if v <? 52 then 97 + (v - 26) else if v <? 62 then 48 + (v - 52) else if v =? 62 then 43 else 47.
Definition b64_value (c : Z) : option Z :=
  if ((65 <=? c) && (c <=? 90))%bool then Some (c - 65)
  else if ((97 <=? c) && (c <=? 122))%bool then Some (c - 97 + 26)
  else if ((48 <=? c) && (c <=? 57))%bool then Some (c - 48 + 52)
  else if c =? 43 then Some 62 else if c =? 47 then Some 63 else None.
Fixpoint b64encode (l : list Z) : text :=
  match l with
  | [] => []
  | [a] => [b64_char (a / 4); b64_char (a mod 4 * 16); 61; 61]
  | [a; b] => [b64_char (a / 4); b64_char (a mod 4 * 16 + b / 16); b64_char (b mod 16 * 4); 61]
  | a :: b :: c :: r => b64_char (a / 4) :: b64_char (a mod 4 * 16 + b / 16) :: b64_char (b mod 16 * 4 + c / 64) :: b64_char (c mod 64) :: b64encode r
  end.
(** binascii.a2b_base64: [quad] characters of the present group of four were read, [left] the bits left over, [pads] the equal signs since *)
Fixpoint a2b (quad left pads : Z) (s : text) : res (list Z) :=
  match s with
  | [] => if quad =? 0 then Ok [] else Raise (PyErr "binascii.Error")
  | c :: s' =>
      if c =? 61 then
        if 2 <=? quad then if 4 <=? quad + (pads + 1) then Ok [] else a2b quad left (pads + 1) s'
        else a2b quad left pads s'
      else match b64_value c with
           | None => a2b quad left pads s'                       (* other characters are skipped *)
           | Some v =>
               if quad =? 0 then a2b 1 v 0 s'
               else if quad =? 1 then r <- a2b 2 (v mod 16) 0 s' ;; Ok (left * 4 + v / 16 :: r)
               else if quad =? 2 then r <- a2b 3 (v mod 4) 0 s' ;; Ok (left * 16 + v / 4 :: r)
               else r <- a2b 0 0 0 s' ;; Ok (left * 64 + v :: r)
           end
  end.
(** re.match("^[A-Za-z0-9\+/]*=*$", s): the dollar also matches before a newline at the end *)
Fixpoint pads_only (s : text) : bool :=
  match s with [] => true | [10] => true | c :: s' => ((c =? 61) && pads_only s')%bool end.
Fixpoint b64_looks (s : text) : bool :=
  match s with
  | [] => true
  | c :: s' => match b64_value c with Some _ => b64_looks s' | None => pads_only s end
  end.
Definition to_base64 (x : bval) : res text := b <- as_bytes x ;; Ok (b64encode b).
(** 245-256: only TypeError is caught *)
Definition from_base64 (s : text) : res bval :=
  if b64_looks s then r <- a2b 0 0 0 s ;; Ok (BStr (bytes_to_string r)) else Raise (PFAErr 16220).

(** ** fixed: lib/fixed.py:34-55 *)
Definition raw (x : bval) : list Z := match x with BStr l | BBytes l => l end.
Definition fixed_to_bytes (x : bval) : bval := BStr (raw x).
Definition fixed_from_bytes (original replacement : bval) : bval :=
  let o := raw original in let r := raw replacement in
  let n := Nat.min (length o) (length r) in
  BStr (firstn n r ++ skipn n o).
(** ** enum: lib/enum.py:34-62 *)
Fixpoint index_of (x : string) (l : list string) : option Z :=
  match l with [] => None | y :: l' => if String.eqb x y then Some 0 else match index_of x l' with Some i => Some (i + 1) | None => None end end.
Definition enum_to_string (symbols : list string) (x : string) : res string := if existsb (String.eqb x) symbols then Ok x else Raise AvroErr.
Definition enum_to_int (symbols : list string) (x : string) : res Z := match index_of x symbols with Some i => Ok i | None => Raise AvroErr end.
Definition enum_num_symbols (symbols : list string) : Z := Z.of_nat (length symbols).
