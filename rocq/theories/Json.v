(** JSON documents and the conversions of single values:
    prost-reflect/src/dynamic/serde/{mod,case}.rs, the scalar visitors of
    de/kind.rs, the string checks of de/wkt.rs and base64.

    The crate is generic over serde's Serializer and Deserializer.  A document
    is the tree of calls made on them. *)
From Coq Require Import String.
From Verif Require Import Base Wire Value Descr Float TextFormat.
Open Scope list_scope.
Open Scope N_scope.

(** What is given to a Serializer and what a Deserializer gives.  Integers are
    seen by visit_u64 or visit_i64, floats by visit_f64 ([JF64]) or, in formats
    that keep them apart, by visit_f32. *)
Inductive json :=
| JNull
| JBool (b : bool)
| JInt (z : Z)
| JF32 (bits : N)
| JF64 (bits : N)
| JStr (s : str)
| JArr (l : list json)
| JObj (l : list (str * json)).

(** Error::custom and the invalid_type errors of serde, by cause *)
Inductive jerr :=
| XType | XRange | XNotInteger | XNumber | XBase64 | XUnknownField (name : str) | XOneof | XEnum
| XTimestamp | XDuration | XMask | XTypeUrl | XNoMessage (name : str) | XMissing (name : str)
| XDecode | XNotEmpty | XNull | XNonFinite | XKey.
Inductive jres (A : Type) :=
| JOk (a : A)
| JErr (e : jerr)
| JPanic
| JFuel.
Arguments JOk {A} a.
Arguments JErr {A} e.
Arguments JPanic {A}.
Arguments JFuel {A}.
Definition jbind {A B} (r : jres A) (k : A -> jres B) : jres B :=
  match r with JOk a => k a | JErr e => JErr e | JPanic => JPanic | JFuel => JFuel end.
Notation "'let*' x := r 'in' k" := (jbind r (fun x => k)) (at level 200, x pattern, r at level 100, k at level 200).
Fixpoint jall {A} (l : list (jres A)) : jres (list A) :=
  match l with
  | [] => JOk []
  | a :: r => let* x := a in let* y := jall r in JOk (x :: y)
  end.
(** a decoding error becomes Error::custom (ser/wkt.rs:398-403, de/mod.rs:198-207) *)
Definition jdec {A} (r : res A) : jres A :=
  match r with Ok a => JOk a | Err _ => JErr XDecode | Panic => JPanic | Fuel => JFuel end.

(** SerializeOptions (serde/mod.rs:17-22); DeserializeOptions is the boolean
    [deny] *)
Record jopt := JOpt {
  j_stringify : bool;
  j_enum_numbers : bool;
  j_proto_names : bool;
  j_skip_default : bool
}.
Definition jopt_default : jopt := JOpt true false false true.

(** What comes from outside the crate: the binary search in enums; the text of
    prost_types::Timestamp and Duration; the iteration order of a HashMap; and
    what the format does to finite floats between being written and read. *)
Record json_externs := JsonExterns {
  jx_search : list (Z * nat) -> Z -> option nat;
  jx_show_timestamp : Z -> Z -> str;
  jx_parse_timestamp : str -> option (Z * Z);
  jx_show_duration : Z -> Z -> str;
  jx_parse_duration : str -> option (Z * Z);
  jx_order : list str -> list str;
  jx_carry32 : N -> N;
  jx_carry64 : N -> N
}.

(** ** Floats *)
Definition f64_mag (b : N) : N := b mod sign64.
Definition f64_finite (b : N) : bool := f64_mag b <? inf64.
Definition f64_nan (b : N) : bool := inf64 <? f64_mag b.
Definition f32_finite (b : N) : bool := b mod sign32 <? inf32.
(** significand and exponent of a finite f64 *)
Definition f64_parts (b : N) : N * Z :=
  let a := f64_mag b in
  let ef := a / 4503599627370496 in
  let fr := a mod 4503599627370496 in
  (if ef =? 0 then fr else fr + 4503599627370496, (Z.of_N (if ef =? 0 then 1 else ef)%N - 1075)%Z).
(** the integer a finite f64 is equal to: [v.fract() != 0.0] is false *)
Definition f64_int (b : N) : option Z :=
  if f64_finite b then
    let (m, e) := f64_parts b in
    let s := if b <? sign64 then Z.of_N else fun x => (- Z.of_N x)%Z in
    if (0 <=? e)%Z then Some (s (N.shiftl m (Z.to_N e)))
    else
      let d := N.shiftl 1 (Z.to_N (- e)) in
      if m mod d =? 0 then Some (s (m / d)) else None
  else None.
(** [x as f64], [x as f32] on integers *)
Definition int_to_f64 (z : Z) : N := (if (z <? 0)%Z then sign64 else 0) + round64 (Z.abs_N z) 1.
Definition int_to_f32 (z : Z) : N := (if (z <? 0)%Z then sign32 else 0) + round32 (Z.abs_N z) 1.
(** [x as f64] on f32 *)
Definition f32_to_f64 (b : N) : N :=
  let s := if b <? sign32 then 0 else sign64 in
  let a := b mod sign32 in
  let ef := a / 8388608 in
  let fr := a mod 8388608 in
  if ef =? 255 then (if fr =? 0 then s + inf64 else s + nan64)
  else
    let m := if ef =? 0 then fr else fr + 8388608 in
    let e := (Z.of_N (if ef =? 0 then 1 else ef)%N - 150)%Z in
    s + (if (0 <=? e)%Z then round64 (N.shiftl m (Z.to_N e)) 1
         else round64 m (N.shiftl 1 (Z.to_N (- e)))).
(** f32::MAX as f64 *)
Definition f32_max_bits : N := 5183643170566569984.

(** ** Numbers in strings *)
Definition digits_okb (s : bytes) : bool := match s with [] => false | _ => forallb is_digit s end.
(** [str::parse] of the integer types: a sign ([-] only for signed types),
    digits, no overflow *)
Definition int_from_str (lo hi : Z) (s : bytes) : option Z :=
  let chk (z : Z) := if (lo <=? z)%Z && (z <=? hi)%Z then Some z else None in
  match s with
  | 43 :: r => if digits_okb r then chk (Z.of_N (dec_value r)) else None
  | 45 :: r => if (lo <? 0)%Z && digits_okb r then chk (- Z.of_N (dec_value r))%Z else None
  | _ => if digits_okb s then chk (Z.of_N (dec_value s)) else None
  end.

Definition ascii_lower (c : N) : N := if (65 <=? c) && (c <=? 90) then c + 32 else c.
Definition ascii_upper (c : N) : N := if (97 <=? c) && (c <=? 122) then c - 32 else c.
Definition is_upper (c : N) : bool := (65 <=? c) && (c <=? 90).
Definition exponent_okb (s : bytes) : bool :=
  match s with
  | 43 :: r | 45 :: r => digits_okb r
  | _ => digits_okb s
  end.
(** the Number of f64::from_str's grammar *)
Definition decimal_okb (s : bytes) : bool :=
  let (i, r1) := span is_digit s in
  let (f, r2) := match r1 with 46 :: r => span is_digit r | _ => ([], r1) end in
  match i ++ f with [] => false | _ => true end &&
  match r2 with
  | [] => true
  | 101 :: r | 69 :: r => exponent_okb r
  | _ => false
  end.
(** f64::from_str and f32::from_str *)
Definition float_from_str (round : N -> N -> N) (inf nan sign : N) (s : bytes) : option N :=
  let mag r :=
    let l := map ascii_lower r in
    if bytes_eqb l (s2b "inf") || bytes_eqb l (s2b "infinity") then Some inf
    else if bytes_eqb l (s2b "nan") then Some nan
    else if decimal_okb r then Some (dec_parse round r) else None in
  match s with
  | 43 :: r => mag r
  | 45 :: r => option_map (fun b => sign + b) (mag r)
  | _ => mag s
  end.

(** ** Base64 *)
Definition b64_char (url : bool) (v : N) : N :=
  if v <? 26 then 65 + v
  else if v <? 52 then 71 + v
  else if v <? 62 then v - 4
  else if v =? 62 then (if url then 45 else 43)
  else (if url then 95 else 47).
Definition b64_val (url : bool) (c : N) : option N :=
  if (65 <=? c) && (c <=? 90) then Some (c - 65)
  else if (97 <=? c) && (c <=? 122) then Some (c - 71)
  else if (48 <=? c) && (c <=? 57) then Some (c + 4)
  else if c =? (if url then 45 else 43) then Some 62
  else if c =? (if url then 95 else 47) then Some 63
  else None.
(** the symbols for three, two or one bytes *)
Definition b64_quad (url : bool) (a b c : N) : bytes :=
  [b64_char url (a / 4); b64_char url (a mod 4 * 16 + b / 16);
   b64_char url (b mod 16 * 4 + c / 64); b64_char url (c mod 64)].
(** Base64Display with the standard alphabet pads to whole quads; [pad] and
    [url] are for the other spellings of C45 *)
Fixpoint b64_encode (url pad : bool) (s : bytes) : bytes :=
  match s with
  | [] => []
  | [a] => firstn 2 (b64_quad url a 0 0) ++ (if pad then [61; 61] else [])
  | [a; b] => firstn 3 (b64_quad url a b 0) ++ (if pad then [61] else [])
  | a :: b :: c :: r => b64_quad url a b c ++ b64_encode url pad r
  end.
Inductive b64_err := BadByte (c : N) | BadLength.
(** GeneralPurpose::decode_vec with trailing bits allowed and
    DecodePaddingMode::Indifferent (de/kind.rs:516-520): whole quads, then a
    last one of two to four characters of which all but the first two may be
    padding *)
Definition b64_sym (url : bool) (c : N) : b64_err + N :=
  match b64_val url c with Some v => inr v | None => inl (BadByte c) end.
Definition ebind {A B} (r : b64_err + A) (k : A -> b64_err + B) : b64_err + B :=
  match r with inl e => inl e | inr a => k a end.
Definition bytes1 (p q : N) : bytes := [p * 4 + q / 16].
Definition bytes2 (p q r : N) : bytes := [p * 4 + q / 16; q mod 16 * 16 + r / 4].
Definition bytes3 (p q r x : N) : bytes := [p * 4 + q / 16; q mod 16 * 16 + r / 4; r mod 4 * 64 + x].
Fixpoint b64_decode (url : bool) (s : bytes) : b64_err + bytes :=
  let sym := b64_sym url in
  match s with
  | [] => inr []
  | [a] => ebind (sym a) (fun _ => inl BadLength)
  | [a; b] => ebind (sym a) (fun p => ebind (sym b) (fun q => inr (bytes1 p q)))
  | [a; b; c] =>
      ebind (sym a) (fun p => ebind (sym b) (fun q =>
        if c =? 61 then inr (bytes1 p q) else ebind (sym c) (fun r => inr (bytes2 p q r))))
  | [a; b; c; d] =>
      ebind (sym a) (fun p => ebind (sym b) (fun q =>
        if c =? 61 then (if d =? 61 then inr (bytes1 p q) else inl (BadByte 61))
        else ebind (sym c) (fun r =>
          if d =? 61 then inr (bytes2 p q r) else ebind (sym d) (fun x => inr (bytes3 p q r x)))))
  | a :: b :: c :: d :: rest =>
      ebind (sym a) (fun p => ebind (sym b) (fun q => ebind (sym c) (fun r => ebind (sym d) (fun x =>
        ebind (b64_decode url rest) (fun more => inr (bytes3 p q r x ++ more))))))
  end.
(** BytesVisitor::visit_str (de/kind.rs:504-535) *)
Definition de_bytes (s : str) : jres bytes :=
  match b64_decode false s with
  | inr b => JOk b
  | inl (BadByte 45) | inl (BadByte 95) =>
      match b64_decode true s with inr b => JOk b | inl _ => JErr XBase64 end
  | inl _ => JErr XBase64
  end.

(** ** Field masks *)

(** snake_case_to_camel_case, camel_case_to_snake_case (case.rs:3-42), on
    bytes: only ASCII letters are changed, so the bytes of other characters
    pass as the characters do *)
Fixpoint snake_to_camel (up : bool) (s : str) : option str :=
  match s with
  | [] => Some []
  | c :: r =>
      if is_upper c then None
      else if up then
        if ascii_upper c =? c then None
        else option_map (cons (ascii_upper c)) (snake_to_camel false r)
      else if c =? 95 then snake_to_camel true r
      else option_map (cons c) (snake_to_camel false r)
  end.
Fixpoint camel_to_snake (s : str) : option str :=
  match s with
  | [] => Some []
  | c :: r =>
      if is_upper c then option_map (fun x => 95 :: ascii_lower c :: x) (camel_to_snake r)
      else if c =? 95 then None
      else option_map (cons c) (camel_to_snake r)
  end.
(** str::split with one ASCII character *)
Fixpoint split_on (sep : N) (s : str) : list str :=
  match s with
  | [] => [[]]
  | c :: r =>
      if c =? sep then [] :: split_on sep r
      else match split_on sep r with
           | a :: l => (c :: a) :: l
           | [] => [[c]]
           end
  end.
Fixpoint opt_list {A} (l : list (option A)) : option (list A) :=
  match l with
  | [] => Some []
  | a :: r => match a, opt_list r with Some x, Some y => Some (x :: y) | _, _ => None end
  end.
Fixpoint join_with (sep : N) (l : list str) : str :=
  match l with
  | [] => []
  | [a] => a
  | a :: r => a ++ sep :: join_with sep r
  end.
(** one path (ser/wkt.rs:265-274; de/wkt.rs:187-200) *)
Definition mask_path_out (p : str) : option str :=
  option_map (join_with 46) (opt_list (map (snake_to_camel false) (split_on 46 p))).
Definition mask_path_in (p : str) : option str :=
  option_map (join_with 46) (opt_list (map camel_to_snake (split_on 46 p))).
(** serialize_field_mask (ser/wkt.rs:249-277): a comma before each path unless
    nothing has been written yet *)
Fixpoint mask_out (acc : str) (ps : list str) : option str :=
  match ps with
  | [] => Some acc
  | p :: r =>
      match mask_path_out p with
      | Some x => mask_out (acc ++ (match acc with [] => [] | _ => [44] end) ++ x) r
      | None => None
      end
  end.
(** GoogleProtobufFieldMaskVisitor::visit_str (de/wkt.rs:180-205) *)
Definition mask_in (s : str) : option (list str) :=
  opt_list (map mask_path_in (filter (fun p => match p with [] => false | _ => true end) (split_on 44 s))).

(** ** Timestamps and durations *)

(** serde/mod.rs:259-263 and check_duration, check_timestamp
    (serde/mod.rs:288-304); unsigned_abs gives 2^63 for i64::MIN *)
Definition max_duration_seconds : Z := 315576000000.
Definition max_duration_nanos : Z := 999999999.
Definition min_timestamp_seconds : Z := -62135596800.
Definition max_timestamp_seconds : Z := 253402300799.
Definition check_duration (seconds nanos : Z) : bool :=
  negb ((max_duration_seconds <? Z.abs seconds)%Z || (max_duration_nanos <? Z.abs nanos)%Z).
Definition check_timestamp (seconds : Z) : bool :=
  negb ((seconds <? min_timestamp_seconds)%Z || (max_timestamp_seconds <? seconds)%Z).

(** validate_strict_rfc3339 (de/wkt.rs:390-471): the remaining bytes after each
    step *)
Definition pop_digit (s : bytes) : option bytes :=
  match s with c :: r => if is_digit c then Some r else None | [] => None end.
Definition pop_char (c : N) (s : bytes) : option bytes :=
  match s with x :: r => if x =? c then Some r else None | [] => None end.
Definition obind {A B} (r : option A) (k : A -> option B) : option B :=
  match r with Some a => k a | None => None end.
Fixpoint pop_digits (n : nat) (s : bytes) : option bytes :=
  match n with O => Some s | S n' => obind (pop_digit s) (pop_digits n') end.
Definition pop_date (s : bytes) : option bytes :=
  obind (pop_digits 4 s) (fun s => obind (pop_char 45 s) (fun s => obind (pop_digits 2 s) (fun s =>
    obind (pop_char 45 s) (pop_digits 2)))).
Definition pop_time (s : bytes) : option bytes :=
  obind (pop_digits 2 s) (fun s => obind (pop_char 58 s) (fun s => obind (pop_digits 2 s) (fun s =>
    obind (pop_char 58 s) (pop_digits 2)))).
Definition pop_fraction (s : bytes) : option bytes :=
  match s with
  | 46 :: r => obind (pop_digit r) (fun r' => Some (snd (span is_digit r')))
  | _ => Some s
  end.
Definition pop_offset (s : bytes) : option bytes :=
  match s with
  | 43 :: r | 45 :: r => obind (pop_digits 2 r) (fun r => obind (pop_char 58 r) (pop_digits 2))
  | _ => pop_char 90 s
  end.
Definition strict_rfc3339 (s : bytes) : bool :=
  match obind (pop_date s) (fun s => obind (pop_char 84 s) (fun s => obind (pop_time s) (fun s =>
          obind (pop_fraction s) pop_offset))) with
  | Some [] => true
  | _ => false
  end.

(** ** Scalars read *)

Definition i32_lo : Z := -2147483648.
Definition i32_hi : Z := 2147483647.
Definition u32_hi : Z := 4294967295.
Definition i64_lo : Z := -9223372036854775808.
Definition i64_hi : Z := 9223372036854775807.
Definition u64_hi : Z := 18446744073709551615.

(** Int32Visitor, Uint32Visitor, Int64Visitor, Uint64Visitor
    (de/kind.rs:253-455).  [fhi] is the largest value as f64: [i64::MAX as f64]
    is 2^63 and [u64::MAX as f64] is 2^64.  The cast saturates. *)
Definition de_int (lo hi fhi : Z) (j : json) : jres Z :=
  let range (z : Z) := if (lo <=? z)%Z && (z <=? hi)%Z then JOk z else JErr XRange in
  let float (b : N) :=
    match f64_int b with
    | None => JErr XNotInteger
    | Some z => if (z <? lo)%Z || (fhi <? z)%Z then JErr XRange else JOk (Z.max lo (Z.min hi z))
    end in
  match j with
  | JInt z => range z
  | JF64 b => float b
  | JF32 b => float (f32_to_f64 b)
  | JStr s => match int_from_str lo hi s with Some z => JOk z | None => JErr XNumber end
  | _ => JErr XType
  end.
Definition de_i32 : json -> jres Z := de_int i32_lo i32_hi i32_hi.
Definition de_u32 : json -> jres Z := de_int 0 u32_hi u32_hi.
Definition de_i64 : json -> jres Z := de_int i64_lo i64_hi 9223372036854775808.
Definition de_u64 : json -> jres Z := de_int 0 u64_hi 18446744073709551616.

(** the names after from_str fails (de/kind.rs:186-192, 243-249) *)
Definition special_float (inf nan sign : N) (s : str) : jres N :=
  if bytes_eqb s (s2b "Infinity") then JOk inf
  else if bytes_eqb s (s2b "-Infinity") then JOk (sign + inf)
  else if bytes_eqb s (s2b "NaN") then JOk nan
  else JErr XNumber.
(** DoubleVisitor (de/kind.rs:151-194) *)
Definition de_f64 (j : json) : jres N :=
  match j with
  | JF64 b => JOk b
  | JF32 b => JOk (f32_to_f64 b)
  | JInt z => JOk (int_to_f64 z)
  | JStr s => match float_from_str round64 inf64 nan64 sign64 s with
              | Some b => JOk b
              | None => special_float inf64 nan64 sign64 s
              end
  | _ => JErr XType
  end.
(** FloatVisitor (de/kind.rs:196-251) *)
Definition de_f32 (j : json) : jres N :=
  match j with
  | JF64 b =>
      if (f32_max_bits <? f64_mag b) && negb (f64_nan b) then JErr XRange else JOk (f64_to_f32 b)
  | JF32 b => JOk b
  | JInt z => JOk (int_to_f32 z)
  | JStr s => match float_from_str round32 inf32 nan32 sign32 s with
              | Some b => JOk b
              | None => special_float inf32 nan32 sign32 s
              end
  | _ => JErr XType
  end.
