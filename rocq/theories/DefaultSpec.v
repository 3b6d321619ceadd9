(** What a textual default value denotes: the specification for C32 and C33. *)
From Coq Require Import String.
From Verif Require Import Base Wire Value Descr.
From Coq Require Import List ZArith NArith.
Import ListNotations.
Local Open Scope list_scope.
Local Open Scope N_scope.

(** ** Decimal integers *)
Definition digit (c : N) : Prop := 48 <= c <= 57.
Inductive decimal : str -> N -> Prop :=
| dec_one c : digit c -> decimal [c] (c - 48)
| dec_more s n c : decimal s n -> digit c -> decimal (s ++ [c]) (10 * n + (c - 48)).
(** with an optional sign: 43 is plus, 45 is minus *)
Inductive integer : str -> Z -> Prop :=
| int_plain s n : decimal s n -> integer s (Z.of_N n)
| int_plus s n : decimal s n -> integer (43 :: s) (Z.of_N n)
| int_minus s n : decimal s n -> integer (45 :: s) (- Z.of_N n).
Inductive natural : str -> N -> Prop :=
| nat_plain s n : decimal s n -> natural s n
| nat_plus s n : decimal s n -> natural (43 :: s) n.

(** ** C escapes of a byte string *)

(** backslash-letter and the byte it stands for *)
Definition letters : list (N * N) :=
  [(97, 7); (98, 8); (102, 12); (110, 10); (114, 13); (116, 9); (118, 11); (92, 92); (63, 63); (39, 39); (34, 34)].
Definition octal_digit (c : N) : Prop := 48 <= c <= 55.
Definition octal_value (ds : str) : N := fold_left (fun a c => 8 * a + (c - 48)) ds 0.
(** 0-9, a-f, A-F *)
Definition hex_value (c n : N) : Prop :=
  (48 <= c <= 57 /\ n = c - 48) \/ (97 <= c <= 102 /\ n = c - 97 + 10) \/ (65 <= c <= 70 /\ n = c - 65 + 10).
Definition starts_octal (s : str) : Prop := exists c r, s = c :: r /\ octal_digit c.
(** a UTF-8 continuation byte comes first *)
Definition starts_inside (s : str) : Prop := exists c r, s = c :: r /\ 128 <= c <= 191.

(** [escapes plus s bs]: the string [s] is an escaped form of the bytes [bs].
    With [plus = true], the spelling [\x+1] counts as well. *)
Inductive escapes (plus : bool) : str -> bytes -> Prop :=
| es_nil : escapes plus [] []
| es_plain c s bs : c <> 92 -> escapes plus s bs -> escapes plus (c :: s) (c :: bs)
| es_letter l c s bs : In (l, c) letters -> escapes plus s bs -> escapes plus (92 :: l :: s) (c :: bs)
| es_octal ds s bs : (1 <= length ds <= 3)%nat -> Forall octal_digit ds ->
    (length ds = 3%nat \/ ~ starts_octal s) -> octal_value ds <= 255 ->
    escapes plus s bs -> escapes plus (92 :: ds ++ s) (octal_value ds :: bs)
| es_hex x h1 h2 n1 n2 s bs : (x = 120 \/ x = 88) -> hex_value h1 n1 -> hex_value h2 n2 -> ~ starts_inside s ->
    escapes plus s bs -> escapes plus (92 :: x :: h1 :: h2 :: s) (16 * n1 + n2 :: bs)
| es_plus x h2 n2 s bs : plus = true -> (x = 120 \/ x = 88) -> hex_value h2 n2 -> ~ starts_inside s ->
    escapes plus s bs -> escapes plus (92 :: x :: 43 :: h2 :: s) (n2 :: bs).

(** how protoc writes a bytes default (CEscape in strutil.cc): newline, return,
    tab, quotes and backslash by a letter, other bytes outside 32..126 by three
    octal digits, the rest as they are *)
Definition c_escape_byte (c : N) : str :=
  if c =? 10 then [92; 110] else if c =? 13 then [92; 114] else if c =? 9 then [92; 116]
  else if c =? 34 then [92; 34] else if c =? 39 then [92; 39] else if c =? 92 then [92; 92]
  else if (c <? 32) || (127 <=? c) then [92; 48 + c / 64; 48 + (c / 8) mod 8; 48 + c mod 8]
  else [c].
Definition c_escape (bs : bytes) : str := concat (map c_escape_byte bs).

(** ** Default values *)

(** [s] denotes the value [v] of kind [k]; for enums, [names] are the names and
    numbers of the values of the enum in declaration order *)
Inductive denotes (values : nat -> list (str * Z)) : kind -> str -> value -> Prop :=
| dn_i32 k s z : In k [KInt32; KSint32; KSfixed32] -> integer s z -> (- 2 ^ 31 <= z < 2 ^ 31)%Z -> denotes values k s (VI32 z)
| dn_i64 k s z : In k [KInt64; KSint64; KSfixed64] -> integer s z -> (- 2 ^ 63 <= z < 2 ^ 63)%Z -> denotes values k s (VI64 z)
| dn_u32 k s n : In k [KUint32; KFixed32] -> natural s n -> n < 2 ^ 32 -> denotes values k s (VU32 n)
| dn_u64 k s n : In k [KUint64; KFixed64] -> natural s n -> n < 2 ^ 64 -> denotes values k s (VU64 n)
| dn_true : denotes values KBool (s2b "true"%string) (VBool true)
| dn_false : denotes values KBool (s2b "false"%string) (VBool false)
| dn_string s : denotes values KString s (VString s)
| dn_enum e pre s z post : values e = pre ++ (s, z) :: post -> ~ In s (map fst pre) -> denotes values (KEnum e) s (VEnum z).
Definition textual (k : kind) : Prop :=
  match k with KDouble | KFloat | KBytes => False | _ => True end.
