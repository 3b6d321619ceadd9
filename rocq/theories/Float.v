(** Reading decimal literals as IEEE-754 numbers, for the text and JSON
    parsers.  [str::parse::<f64>] and the [as f32] cast are Rust's own; they
    are modelled by what the language documents: the nearest representable
    number, ties to even. *)
From Verif Require Import Base.
Open Scope N_scope.

(** The bits of the nearest binary float to [n / d] ([d] positive): [p] bits of
    precision, smallest exponent [emin], [inf] the bits of infinity. *)
Definition round_bits (p : N) (emin : Z) (inf n d : N) : N :=
  if n =? 0 then 0
  else
    let l := (Z.of_N (N.log2 n) - Z.of_N (N.log2 d))%Z in
    let ge := if (0 <=? l)%Z then N.shiftl d (Z.to_N l) <=? n else d <=? N.shiftl n (Z.to_N (- l)) in
    let fl := if ge then l else (l - 1)%Z in
    let e := Z.max (fl - (Z.of_N p - 1)) emin in
    let num := if (0 <=? e)%Z then n else N.shiftl n (Z.to_N (- e)) in
    let den := if (0 <=? e)%Z then N.shiftl d (Z.to_N e) else d in
    let q := num / den in
    let r := num mod den in
    let up := (den <? 2 * r) || ((den =? 2 * r) && N.odd q) in
    let bits := N.shiftl (Z.to_N (e - emin)) (p - 1) + (if up then q + 1 else q) in
    if inf <=? bits then inf else bits.

Definition inf64 : N := 9218868437227405312.
Definition nan64 : N := 9221120237041090560.
Definition inf32 : N := 2139095040.
Definition nan32 : N := 2143289344.
Definition sign64 : N := 9223372036854775808.
Definition sign32 : N := 2147483648.
Definition round64 : N -> N -> N := round_bits 53 (-1074) inf64.
Definition round32 : N -> N -> N := round_bits 24 (-149) inf32.

(** [-x] on f64 *)
Definition f64_neg (b : N) : N := if b <? sign64 then b + sign64 else b - sign64.

(** [x as f32] on f64; the payload of a NaN is not kept *)
Definition f64_to_f32 (b : N) : N :=
  let s := if b <? sign64 then 0 else sign32 in
  let a := b mod sign64 in
  let ef := a / 4503599627370496 in
  let fr := a mod 4503599627370496 in
  if ef =? 2047 then (if fr =? 0 then s + inf32 else s + nan32)
  else
    let m := if ef =? 0 then fr else fr + 4503599627370496 in
    let e := (Z.of_N (if ef =? 0 then 1 else ef)%N - 1075)%Z in
    s + (if (0 <=? e)%Z then round32 (N.shiftl m (Z.to_N e)) 1
         else round32 m (N.shiftl 1 (Z.to_N (- e)))).

(** ** Decimal literals *)
Definition is_digit (c : N) : bool := (48 <=? c) && (c <=? 57).
Definition dec_value (s : str) : N := fold_left (fun a c => a * 10 + (c - 48)) s 0.

(** the longest prefix satisfying [p], and the rest *)
Fixpoint span (p : N -> bool) (s : bytes) : bytes * bytes :=
  match s with
  | c :: r => if p c then let (a, b) := span p r in (c :: a, b) else ([], s)
  | [] => ([], [])
  end.

(** the number [n * 10^e] *)
Definition dec_round (round : N -> N -> N) (n : N) (e : Z) : N :=
  if (0 <=? e)%Z then round (n * 10 ^ Z.to_N e) 1 else round n (10 ^ Z.to_N (- e)).

(** an exponent after [e] or [E]: sign and digits *)
Definition dec_exponent (s : bytes) : Z :=
  match s with
  | 43 :: r => Z.of_N (dec_value r)
  | 45 :: r => - Z.of_N (dec_value r)
  | _ => Z.of_N (dec_value s)
  end.

(** [str::parse] of digits, optionally a point and digits, optionally an
    exponent: the nearest number *)
Definition dec_parse (round : N -> N -> N) (s : bytes) : N :=
  let (i, r1) := span is_digit s in
  let (f, r2) := match r1 with 46 :: r => span is_digit r | _ => ([], r1) end in
  let e := match r2 with _ :: r => dec_exponent r | [] => 0%Z end in
  dec_round round (dec_value (i ++ f)) (e - Z.of_nat (length f)).
Definition f64_parse : bytes -> N := dec_parse round64.
(** direct reading as f32, for comparison *)
Definition f32_parse : bytes -> N := dec_parse round32.
