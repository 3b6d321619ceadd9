(** The lexer of the text format
    (prost-reflect/src/dynamic/text_format/parse/lex.rs).

    The code generates its lexer with the logos crate from regular expressions;
    logos is external.  It is modelled by what logos documents: at each
    position the longest match of any of the patterns is taken (lex.rs:9-54),
    and then the callback of that pattern is run.  The input is a [&str]; here
    it is its UTF-8 bytes.  Spans, which only appear in error messages, are
    left out. *)
From Coq Require Import String.
From Verif Require Import Base Wire Float.
Open Scope N_scope.

(** Token (lex.rs:14-54).  A float literal keeps its text (without the f
    suffix); the parser reads it with [f64_parse]. [TBad] is a lexing error:
    it ends the token list, as the parser stops at the first error. *)
Inductive tok :=
| TIdent (s : str)
| TInt (digits : bytes) (radix : N)
| TFloat (s : bytes)
| TStr (s : bytes)
| TDot | TMinus | TLBrace | TRBrace | TLBrack | TRBrack | TLAngle | TRAngle
| TComma | TColon | TSemi | TSlash
| TBad.

(** ** Character classes *)
Definition is_alpha (c : N) : bool := in_range 65 90 c || in_range 97 122 c.
Definition ident_start (c : N) : bool := is_alpha c || (c =? 95).
Definition ident_char (c : N) : bool := ident_start c || is_digit c.
Definition is_oct (c : N) : bool := in_range 48 55 c.
Definition is_hex (c : N) : bool := is_digit c || in_range 65 70 c || in_range 97 102 c.
(** [\t\v\f\r\n ] (lex.rs:11) *)
Definition is_space (c : N) : bool := in_range 9 13 c || (c =? 32).

(** the value of a hexadecimal digit *)
Definition hex_val (c : N) : N :=
  if is_digit c then c - 48 else if in_range 65 70 c then c - 55 else c - 87.
(** <int>::from_str_radix on digits of that radix, before the range check *)
Definition radix_val (radix : N) (s : bytes) : N := fold_left (fun a c => a * radix + hex_val c) s 0.

(** ** Numbers *)

(** The start of what follows a number is a letter or underscore
    (lex.rs:102): no space between int and ident. *)
Definition touches (s : bytes) : bool :=
  match s with c :: _ => ident_start c | [] => false end.
(** the callback int (lex.rs:98-116) *)
Definition int_tok (digits : bytes) (radix : N) (rest : bytes) : option (tok * bytes) :=
  if touches rest then None else Some (TInt digits radix, rest).

(** the subpattern [eE][+-]?[0-9]+ (lex.rs:13), with what it matched *)
Definition exponent (s : bytes) : option (bytes * bytes) :=
  match s with
  | c :: r =>
      if (c =? 101) || (c =? 69) then
        let (sg, r1) := match r with
                        | 43 :: r' => ([43], r')
                        | 45 :: r' => ([45], r')
                        | _ => ([], r)
                        end in
        match span is_digit r1 with
        | ([], _) => None
        | (ds, r2) => Some (c :: sg ++ ds, r2)
        end
      else None
  | [] => None
  end.
(** (?&exponent)? *)
Definition opt_exponent (s : bytes) : bytes * bytes :=
  match exponent s with Some (e, r) => (e, r) | None => ([], s) end.
(** [fF]? at the end of a float (lex.rs:118-127 drops it) *)
Definition opt_suffix (s : bytes) : bytes :=
  match s with c :: r => if (c =? 102) || (c =? 70) then r else s | [] => [] end.
Definition has_suffix (s : bytes) : bool :=
  match s with c :: _ => (c =? 102) || (c =? 70) | [] => false end.

(** The number patterns (lex.rs:18-30) at a position that starts with the
    digits [ds]; [rest] follows them. *)
Definition number (ds rest : bytes) : option (tok * bytes) :=
  match rest with
  | 46 :: r =>
      (* [0-9]+\.[0-9]*(?&exponent)?[fF]? *)
      let (fs, r1) := span is_digit r in
      let (e, r2) := opt_exponent r1 in
      Some (TFloat (ds ++ 46 :: fs ++ e), opt_suffix r2)
  | _ =>
      match exponent rest with
      | Some (e, r2) =>
          (* [0-9]+(?&exponent)[fF]? *)
          Some (TFloat (ds ++ e), opt_suffix r2)
      | None =>
          match ds with
          | 48 :: ds' =>
              match ds' with
              | [] =>
                  match rest with
                  | c :: r =>
                      if (c =? 120) || (c =? 88) then
                        (* 0[xX][0-9A-Fa-f]+ *)
                        match span is_hex r with
                        | ([], _) => int_tok [48] 10 rest
                        | (hs, r1) => int_tok hs 16 r1
                        end
                      else if has_suffix rest then Some (TFloat [48], r) (* 0[fF] *)
                      else int_tok [48] 10 rest                          (* 0 *)
                  | [] => int_tok [48] 10 rest
                  end
              | _ :: _ =>
                  match span is_oct ds' with
                  | ([], _) => int_tok [48] 10 (ds' ++ rest)    (* 0, then another token *)
                  | (os, r1) => int_tok os 8 (r1 ++ rest)       (* 0[0-7]+ *)
                  end
              end
          | _ =>
              if has_suffix rest then Some (TFloat ds, opt_suffix rest) (* [1-9][0-9]*[fF] *)
              else int_tok ds 10 rest                                  (* [1-9][0-9]* *)
          end
      end
  end.

(** ** Strings (lex.rs:129-233) *)

(** char::encode_utf8 *)
Definition utf8_encode (c : N) : bytes :=
  if c <? 128 then [c]
  else if c <? 2048 then [192 + c / 64; 128 + c mod 64]
  else if c <? 65536 then [224 + c / 4096; 128 + (c / 64) mod 64; 128 + c mod 64]
  else [240 + c / 262144; 128 + (c / 4096) mod 64; 128 + (c / 64) mod 64; 128 + c mod 64].
(** char::from_u32 is Some *)
Definition is_char (c : N) : bool := (c <? 55296) || in_range 57344 1114111 c.

(** the one-letter escapes (lex.rs:163-178) *)
Definition char_escape (c : N) : option N :=
  match c with
  | 97 => Some 7 | 98 => Some 8 | 102 => Some 12 | 110 => Some 10 | 114 => Some 13
  | 116 => Some 9 | 118 => Some 11 | 63 => Some 63 | 92 => Some 92 | 39 => Some 39 | 34 => Some 34
  | _ => None
  end.

(** up to [n] characters satisfying [p] *)
Fixpoint span_n (n : nat) (p : N -> bool) (s : bytes) : bytes * bytes :=
  match n, s with
  | S n', c :: r => if p c then let (a, b) := span_n n' p r in (c :: a, b) else ([], s)
  | _, _ => ([], s)
  end.

(** one escape sequence, after the backslash: the bytes it stands for *)
Definition escape (s : bytes) : option (bytes * bytes) :=
  match s with
  | [] => None
  | c :: r =>
      if (c =? 120) || (c =? 88) then
        (* \\[xX]hh? *)
        match span_n 2 is_hex r with
        | ([], _) => None
        | (hs, r') => Some ([radix_val 16 hs], r')
        end
      else if is_oct c then
        (* \\[0-7][0-7]?[0-7]?, an error above 255 *)
        let (os, r') := span_n 3 is_oct s in
        if radix_val 8 os <? 256 then Some ([radix_val 8 os], r') else None
      else if (c =? 117) || (c =? 85) then
        (* \\uhhhh, \\Uhhhhhhhh *)
        let n := if c =? 117 then 4%nat else 8%nat in
        let (hs, r') := span_n n is_hex r in
        if (length hs =? n)%nat && is_char (radix_val 16 hs)
        then Some (utf8_encode (radix_val 16 hs), r') else None
      else match char_escape c with Some b => Some ([b], r) | None => None end
  end.

(** The loop of [string] (lex.rs:191-229): [n] bounds the steps.  [None] is a
    lexing error; [Fuel] never happens with [n] at least the length. *)
Fixpoint string_loop (n : nat) (quote : N) (s : bytes) : res (option (bytes * bytes)) :=
  match n with
  | O => Fuel
  | S n' =>
      match s with
      | [] => Ok None
      | c :: r =>
          if c =? quote then Ok (Some ([], r))
          else if c =? 92 then
            match escape r with
            | None => Ok None
            | Some (bs, r') =>
                let! o := string_loop n' quote r' in
                Ok (match o with Some (v, r'') => Some (bs ++ v, r'') | None => None end)
            end
          else if (c =? 0) || (c =? 10) then Ok None
          else
            let! o := string_loop n' quote r in
            Ok (match o with Some (v, r'') => Some (c :: v, r'') | None => None end)
      end
  end.

(** ** Tokens *)

Definition punct (c : N) : option tok :=
  match c with
  | 46 => Some TDot | 45 => Some TMinus | 123 => Some TLBrace | 125 => Some TRBrace
  | 91 => Some TLBrack | 93 => Some TRBrack | 60 => Some TLAngle | 62 => Some TRAngle
  | 44 => Some TComma | 58 => Some TColon | 59 => Some TSemi | 47 => Some TSlash
  | _ => None
  end.

(** One token at a position that is not skipped; [None] is an error. *)
Definition next_token (s : bytes) : res (option (tok * bytes)) :=
  match s with
  | [] => Ok None
  | c :: r =>
      if ident_start c then let (a, b) := span ident_char s in Ok (Some (TIdent a, b))
      else if is_digit c then let (ds, b) := span is_digit s in Ok (number ds b)
      else if (c =? 34) || (c =? 39) then
        let! o := string_loop (S (length r)) c r in
        Ok (match o with Some (v, b) => Some (TStr v, b) | None => None end)
      else if (c =? 46) && match r with d :: _ => is_digit d | [] => false end then
        (* \.[0-9]+(?&exponent)?[fF]? *)
        let (fs, r1) := span is_digit r in
        let (e, r2) := opt_exponent r1 in
        Ok (Some (TFloat (46 :: fs ++ e), opt_suffix r2))
      else match punct c with Some k => Ok (Some (k, r)) | None => Ok None end
  end.

(** #[^\n]*\n? (lex.rs:12) *)
Fixpoint skip_line (s : bytes) : bytes :=
  match s with
  | [] => []
  | c :: r => if c =? 10 then r else skip_line r
  end.

(** The whole input as tokens; [n] bounds the steps. *)
Fixpoint lex_loop (n : nat) (s : bytes) : res (list tok) :=
  match n with
  | O => match s with [] => Ok [] | _ => Fuel end
  | S n' =>
      match s with
      | [] => Ok []
      | c :: r =>
          if is_space c then lex_loop n' r
          else if c =? 35 then lex_loop n' (skip_line r)
          else
            let! o := next_token s in
            match o with
            | None => Ok [TBad]
            | Some (k, rest) => let! ks := lex_loop n' rest in Ok (k :: ks)
            end
      end
  end.
Definition lex (s : bytes) : res (list tok) := lex_loop (length s) s.
