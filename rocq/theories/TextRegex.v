(** What the tokens of a text are: the patterns of the lexer as regular
    expressions, and the rule of the longest match.  The specification for C59.

    prost-reflect/src/dynamic/text_format/parse/lex.rs declares its tokens with
    the patterns below for the logos crate, which takes, at each position, the
    longest match of any pattern and then runs the callback of that pattern.
    The patterns are on characters; here they are on the bytes of the UTF-8
    text, which makes no difference as no set below but [^...] contains a byte
    above 127. *)
From Coq Require Import String.
From Verif Require Import Base Float TextLex.
Open Scope list_scope.
Open Scope N_scope.

(** ** Regular expressions *)

Inductive re :=
| Set_ (p : N -> bool)      (* one character *)
| Many (p : N -> bool)      (* [..]* *)
| Some_ (p : N -> bool)     (* [..]+ *)
| Opt (r : re)              (* r? *)
| Cat (r s : re).

Fixpoint matches (r : re) (l : bytes) : Prop :=
  match r with
  | Set_ p => exists c, l = [c] /\ p c = true
  | Many p => Forall (fun c => p c = true) l
  | Some_ p => l <> [] /\ Forall (fun c => p c = true) l
  | Opt r => l = [] \/ matches r l
  | Cat r s => exists a b, l = a ++ b /\ matches r a /\ matches s b
  end.

(** the characters in a text; a character *)
Definition any_of (s : string) (c : N) : bool := existsb (N.eqb c) (s2b s).
Definition between (a b : N) (c : N) : bool := (a <=? c) && (c <=? b).
Notation "r ;; s" := (Cat r s) (at level 61, right associativity).

(** [A-Za-z_], [0-9], ... *)
Definition letter_ (c : N) : bool := between 65 90 c || between 97 122 c || (c =? 95).
Definition digit (c : N) : bool := between 48 57 c.
Definition nonzero (c : N) : bool := between 49 57 c.
Definition octal (c : N) : bool := between 48 55 c.
Definition hexa (c : N) : bool := digit c || between 65 70 c || between 97 102 c.
(** [\t\v\f\r\n ] *)
Definition blank (c : N) : bool := existsb (N.eqb c) [9; 11; 12; 13; 10; 32].

(** [eE][+\-]?[0-9]+ *)
Definition exp_re : re := Set_ (any_of "eE") ;; Opt (Set_ (any_of "+-")) ;; Some_ digit.
Definition f_re : re := Opt (Set_ (any_of "fF")).

(** ** String literals (lex.rs:129-233), after the opening quote *)

Definition backslash : N := 92.
(** characters that stand for themselves: not NUL, newline, backslash, quotes *)
Definition plain (c : N) : bool := negb (existsb (N.eqb c) [0; 10; backslash; 34; 39]).

(** what an escape sequence stands for, as one longest match after another:
    [\xh], [\xhh], [\o], [\oo], [\ooo], [\n] etc., [\uhhhh], [\Uhhhhhhhh].
    A hexadecimal or octal digit that could be part of the escape is. *)
Definition starts (p : N -> bool) (s : bytes) : Prop := match s with c :: _ => p c = true | [] => False end.
Definition simple_escapes : list (N * N) :=
  [(97, 7); (98, 8); (102, 12); (110, 10); (114, 13); (116, 9); (118, 11); (63, 63); (92, 92); (39, 39); (34, 34)].
Inductive escapes : bytes -> bytes -> bytes -> Prop :=
| es_hex x hs rest : any_of "xX" x = true -> Forall (fun c => hexa c = true) hs ->
    (length hs = 2 \/ length hs = 1 /\ ~ starts hexa rest)%nat ->
    escapes (x :: hs) rest [radix_val 16 hs]
| es_oct os rest : Forall (fun c => octal c = true) os ->
    (length os = 3 \/ (length os = 1 \/ length os = 2) /\ ~ starts octal rest)%nat ->
    radix_val 8 os < 256 ->
    escapes os rest [radix_val 8 os]
| es_char c b rest : In (c, b) simple_escapes -> escapes [c] rest [b]
| es_unicode u hs rest : Forall (fun c => hexa c = true) hs ->
    (u = 117 /\ length hs = 4%nat \/ u = 85 /\ length hs = 8%nat) -> is_char (radix_val 16 hs) = true ->
    escapes (u :: hs) rest (utf8_encode (radix_val 16 hs)).

(** [literal q s v rest]: up to the quote [q] the text [s] is a literal for the
    bytes [v], and [rest] follows.  The other quote stands for itself. *)
Inductive literal (q : N) : bytes -> bytes -> bytes -> Prop :=
| li_end rest : literal q (q :: rest) [] rest
| li_plain c s v rest : plain c = true -> literal q s v rest -> literal q (c :: s) (c :: v) rest
| li_other c s v rest : (c = 34 \/ c = 39) -> c <> q -> literal q s v rest -> literal q (c :: s) (c :: v) rest
| li_escape e s b v rest : escapes e s b -> literal q s v rest -> literal q (backslash :: e ++ s) (b ++ v) rest.

(** ** Tokens *)

(** What the match [l] of a pattern, with [rest] after it, becomes: nothing
    (it is skipped), a token with what is left to read, or an error. *)
Inductive makes : Type := Skips | Gives (act : bytes -> bytes -> tok * bytes -> Prop).

(** an integer: its digits, without the prefix; a letter or underscore must not
    follow *)
Definition int_act (radix : N) (prefix : nat) (l rest : bytes) (x : tok * bytes) : Prop :=
  ~ starts letter_ rest /\ x = (TInt (skipn prefix l) radix, rest).
(** a float: its text, without the suffix *)
Definition float_act (l rest : bytes) (x : tok * bytes) : Prop :=
  exists b sfx, l = b ++ sfx /\ ~ starts (any_of "fF") (rev b) /\ (sfx = [] \/ sfx = s2b "f" \/ sfx = s2b "F") /\
    x = (TFloat b, rest).
Definition ident_act (l rest : bytes) (x : tok * bytes) : Prop := x = (TIdent l, rest).
(** the literal extends over what follows the quote *)
Definition string_act (l rest : bytes) (x : tok * bytes) : Prop :=
  exists q v rest', l = [q] /\ literal q rest v rest' /\ x = (TStr v, rest').
Definition punct_act (k : tok) (l rest : bytes) (x : tok * bytes) : Prop := x = (k, rest).

(** lex.rs:9-54, in order *)
Definition patterns : list (re * makes) :=
  [ (Some_ blank, Skips);
    (Set_ (any_of "#") ;; Many (fun c => negb (c =? 10)) ;; Opt (Set_ (N.eqb 10)), Skips);
    (Set_ letter_ ;; Many (fun c => letter_ c || digit c), Gives ident_act);
    (Set_ (any_of "0"), Gives (int_act 10 0));
    (Set_ nonzero ;; Many digit, Gives (int_act 10 0));
    (Set_ (any_of "0") ;; Some_ octal, Gives (int_act 8 1));
    (Set_ (any_of "0") ;; Set_ (any_of "xX") ;; Some_ hexa, Gives (int_act 16 2));
    (Set_ (any_of "0") ;; Set_ (any_of "fF"), Gives float_act);
    (Set_ nonzero ;; Many digit ;; Set_ (any_of "fF"), Gives float_act);
    (Some_ digit ;; Set_ (any_of ".") ;; Many digit ;; Opt exp_re ;; f_re, Gives float_act);
    (Some_ digit ;; exp_re ;; f_re, Gives float_act);
    (Set_ (any_of ".") ;; Some_ digit ;; Opt exp_re ;; f_re, Gives float_act);
    (Set_ (any_of "'""") , Gives string_act);
    (Set_ (any_of "."), Gives (punct_act TDot));
    (Set_ (any_of "-"), Gives (punct_act TMinus));
    (Set_ (any_of "{"), Gives (punct_act TLBrace));
    (Set_ (any_of "}"), Gives (punct_act TRBrace));
    (Set_ (any_of "["), Gives (punct_act TLBrack));
    (Set_ (any_of "]"), Gives (punct_act TRBrack));
    (Set_ (any_of "<"), Gives (punct_act TLAngle));
    (Set_ (any_of ">"), Gives (punct_act TRAngle));
    (Set_ (any_of ","), Gives (punct_act TComma));
    (Set_ (any_of ":"), Gives (punct_act TColon));
    (Set_ (any_of ";"), Gives (punct_act TSemi));
    (Set_ (any_of "/"), Gives (punct_act TSlash)) ].

(** [l] is the longest match at the start of [l ++ rest]; it is one of a pattern
    that [a] belongs to *)
Definition longest (l rest : bytes) (a : makes) : Prop :=
  (exists r, In (r, a) patterns /\ matches r l) /\
  forall r b l' rest', In (r, b) patterns -> matches r l' -> l ++ rest = l' ++ rest' -> (length l' <= length l)%nat.
Definition no_match (s : bytes) : Prop :=
  forall r b l rest, In (r, b) patterns -> matches r l -> s <> l ++ rest.

(** [lexed s ts]: the text [s] is the tokens [ts].  The first error ends them,
    as the parser stops there. *)
Inductive lexed : bytes -> list tok -> Prop :=
| lx_end : lexed [] []
| lx_skip l rest ts : longest l rest Skips -> lexed rest ts -> lexed (l ++ rest) ts
| lx_token l rest act k rest' ts : longest l rest (Gives act) -> act l rest (k, rest') -> lexed rest' ts ->
    lexed (l ++ rest) (k :: ts)
| lx_error l rest act : longest l rest (Gives act) -> (forall x, ~ act l rest x) -> lexed (l ++ rest) [TBad]
| lx_bad s : s <> [] -> no_match s -> lexed s [TBad].
