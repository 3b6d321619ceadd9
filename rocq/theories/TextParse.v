(** Parsing the text format:
    prost-reflect/src/dynamic/text_format/parse/mod.rs.

    The parser pulls tokens from the lexer one at a time and never skips back,
    so it is written over the list of tokens of the whole input ([TextLex.lex]).
    [TBad] at the head is a lexing error, reported by the next peek()
    (mod.rs:512-531). *)
From Coq Require Import String.
From Verif Require Import Base Wire Unknown Value Descr Fields Codec Float TextLex TextFormat.
Open Scope N_scope.

(** ParseErrorKind (parse/error.rs), without spans and texts *)
Inductive perr :=
| PLex                (* InvalidToken, InvalidStringEscape, ... *)
| PUnexpected         (* UnexpectedToken, UnexpectedEof *)
| PFieldNotFound | PExtNotFound | PMsgNotFound
| PAlreadySet | POneofSet
| PMapKey | PIntRange | PUtf8 | PEnumValue | PAnyType.

(** Outcome of reading a value: the value and the tokens left. *)
Inductive pr (A : Type) :=
| POk (a : A) (ts : list tok)
| PErr (e : perr)
| PPanic
| PFuel.
Arguments POk {A} a ts.
Arguments PErr {A} e.
Arguments PPanic {A}.
Arguments PFuel {A}.
Definition pbind {A B} (r : pr A) (k : A -> list tok -> pr B) : pr B :=
  match r with POk a ts => k a ts | PErr e => PErr e | PPanic => PPanic | PFuel => PFuel end.

(** Outcome of reading into a message: after an error the message keeps what
    was read before. *)
Inductive mres :=
| MOk (m : dynmsg) (ts : list tok)
| MErr (e : perr) (m : dynmsg)
| MPanic
| MFuel.
(** a value read on the way to changing [m] *)
Definition mbind {A} (m : dynmsg) (r : pr A) (k : A -> list tok -> mres) : mres :=
  match r with POk a ts => k a ts | PErr e => MErr e m | PPanic => MPanic | PFuel => MFuel end.

(** unexpected_token (mod.rs:533-546): a lexing error wins *)
Definition unexpected {A} (ts : list tok) : pr A :=
  match ts with TBad :: _ => PErr PLex | _ => PErr PUnexpected end.
Definition unexpected_in (m : dynmsg) (ts : list tok) : mres :=
  match ts with TBad :: _ => MErr PLex m | _ => MErr PUnexpected m end.

(** ** Scalars *)

(** eq_ignore_ascii_case against a lower-case text; to_ascii_lowercase *)
Definition lower_char (c : N) : N := if (65 <=? c) && (c <=? 90) then c + 32 else c.
Definition lowercase (s : str) : str := map lower_char s.
Definition eq_ignore_case (s lit : str) : bool := bytes_eqb (lowercase s) lit.

(** parse_float (mod.rs:323-353) *)
Definition parse_float (ts : list tok) : pr N :=
  match ts with
  | [] => PErr PUnexpected
  | _ =>
      let (neg, r) := match ts with TMinus :: r => (true, r) | _ => (false, ts) end in
      let num b r' := POk (if neg : bool then f64_neg b else b) r' in
      match r with
      | TFloat s :: r' => num (f64_parse s) r'
      | TInt s 10 :: r' => num (f64_parse s) r'
      | TIdent s :: r' =>
          if eq_ignore_case s (s2b "inf") || eq_ignore_case s (s2b "infinity") then num inf64 r'
          else if eq_ignore_case s (s2b "nan") then num nan64 r'
          else PErr PUnexpected
      | _ => unexpected r
      end
  end.

(** parse_int (mod.rs:441-455): sign, and the value of the digits in their
    radix *)
Definition parse_int (ts : list tok) : pr (bool * N) :=
  match ts with
  | [] => PErr PUnexpected
  | _ =>
      let (neg, r) := match ts with TMinus :: r => (true, r) | _ => (false, ts) end in
      match r with
      | TInt s radix :: r' => POk (neg, radix_val radix s) r'
      | _ => unexpected r
      end
  end.
(** parse_i32, parse_i64 (mod.rs:355-409); [half] is 2^31 or 2^63.  Negative:
    the digits as u32/u64, and that value is at most [half]. *)
Definition parse_signed (half : N) (ts : list tok) : pr Z :=
  pbind (parse_int ts) (fun (x : bool * N) r =>
    if fst x then
      if snd x <? 2 * half then
        if snd x =? half then POk (- Z.of_N half)%Z r
        else if snd x <? half then POk (- Z.of_N (snd x))%Z r
        else PErr PIntRange
      else PErr PIntRange
    else if snd x <? half then POk (Z.of_N (snd x)) r else PErr PIntRange).
(** parse_u32, parse_u64 (mod.rs:411-439): a minus sign is always out of range *)
Definition parse_unsigned (size : N) (ts : list tok) : pr N :=
  pbind (parse_int ts) (fun (x : bool * N) r =>
    if fst x then PErr PIntRange
    else if snd x <? size then POk (snd x) r else PErr PIntRange).

(** parse_bool (mod.rs:457-481) *)
Definition parse_bool (ts : list tok) : pr bool :=
  match ts with
  | TIdent s :: r =>
      if bytes_eqb s (s2b "false") || bytes_eqb s (s2b "False") || bytes_eqb s (s2b "f") then POk false r
      else if bytes_eqb s (s2b "true") || bytes_eqb s (s2b "True") || bytes_eqb s (s2b "t") then POk true r
      else PErr PUnexpected
  | TInt s radix :: r =>
      let v := radix_val radix s in
      if v =? 1 then POk true r else if v =? 0 then POk false r else PErr PUnexpected
  | _ => unexpected ts
  end.

(** parse_bytes (mod.rs:483-495): adjacent literals are concatenated *)
Fixpoint more_strings (acc : bytes) (ts : list tok) : pr bytes :=
  match ts with
  | TStr s :: r => more_strings (acc ++ s) r
  | TBad :: _ => PErr PLex
  | _ => POk acc ts
  end.
Definition parse_bytes (ts : list tok) : pr bytes :=
  match ts with
  | TStr s :: r => more_strings s r
  | _ => unexpected ts
  end.

(** EnumDescriptor::get_value_by_name(..).number() (descriptor/api.rs:1467-1475) *)
Definition enum_number (t : tables) (e : nat) (name : str) : option Z :=
  match nth_error (t_enums t) e with
  | None => None
  | Some en => match assoc_s name (e_names en) with
               | None => None
               | Some i => option_map ev_number (nth_error (e_values en) i)
               end
  end.
(** parse_enum (mod.rs:497-514) *)
Definition parse_enum (t : tables) (e : nat) (ts : list tok) : pr Z :=
  match ts with
  | TIdent s :: r => match enum_number t e s with Some z => POk z r | None => PErr PEnumValue end
  | TMinus :: _ | TInt _ _ :: _ => parse_signed 2147483648 ts
  | _ => unexpected ts
  end.

Definition two31 : N := 2147483648.
Definition two63 : N := 9223372036854775808.

(** The scalar arms of parse_value (mod.rs:272-321) *)
Definition parse_scalar (t : tables) (k : kind) (ts : list tok) : pr value :=
  match k with
  | KFloat => pbind (parse_float ts) (fun b r => POk (VF32 (f64_to_f32 b)) r)
  | KDouble => pbind (parse_float ts) (fun b r => POk (VF64 b) r)
  | KInt32 | KSint32 | KSfixed32 => pbind (parse_signed two31 ts) (fun z r => POk (VI32 z) r)
  | KInt64 | KSint64 | KSfixed64 => pbind (parse_signed two63 ts) (fun z r => POk (VI64 z) r)
  | KUint32 | KFixed32 => pbind (parse_unsigned (2 * two31) ts) (fun n r => POk (VU32 n) r)
  | KUint64 | KFixed64 => pbind (parse_unsigned (2 * two63) ts) (fun n r => POk (VU64 n) r)
  | KBool => pbind (parse_bool ts) (fun b r => POk (VBool b) r)
  | KString => pbind (parse_bytes ts) (fun s r =>
                 if utf8_valid s then POk (VString s) r else PErr PUtf8)
  | KBytes => pbind (parse_bytes ts) (fun s r => POk (VBytes s) r)
  | KEnum e => pbind (parse_enum t e ts) (fun z r => POk (VEnum z) r)
  | KMessage _ | KGroup _ => PPanic
  end.

(** ** Field names *)

(** parse_full_ident (mod.rs:516-541): the terminator itself is left *)
Fixpoint more_ident (terms : list tok -> bool) (acc : str) (ts : list tok) : pr str :=
  match ts with
  | TDot :: r =>
      match r with
      | TIdent s :: r' => more_ident terms (acc ++ 46 :: s) r'
      | _ => unexpected r
      end
  | _ => if terms ts then POk acc ts else unexpected ts
  end.
Definition full_ident (terms : list tok -> bool) (ts : list tok) : pr str :=
  match ts with
  | TIdent s :: r => more_ident terms s r
  | _ => unexpected ts
  end.

(** FieldName (mod.rs:26-30) *)
Inductive fname := FIdent (s : str) | FExt (s : str) | FAny (domain name : str).

Definition at_rbrack (ts : list tok) : bool := match ts with TRBrack :: _ => true | _ => false end.
Definition at_rbrack_slash (ts : list tok) : bool :=
  match ts with TRBrack :: _ | TSlash :: _ => true | _ => false end.

(** parse_field_name (mod.rs:138-168) *)
Definition field_name (ts : list tok) : pr fname :=
  match ts with
  | TIdent s :: r => POk (FIdent s) r
  | TLBrack :: r =>
      pbind (full_ident at_rbrack_slash r) (fun s r1 =>
        match r1 with
        | TRBrack :: r2 => POk (FExt s) r2
        | TSlash :: r2 =>
            pbind (full_ident at_rbrack r2) (fun nm r3 =>
              match r3 with
              | TRBrack :: r4 => POk (FAny s nm) r4
              | _ => unexpected r3
              end)
        | _ => unexpected r1
        end)
  | _ => unexpected ts
  end.

(** the check for a colon or the start of a message (mod.rs:75-81) *)
Definition field_sep (ts : list tok) : pr unit :=
  match ts with
  | TColon :: r => POk tt r
  | TLBrace :: _ | TLAngle :: _ => POk tt ts
  | _ => unexpected ts
  end.

(** find_field (mod.rs:548-562) *)
Definition find_field (t : tables) (d : nat) (name : str) : option fdl :=
  let group :=
    match get_field_by_name t d (lowercase name) with
    | Some f =>
        match fd_kind f with
        | KGroup i =>
            match nth_error (t_messages t) i with
            | Some m => if bytes_eqb name (id_name (m_id m)) then Some f else None
            | None => None
            end
        | _ => None
        end
    | None => None
    end in
  match get_field_by_name t d name with
  | Some f => if fd_is_group f then group else Some f
  | None => group
  end.

(** ** Values, with the nested call [pv] *)

(** the elements of a list after the first (mod.rs:253-268) *)
Fixpoint list_rest (n : nat) (pv : kind -> list tok -> pr value) (k : kind) (acc : list value)
  (ts : list tok) : pr value :=
  match n with
  | O => PFuel
  | S n' =>
      match ts with
      | TComma :: r => pbind (pv k r) (fun v r' => list_rest n' pv k (acc ++ [v]) r')
      | TRBrack :: r => POk (VList acc) r
      | _ => unexpected ts
      end
  end.
(** parse_repeated_value (mod.rs:236-270) *)
Definition repeated_value (pv : kind -> list tok -> pr value) (k : kind) (ts : list tok) : pr value :=
  match ts with
  | TLBrack :: r =>
      match r with
      | TRBrack :: r' => POk (VList []) r'
      | _ => pbind (pv k r) (fun v r' => list_rest (S (length r')) pv k [v] r')
      end
  | _ => pv k ts
  end.

(** unpack (mod.rs:184-202) *)
Inductive unpacked := UEntry (k : mapkey) (v : value) | UKey | UPanic.
Definition unpack (t : tables) (v : value) : unpacked :=
  match v with
  | VMessage m =>
      match get_field_by_number t m MAP_KEY_NUMBER with
      | None => UPanic
      | Some kv =>
          match value_mk kv with
          | None => UKey
          | Some key =>
              match get_field_by_number t m MAP_VALUE_NUMBER with
              | None => UPanic
              | Some v => UEntry key v
              end
          end
      end
  | _ => UPanic
  end.

(** the entries inserted one by one (mod.rs:206-215); [put] writes the map back *)
Fixpoint insert_all (t : tables) (put : list (mapkey * value) -> dynmsg)
  (kvs : list (mapkey * value)) (vs : list value) (ts : list tok) : mres :=
  match vs with
  | [] => MOk (put kvs) ts
  | v :: r =>
      match unpack t v with
      | UEntry k x => insert_all t put (map_insert k x kvs) r ts
      | UKey => MErr PMapKey (put kvs)
      | UPanic => MPanic
      end
  end.

(** parse_field_value (mod.rs:170-234) *)
Definition field_value_in (t : tables) (pv : kind -> list tok -> pr value) (m : dynmsg) (f : fdl)
  (ts : list tok) : mres :=
  if fd_is_list f then
    mbind m (repeated_value pv (fd_kind f) ts) (fun v r =>
      let fs := fs_get_mut t f (dm_fields m) in
      match fs_get t f fs with
      | VList l => MOk (with_fields m (fs_put f (VList (l ++ match v with VList l' => l' | _ => [v] end)) fs)) r
      | _ => MPanic
      end)
  else if fd_is_map f then
    mbind m (repeated_value pv (fd_kind f) ts) (fun v r =>
      let fs := fs_get_mut t f (dm_fields m) in
      match fs_get t f fs with
      | VMap l => insert_all t (fun kvs => with_fields m (fs_put f (VMap kvs) fs)) l
                    (match v with VList l' => l' | _ => [v] end) r
      | _ => MPanic
      end)
  else
    mbind m (pv (fd_kind f) ts) (fun v r =>
      if fs_has t f (dm_fields m) then MErr PAlreadySet m
      else if match fd_oneof f with
              | Some nums => existsb (has_field_by_number t m) nums
              | None => false
              end then MErr POneofSet m
      else MOk (with_fields m (fs_set f v (dm_fields m))) r).

(** the Any arm of parse_field (mod.rs:109-134) *)
Definition any_in (t : tables) (pv : kind -> list tok -> pr value) (m : dynmsg)
  (domain name : str) (ts : list tok) : mres :=
  match find_msg t name with
  | None => MErr PMsgNotFound m
  | Some i =>
      mbind m (pv (KMessage i) ts) (fun v r =>
        match v with
        | VMessage body =>
            match enc_msg t body with
            | Ok b =>
                if bytes_eqb (full_name t (dm_desc m)) any_name then
                  let (e1, m1) := try_set_field_by_number t m 1 (VString (domain ++ 47 :: name)) in
                  match e1 with
                  | Some _ => MErr PAnyType m1
                  | None =>
                      let (e2, m2) := try_set_field_by_number t m1 2 (VBytes b) in
                      match e2 with Some _ => MErr PAnyType m2 | None => MOk m2 r end
                  end
                else MErr PAnyType m
            | Panic => MPanic
            | Err _ | Fuel => MFuel
            end
        | _ => MPanic
        end)
  end.

(** the optional comma or semicolon after a field (mod.rs:137-139) *)
Definition field_end (r : mres) : mres :=
  match r with
  | MOk m ts =>
      match ts with
      | TComma :: r' | TSemi :: r' => MOk m r'
      | TBad :: _ => MErr PLex m
      | _ => MOk m ts
      end
  | _ => r
  end.

(** parse_field (mod.rs:72-142) *)
Definition parse_field (t : tables) (pv : kind -> list tok -> pr value) (m : dynmsg)
  (ts : list tok) : mres :=
  mbind m (field_name ts) (fun nm r =>
    mbind m (field_sep r) (fun _ r1 =>
      field_end
        match nm with
        | FIdent s =>
            match find_field t (dm_desc m) s with
            | Some f => field_value_in t pv m f r1
            | None => MErr PFieldNotFound m
            end
        | FExt s =>
            match get_ext_by_full t (dm_desc m) s with
            | Some f => field_value_in t pv m f r1
            | None => MErr PExtNotFound m
            end
        | FAny domain name => any_in t pv m domain name r1
        end)).

(** the loop of parse_message_value (mod.rs:60-70) *)
Definition tok_is_close (angle : bool) (k : tok) : bool :=
  match k with TRBrace => negb angle | TRAngle => angle | _ => false end.
Fixpoint message_loop (n : nat) (pf : dynmsg -> list tok -> mres) (angle : bool) (m : dynmsg)
  (ts : list tok) : mres :=
  match n with
  | O => MFuel
  | S n' =>
      match ts with
      | TIdent _ :: _ | TLBrack :: _ =>
          match pf m ts with
          | MOk m' ts' => message_loop n' pf angle m' ts'
          | r => r
          end
      | k :: r => if tok_is_close angle k then MOk m r else unexpected_in m ts
      | [] => unexpected_in m ts
      end
  end.
(** parse_message_value (mod.rs:49-70) *)
Definition message_value (pf : dynmsg -> list tok -> mres) (m : dynmsg) (ts : list tok) : mres :=
  match ts with
  | TLBrace :: r => message_loop (S (length r)) pf false m r
  | TLAngle :: r => message_loop (S (length r)) pf true m r
  | _ => unexpected_in m ts
  end.

(** parse_value (mod.rs:272-321); [n] bounds the nesting of messages *)
Fixpoint parse_value (t : tables) (n : nat) (k : kind) (ts : list tok) : pr value :=
  match kind_msg k with
  | None => parse_scalar t k ts
  | Some i =>
      match n with
      | O => PFuel
      | S n' =>
          match message_value (parse_field t (parse_value t n')) (new_msg i) ts with
          | MOk m r => POk (VMessage m) r
          | MErr e _ => PErr e
          | MPanic => PPanic
          | MFuel => PFuel
          end
      end
  end.

(** parse_message (mod.rs:42-47) *)
Fixpoint fields_loop (n : nat) (pf : dynmsg -> list tok -> mres) (m : dynmsg) (ts : list tok) : mres :=
  match n with
  | O => MFuel
  | S n' =>
      match ts with
      | [] => MOk m []
      | TBad :: _ => MErr PLex m
      | _ => match pf m ts with
             | MOk m' ts' => fields_loop n' pf m' ts'
             | r => r
             end
      end
  end.

(** DynamicMessage::merge_text_format (text_format/mod.rs:63-70): the result,
    and the message afterwards *)
Definition merge_tokens (t : tables) (m : dynmsg) (ts : list tok) : mres :=
  fields_loop (S (length ts)) (parse_field t (parse_value t (length ts))) m ts.
Definition merge_text (t : tables) (m : dynmsg) (s : bytes) : mres :=
  match lex s with
  | Ok ts => merge_tokens t m ts
  | Panic => MPanic
  | Err _ | Fuel => MFuel
  end.
(** DynamicMessage::parse_text_format (text_format/mod.rs:42-46): the message
    only on success *)
Definition parse_text (t : tables) (d : nat) (s : bytes) : mres := merge_text t (new_msg d) s.
