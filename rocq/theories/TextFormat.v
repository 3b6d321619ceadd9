(** Printing dynamic messages in the text format:
    prost-reflect/src/dynamic/text_format/format.rs, fmt_string of
    dynamic/mod.rs:1104-1121 and get_type_url_message_name of
    dynamic/mod.rs:1188-1194. *)
From Coq Require Import String.
From Verif Require Import Base Wire Unknown Value Descr Fields Codec Float.
Open Scope N_scope.

(** FormatOptions (text_format/mod.rs:17-24) *)
Record topt := TOpt {
  o_pretty : bool;
  o_skip_unknown : bool;
  o_expand_any : bool;
  o_skip_default : bool;
  o_index_order : bool
}.
(** FormatOptions::default (text_format/mod.rs:219-229) *)
Definition topt_default : topt := TOpt false true true true false.

(** What the printer takes from outside the crate: slice::binary_search_by on
    the (number, index) pairs of an enum, and the Display of floats, that is
    the text of [{:.1}] when the fraction is zero and of [{}] otherwise
    (format.rs:66-79). *)
Record text_externs := TextExterns {
  tx_search : list (Z * nat) -> Z -> option nat;
  tx_show32 : N -> bytes;
  tx_show64 : N -> bytes
}.

(** ** Numbers and strings *)

(** Display of unsigned integers; [n] bounds the number of digits *)
Fixpoint show_digits (n : nat) (x : N) : bytes :=
  match n with
  | O => []
  | S n' => if x <? 10 then [48 + x] else show_digits n' (x / 10) ++ [48 + x mod 10]
  end.
Definition show_N (x : N) : bytes := show_digits (S (N.size_nat x)) x.
(** Display of signed integers *)
Definition show_Z (z : Z) : bytes :=
  if (z <? 0)%Z then 45 :: show_N (Z.to_N (- z)) else show_N (Z.to_N z).

(** one byte of fmt_string (dynamic/mod.rs:1106-1119) *)
Definition fmt_char (c : N) : bytes :=
  match c with
  | 9 => [92; 116]
  | 13 => [92; 114]
  | 10 => [92; 110]
  | 92 => [92; 92]
  | 39 => [92; 39]
  | 34 => [92; 34]
  | _ => if (32 <=? c) && (c <=? 126) then [c]
         else [92; 48 + c / 64; 48 + (c / 8) mod 8; 48 + c mod 8]
  end.
(** fmt_string (dynamic/mod.rs:1104-1121) *)
Definition fmt_string (s : bytes) : bytes := 34 :: flat_map fmt_char s ++ [34].

(** [{:08x}], [{:016x}] *)
Definition hex_char (d : N) : N := if d <? 10 then 48 + d else 87 + d.
Fixpoint show_hex (n : nat) (x : N) : bytes :=
  match n with
  | O => []
  | S n' => show_hex n' (x / 16) ++ [hex_char (x mod 16)]
  end.
(** u32::from_le_bytes, u64::from_le_bytes *)
Definition le_value (bs : bytes) : N := fold_right (fun b a => b + 256 * a) 0 bs.

(** ** Layout *)
Section Print.
  Variable (E : text_externs) (t : tables) (o : topt).

  (** fmt_newline, fmt_padding (format.rs:287-301) *)
  Definition newline (ind : nat) : bytes := 10 :: repeat 32 ind.
  Definition padding : bytes := if o_pretty o then [32] else [].
  (** the separator of fmt_delimited (format.rs:250-268) *)
  Definition separator (ind : nat) : bytes := if o_pretty o then newline ind else [44].

  (** fmt_delimited and the inside of fmt_list (format.rs:250-285) *)
  Fixpoint rjoin (sep : bytes) (l : list (res bytes)) : res bytes :=
    match l with
    | [] => Ok []
    | [a] => a
    | a :: r => let! x := a in let! y := rjoin sep r in Ok (x ++ sep ++ y)
    end.

  (** braces around a body (format.rs:104-116, 236-246) *)
  Definition braces (ind : nat) (body : nat -> res bytes) : res bytes :=
    if o_pretty o then
      let! b := body (2 + ind)%nat in
      Ok (123 :: newline (2 + ind) ++ b ++ newline ind ++ [125])
    else
      let! b := body ind in Ok (123 :: b ++ [125]).

  (** ** Unknown fields *)

  (** UnknownFieldSet::decode (unknown.rs:247-273) *)
  Definition ufs_decode (b : bytes) : dres (list ufield) :=
    stream_loop (length b)
      (fun us n w b =>
         match uf_decode_value ctx0 n w b with
         | Ok (u, r) => DOk (us ++ [u]) r
         | Err e => DErr e us
         | Panic => DPanic
         | Fuel => DFuel
         end) [] b.

  (** fmt_unknown_field, fmt_unknown_field_set (format.rs:185-248); [n] bounds
      the nesting *)
  Fixpoint fmt_unknown (n : nat) (ind : nat) (u : ufield) : res bytes :=
    match n with
    | O => Fuel
    | S n' =>
        let set us := match us with
                      | [] => Ok [123; 125]
                      | _ => braces ind (fun i => rjoin (separator i) (map (fmt_unknown n' i) us))
                      end in
        let! r :=
          match u with
          | UVarint _ v => Ok (58 :: padding ++ show_N v)
          | U32 _ bs => Ok (58 :: padding ++ 48 :: 120 :: show_hex 8 (le_value bs))
          | U64 _ bs => Ok (58 :: padding ++ 48 :: 120 :: show_hex 16 (le_value bs))
          | ULen _ bs =>
              let str := Ok (58 :: padding ++ fmt_string bs) in
              match bs with
              | [] => str
              | _ => match ufs_decode bs with
                     | DOk us _ => let! b := set us in Ok (padding ++ b)
                     | DErr _ _ => str
                     | DPanic => Panic
                     | DFuel => Fuel
                     end
              end
          | UGroup _ us => let! b := set us in Ok (padding ++ b)
          end in
        Ok (show_N (uf_number u) ++ r)
    end.
  (** enough for the nesting of groups and of length-delimited records *)
  Definition unknown_fuel (us : list ufield) : nat := S (S (length (ufs_encode us))).

  (** ** Values *)

  (** EnumDescriptor::get_value(number).name() (descriptor/api.rs:1481-1489) *)
  Definition enum_name (e : nat) (z : Z) : option str :=
    match nth_error (t_enums t) e with
    | None => None
    | Some en =>
        match tx_search E (e_numbers en) z with
        | None => None
        | Some i =>
            match nth_error (e_numbers en) i with
            | None => None
            | Some (_, j) => option_map (fun v => id_name (ev_id v)) (nth_error (e_values en) j)
            end
        end
    end.

  Definition show_bool (b : bool) : bytes := if b then s2b "true" else s2b "false".

  (** The scalar arms of fmt_value (format.rs:60-93); [None] for the others *)
  Definition fmt_scalar (v : value) (k : option kind) : option bytes :=
    match v with
    | VBool b => Some (show_bool b)
    | VI32 z | VI64 z => Some (show_Z z)
    | VU32 n | VU64 n => Some (show_N n)
    | VF32 b => Some (tx_show32 E b)
    | VF64 b => Some (tx_show64 E b)
    | VString s | VBytes s => Some (fmt_string s)
    | VEnum z =>
        match k with
        | Some (KEnum e) => match enum_name e z with Some nm => Some nm | None => Some (show_Z z) end
        | _ => Some (show_Z z)
        end
    | VMessage _ | VList _ | VMap _ => None
    end.

  (** fmt_map_key (format.rs:152-161) *)
  Definition fmt_map_key (k : mapkey) : bytes :=
    match k with
    | MKBool b => show_bool b
    | MKI32 z | MKI64 z => show_Z z
    | MKU32 n | MKU64 n => show_N n
    | MKString s => fmt_string s
    end.

  (** fmt_field_value (format.rs:177-183), given the text of the value *)
  Definition field_value (v : value) (b : res bytes) : res bytes :=
    let! x := b in
    Ok (match v with VMessage _ => [] | _ => [58] end ++ padding ++ x).

  (** The name of a declared field: the type name for groups, with the panic of
      as_message().unwrap() excluded by the kind (format.rs:165-170) *)
  Definition print_name (f : fdl) : str :=
    match fd_kind f with
    | KGroup i => match nth_error (t_messages t) i with
                  | Some m => id_name (m_id m)
                  | None => []
                  end
    | _ => fd_name f
    end.

  (** Values printed with their closure, see Codec.annotate *)
  Definition closure : Type := value * (nat -> option kind -> res bytes).

  (** fmt_message_field (format.rs:163-180) *)
  Definition fmt_item (ind : nat) (it : item closure) : res bytes :=
    match it with
    | IField f vc =>
        let! b := field_value (fst vc) (snd vc ind (Some (fd_kind f))) in
        Ok (print_name f ++ b)
    | IExt f vc =>
        let! b := field_value (fst vc) (snd vc ind (Some (fd_kind f))) in
        Ok (91 :: fd_full f ++ 93 :: b)
    | IUnk us => rjoin (separator ind) (map (fmt_unknown (unknown_fuel us) ind) us)
    end.

  Definition is_unk {V} (it : item V) : bool := match it with IUnk _ => true | _ => false end.

  (** the plain part of fmt_message (format.rs:43-59) *)
  Definition fmt_items (ind : nat) (its : list (item closure)) : res bytes :=
    rjoin (separator ind)
      (map (fmt_item ind) (if o_skip_unknown o then filter (fun it => negb (is_unk it)) its else its)).

  (** The default value of a field without presence, printed when
      skip_default_fields is off: a scalar, an empty list or an empty map.  The
      builder gives every message-typed singular field presence, so a message
      never comes here ([Panic] stands for that case). *)
  Definition fmt_default (v : value) (k : option kind) : res bytes :=
    match fmt_scalar v k with
    | Some b => Ok b
    | None => match v with VMessage _ => Panic | _ => Ok [91; 93] end
    end.
  Definition closure_default (f : fdl) : closure :=
    (fd_default_value t f, fun _ k => fmt_default (fd_default_value t f) k).

  (** the kind of the values of a map (format.rs:121-123), with the panic of
      map_entry_value_field *)
  Definition map_value_kind (k : option kind) : res (option kind) :=
    match k with
    | Some k' =>
        match kind_msg k' with
        | Some e => match entry_value t e with Some vf => Ok (Some (fd_kind vf)) | None => Panic end
        | None => Ok None
        end
    | None => Ok None
    end.

  (** fmt_value (format.rs:61-150).  [any ind m] is the expanded form of a
      message that is an Any which expands, [None] for other messages. *)
  Fixpoint fmt_value (any : nat -> dynmsg -> option (res bytes)) (v : value) (ind : nat)
    (k : option kind) {struct v} : res bytes :=
    match v with
    | VMessage (DM d fs) =>
        let its := fs_iter_gen t fst closure_default d (negb (o_skip_default o)) (o_index_order o)
                     (map (fun kv =>
                        (fst kv, match snd kv with
                                 | SVal v' => SVal (v', fun i k' => fmt_value any v' i k')
                                 | Taken => Taken
                                 | SUnk us => SUnk us
                                 end)) fs) in
        if forallb (fun it => o_skip_unknown o && is_unk it) its then Ok [123; 125]
        else braces ind (fun i =>
               match any i (DM d fs) with
               | Some r => r
               | None => fmt_items i its
               end)
    | VList vs =>
        let! b := rjoin (44 :: padding) (map (fun x => fmt_value any x ind k) vs) in
        Ok (91 :: b ++ [93])
    | VMap kvs =>
        let! vk := map_value_kind k in
        let! b := rjoin (44 :: padding)
          (map (fun kv =>
             if o_pretty o then
               let! x := field_value (snd kv) (fmt_value any (snd kv) (2 + ind)%nat vk) in
               Ok (123 :: newline (2 + ind) ++ s2b "key: " ++ fmt_map_key (fst kv)
                   ++ newline (2 + ind) ++ s2b "value" ++ x ++ newline ind ++ [125])
             else
               let! x := field_value (snd kv) (fmt_value any (snd kv) ind vk) in
               Ok (s2b "{key:" ++ fmt_map_key (fst kv) ++ s2b ",value" ++ x ++ [125])) kvs) in
        Ok (91 :: b ++ [93])
    | _ => match fmt_scalar v k with Some b => Ok b | None => Panic end
    end.

  Definition close_slot (any : nat -> dynmsg -> option (res bytes)) (kv : N * slot value)
    : N * slot closure :=
    (fst kv, match snd kv with
             | SVal v' => SVal (v', fun i k' => fmt_value any v' i k')
             | Taken => Taken
             | SUnk us => SUnk us
             end).
  (** fmt_message (format.rs:32-59) *)
  Definition fmt_message (any : nat -> dynmsg -> option (res bytes)) (ind : nat) (m : dynmsg)
    : res bytes :=
    match any ind m with
    | Some r => r
    | None =>
        fmt_items ind (fs_iter_gen t fst closure_default (dm_desc m) (negb (o_skip_default o))
                         (o_index_order o) (map (close_slot any) (dm_fields m)))
    end.
End Print.

(** ** Any *)

Definition any_name : str := s2b "google.protobuf.Any".
(** prost_types::Any: string type_url = 1; bytes value = 2.  Its generated
    decoder is modelled by the dynamic one on this message type. *)
Definition any_field (name json : string) (num : N) (k : kind) : field_inner :=
  FieldI (Ident 0 [] (s2b name) 0) num (s2b json) k None false false Optional None.
Definition any_tables : tables := Tables
  [ MessageI (Ident 0 [] any_name 16) None []
      [any_field "type_url" "typeUrl" 1 KString; any_field "value" "value" 2 KBytes]
      [(1, 0%nat); (2, 1%nat)] [(s2b "type_url", 0%nat); (s2b "value", 1%nat)]
      [(s2b "typeUrl", 0%nat); (s2b "value", 1%nat)] [] false ] [] [].

(** full_name of a message descriptor *)
Definition full_name (t : tables) (d : nat) : str :=
  match nth_error (t_messages t) d with Some m => id_full (m_id m) | None => [] end.

(** DescriptorPool::get_message_by_name (descriptor/api.rs:322-331) on the
    tables: full names are unique in a pool (C20), so the first message with
    that name is the one the name table holds. *)
Fixpoint find_msg_from (i : nat) (l : list message_inner) (name : str) : option nat :=
  match l with
  | [] => None
  | m :: r => if bytes_eqb (id_full (m_id m)) name then Some i else find_msg_from (S i) r name
  end.
Definition find_msg (t : tables) (name : str) : option nat := find_msg_from 0 (t_messages t) name.

(** str::rsplit_once('/') *)
Fixpoint rsplit_slash (s : str) : option (str * str) :=
  match s with
  | [] => None
  | c :: r =>
      match rsplit_slash r with
      | Some (a, b) => Some (c :: a, b)
      | None => if c =? 47 then Some ([], r) else None
      end
  end.
(** get_type_url_message_name (dynamic/mod.rs:1188-1194) *)
Definition type_url_name (url : str) : option str := option_map snd (rsplit_slash url).

Definition val_bytes (v : value) : bytes :=
  match v with VString s | VBytes s => s | _ => [] end.

(** as_any (format.rs:304-317) *)
Definition as_any (t : tables) (m : dynmsg) : res (option (str * dynmsg)) :=
  if negb (bytes_eqb (full_name t (dm_desc m)) any_name) then Ok None
  else
    let! b := enc_msg t m in
    match msg_decode any_tables 0 b with
    | Ok a =>
        let get n := match get_field_by_number any_tables a n with Some v => val_bytes v | None => [] end in
        match type_url_name (get 1) with
        | None => Ok None
        | Some name =>
            match find_msg t name with
            | None => Ok None
            | Some d =>
                match msg_decode t d (get 2) with
                | Ok body => Ok (Some (get 1, body))
                | Err _ => Ok None
                | Panic => Panic
                | Fuel => Fuel
                end
            end
        end
    | Err _ => Ok None
    | Panic => Panic
    | Fuel => Fuel
    end.

(** The expanding branch of fmt_message (format.rs:34-41); [n] bounds how deep
    Any messages are nested in the values of others. *)
Fixpoint fmt_any (E : text_externs) (t : tables) (o : topt) (n : nat) (ind : nat) (m : dynmsg)
  : option (res bytes) :=
  if negb (o_expand_any o) || negb (bytes_eqb (full_name t (dm_desc m)) any_name) then None
  else
    match n with
    | O => Some Fuel
    | S n' =>
        match as_any t m with
        | Ok None => None
        | Ok (Some (url, body)) =>
            Some (let! b := field_value o (VMessage body)
                              (fmt_value E t o (fmt_any E t o n') (VMessage body) ind None) in
                  Ok (91 :: url ++ 93 :: b))
        | Err _ => None
        | Panic => Some Panic
        | Fuel => Some Fuel
        end
    end.

(** DynamicMessage::to_text_format_with_options (text_format/mod.rs:106-112) *)
Definition to_text (E : text_externs) (t : tables) (o : topt) (n : nat) (m : dynmsg) : res bytes :=
  fmt_message E t o (fmt_any E t o n) 0 m.
