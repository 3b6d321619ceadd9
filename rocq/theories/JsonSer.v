(** Serializing dynamic messages as JSON:
    prost-reflect/src/dynamic/serde/ser/{mod,wkt}.rs. *)
From Coq Require Import String.
From Verif Require Import Base Wire Unknown Value Descr Fields Codec Float TextFormat Json.
Open Scope list_scope.
Open Scope N_scope.

(** ** The well-known types *)

(** The prost_types messages and the wrapper impls of prost, as descriptors of
    their own: transcode_to and make_message go through their encoding.  Typed
    decoding and encoding is modelled by the dynamic one on these tables
    (unknown fields are then not looked at). *)
Definition wkt_field (name : string) (num : N) (k : kind) (c : card) (o : option nat) : field_inner :=
  FieldI (Ident 0 [] (s2b name) 0) num (s2b name) k o
    (match c with Repeated => is_packable k | _ => false end)
    (match o with Some _ => true | None => match k with KMessage _ => negb (card_eqb c Repeated) | _ => false end end) c None.
Definition wkt_msg (name : string) (fs : list field_inner) (os : list oneof_inner) (entry : bool) : message_inner :=
  MessageI (Ident 0 [] (s2b name) 16) None [] fs
    (combine (map f_number fs) (seq 0 (length fs))) (combine (map f_json fs) (seq 0 (length fs)))
    (combine (map f_json fs) (seq 0 (length fs))) os entry.
Definition wkt_tables : tables := Tables
  [ wkt_msg "google.protobuf.Any" [wkt_field "type_url" 1 KString Optional None; wkt_field "value" 2 KBytes Optional None] [] false;
    wkt_msg "google.protobuf.Timestamp" [wkt_field "seconds" 1 KInt64 Optional None; wkt_field "nanos" 2 KInt32 Optional None] [] false;
    wkt_msg "google.protobuf.Duration" [wkt_field "seconds" 1 KInt64 Optional None; wkt_field "nanos" 2 KInt32 Optional None] [] false;
    wkt_msg "google.protobuf.Struct" [wkt_field "fields" 1 (KMessage 4) Repeated None] [] false;
    wkt_msg "google.protobuf.Struct.FieldsEntry" [wkt_field "key" 1 KString Optional None; wkt_field "value" 2 (KMessage 5) Optional None] [] true;
    wkt_msg "google.protobuf.Value"
      [wkt_field "null_value" 1 (KEnum 0) Optional (Some 0%nat); wkt_field "number_value" 2 KDouble Optional (Some 0%nat);
       wkt_field "string_value" 3 KString Optional (Some 0%nat); wkt_field "bool_value" 4 KBool Optional (Some 0%nat);
       wkt_field "struct_value" 5 (KMessage 3) Optional (Some 0%nat); wkt_field "list_value" 6 (KMessage 6) Optional (Some 0%nat)]
      [OneofI (Ident 0 [] (s2b "kind") 0) [0; 1; 2; 3; 4; 5]%nat] false;
    wkt_msg "google.protobuf.ListValue" [wkt_field "values" 1 (KMessage 5) Repeated None] [] false;
    wkt_msg "google.protobuf.FieldMask" [wkt_field "paths" 1 KString Repeated None] [] false;
    wkt_msg "google.protobuf.FloatValue" [wkt_field "value" 1 KFloat Optional None] [] false;
    wkt_msg "google.protobuf.DoubleValue" [wkt_field "value" 1 KDouble Optional None] [] false;
    wkt_msg "google.protobuf.Int32Value" [wkt_field "value" 1 KInt32 Optional None] [] false;
    wkt_msg "google.protobuf.Int64Value" [wkt_field "value" 1 KInt64 Optional None] [] false;
    wkt_msg "google.protobuf.UInt32Value" [wkt_field "value" 1 KUint32 Optional None] [] false;
    wkt_msg "google.protobuf.UInt64Value" [wkt_field "value" 1 KUint64 Optional None] [] false;
    wkt_msg "google.protobuf.BoolValue" [wkt_field "value" 1 KBool Optional None] [] false;
    wkt_msg "google.protobuf.StringValue" [wkt_field "value" 1 KString Optional None] [] false;
    wkt_msg "google.protobuf.BytesValue" [wkt_field "value" 1 KBytes Optional None] [] false;
    wkt_msg "google.protobuf.Empty" [] [] false ]
  [ EnumI (Ident 0 [] (s2b "google.protobuf.NullValue") 16) None
      [EnumValueI (Ident 0 [] (s2b "google.protobuf.NULL_VALUE") 16) 0] [(0%Z, 0%nat)] [(s2b "NULL_VALUE", 0%nat)] false ] [].

(** the messages with a mapping of their own *)
Inductive wkt :=
| WAny | WTimestamp | WDuration | WStruct | WValue | WList | WMask | WEmpty | WWrap (d : nat).
(** is_well_known_type (serde/mod.rs:265-286), get_well_known_type_serializer
    (ser/wkt.rs:23-50), deserialize_message (de/mod.rs:14-76) *)
Definition is_name (name : str) (s : string) : bool := bytes_eqb name (s2b s).
Definition wkt_named (name : str) : option wkt :=
  if is_name name "google.protobuf.Any" then Some WAny
  else if is_name name "google.protobuf.Timestamp" then Some WTimestamp
  else if is_name name "google.protobuf.Duration" then Some WDuration
  else if is_name name "google.protobuf.Struct" then Some WStruct
  else if is_name name "google.protobuf.FloatValue" then Some (WWrap 8)
  else if is_name name "google.protobuf.DoubleValue" then Some (WWrap 9)
  else if is_name name "google.protobuf.Int32Value" then Some (WWrap 10)
  else if is_name name "google.protobuf.Int64Value" then Some (WWrap 11)
  else if is_name name "google.protobuf.UInt32Value" then Some (WWrap 12)
  else if is_name name "google.protobuf.UInt64Value" then Some (WWrap 13)
  else if is_name name "google.protobuf.BoolValue" then Some (WWrap 14)
  else if is_name name "google.protobuf.StringValue" then Some (WWrap 15)
  else if is_name name "google.protobuf.BytesValue" then Some (WWrap 16)
  else if is_name name "google.protobuf.FieldMask" then Some WMask
  else if is_name name "google.protobuf.ListValue" then Some WList
  else if is_name name "google.protobuf.Value" then Some WValue
  else if is_name name "google.protobuf.Empty" then Some WEmpty
  else None.
(** the typed message in [wkt_tables] *)
Definition wkt_desc (w : wkt) : nat :=
  match w with
  | WAny => 0 | WTimestamp => 1 | WDuration => 2 | WStruct => 3 | WValue => 5 | WList => 6
  | WMask => 7 | WEmpty => 17 | WWrap d => d
  end%nat.
Definition wkt_of (t : tables) (d : nat) : option wkt := wkt_named (full_name t d).
Definition enum_full (t : tables) (e : nat) : str :=
  match nth_error (t_enums t) e with Some en => id_full (e_id en) | None => [] end.
Definition is_null_enum (t : tables) (e : nat) : bool :=
  bytes_eqb (enum_full t e) (s2b "google.protobuf.NullValue").

(** transcode_to (dynamic/mod.rs:576-582) into a typed message *)
Definition transcode_to (t : tables) (m : dynmsg) (w : nat) : jres dynmsg :=
  let* b := jdec (enc_msg t m) in jdec (msg_decode wkt_tables w b).

(** the fields of a typed message *)
Definition typed_get (x : dynmsg) (n : N) : value :=
  match get_field_by_number wkt_tables x n with Some v => v | None => VBool false end.
Definition as_Z (v : value) : Z :=
  match v with VI32 z | VI64 z | VEnum z => z | VU32 n | VU64 n => Z.of_N n | _ => 0%Z end.
Definition as_list (v : value) : list value := match v with VList l => l | _ => [] end.
Definition as_map (v : value) : list (mapkey * value) := match v with VMap l => l | _ => [] end.

(** a BTreeMap<String, _>: sorted by key, the last of equal keys *)
Fixpoint bytes_cmp (a b : bytes) : comparison :=
  match a, b with
  | [], [] => Eq
  | [], _ => Lt
  | _, [] => Gt
  | x :: a', y :: b' => match x ?= y with Eq => bytes_cmp a' b' | c => c end
  end.
Fixpoint sorted_insert {A} (k : str) (v : A) (l : list (str * A)) : list (str * A) :=
  match l with
  | [] => [(k, v)]
  | (k', v') :: r =>
      match bytes_cmp k k' with
      | Lt => (k, v) :: l
      | Eq => (k, v) :: r
      | Gt => (k', v') :: sorted_insert k v r
      end
  end.
Definition sort_members {A} (l : list (str * A)) : list (str * A) :=
  fold_left (fun acc kv => sorted_insert (fst kv) (snd kv) acc) l [].

(** ** Scalars *)
Section Ser.
  Variable (E : json_externs) (t : tables) (o : jopt).

  (** EnumDescriptor::get_value(number).name() *)
  Definition json_enum_name (e : nat) (z : Z) : option str :=
    enum_name (TextExterns (jx_search E) (fun _ => []) (fun _ => [])) t e z.

  Definition float_name (nan inf_pos : bool) : json :=
    JStr (if nan then s2b "NaN" else if inf_pos then s2b "Infinity" else s2b "-Infinity").
  (** serialize_f32, serialize_f64 of SerializeWrapper<ValueAndKind>
      (ser/mod.rs:120-143) *)
  Definition ser_f32 (b : N) : json :=
    if f32_finite b then JF32 b else float_name (inf32 <? b mod sign32) (b <? sign32).
  Definition ser_f64 (b : N) : json :=
    if f64_finite b then JF64 b else float_name (f64_nan b) (b <? sign64).
  Definition ser_i64 (z : Z) : json := if j_stringify o then JStr (show_Z z) else JInt z.
  Definition ser_u64 (n : N) : json := if j_stringify o then JStr (show_N n) else JInt (Z.of_N n).
  (** the scalar arms of SerializeWrapper<ValueAndKind>::serialize
      (ser/mod.rs:102-168); [None] for the others *)
  Definition ser_scalar (v : value) (k : kind) : option (jres json) :=
    match v with
    | VBool b => Some (JOk (JBool b))
    | VI32 z => Some (JOk (JInt z))
    | VI64 z => Some (JOk (ser_i64 z))
    | VU32 n => Some (JOk (JInt (Z.of_N n)))
    | VU64 n => Some (JOk (ser_u64 n))
    | VF32 b => Some (JOk (ser_f32 b))
    | VF64 b => Some (JOk (ser_f64 b))
    | VString s => Some (JOk (JStr s))
    | VBytes s => Some (JOk (JStr (b64_encode false true s)))
    | VEnum z =>
        Some match k with
             | KEnum e =>
                 JOk (if is_null_enum t e then JNull
                      else if j_enum_numbers o then JInt z
                      else match json_enum_name e z with Some nm => JStr nm | None => JInt z end)
             | _ => JPanic
             end
    | VMessage _ | VList _ | VMap _ => None
    end.
  (** SerializeWrapper<MapKey>::serialize (ser/mod.rs:214-228) *)
  Definition ser_key (k : mapkey) : str :=
    match k with
    | MKBool b => show_bool b
    | MKI32 z | MKI64 z => show_Z z
    | MKU32 n | MKU64 n => show_N n
    | MKString s => s
    end.

  (** ** Well-known types *)

  (** serialize_value_inner, serialize_struct_inner, serialize_list_inner
      (ser/wkt.rs:338-396), on a typed Value *)
  Fixpoint ser_wvalue (v : value) : jres json :=
    match v with
    | VMessage (DM d fs) =>
        (fix pick (fs : list (N * slot value)) : jres json :=
           match fs with
           | [] => JOk JNull
           | (n, SVal x) :: r =>
               match n, x with
               | 1, _ => JOk JNull
               | 2, VF64 b => if f64_finite b then JOk (JF64 b) else JErr XNonFinite
               | 3, VString s => JOk (JStr s)
               | 4, VBool b => JOk (JBool b)
               | 5, VMessage (DM _ fs') =>
                   (fix go (l : list (N * slot value)) : jres json :=
                      match l with
                      | (1, SVal (VMap kvs)) :: _ =>
                          let* ms := jall (map (fun kv => let* j := ser_wvalue (snd kv) in
                                                          JOk (ser_key (fst kv), j)) kvs) in
                          JOk (JObj (sort_members ms))
                      | _ :: r' => go r'
                      | [] => JOk (JObj [])
                      end) fs'
               | 6, VMessage (DM _ fs') =>
                   (fix go (l : list (N * slot value)) : jres json :=
                      match l with
                      | (1, SVal (VList vs)) :: _ =>
                          let* js := jall (map ser_wvalue vs) in JOk (JArr js)
                      | _ :: r' => go r'
                      | [] => JOk (JArr [])
                      end) fs'
               | _, _ => pick r
               end
           | _ :: r => pick r
           end) fs
    | _ => JOk JNull
    end.
  Definition ser_struct (x : dynmsg) : jres json := ser_wvalue (VMessage (DM 5 [(5, SVal (VMessage x))])).
  Definition ser_list (x : dynmsg) : jres json := ser_wvalue (VMessage (DM 5 [(6, SVal (VMessage x))])).

  (** serialize_float .. serialize_bytes (ser/wkt.rs:124-247): the wrappers use
      serialize_f32 and serialize_f64 also for numbers that are not finite *)
  Definition ser_wrapped (v : value) : jres json :=
    match v with
    | VF32 b => JOk (JF32 b)
    | VF64 b => JOk (JF64 b)
    | _ => match ser_scalar v KBool with Some r => r | None => JPanic end
    end.

  Definition mask_paths (x : dynmsg) : list str := map val_bytes (as_list (typed_get x 1)).

  (** the functions of get_well_known_type_serializer, with [any] for
      serialize_any *)
  Definition ser_wkt (any : dynmsg -> jres json) (w : wkt) (m : dynmsg) : jres json :=
    match w with
    | WAny => any m
    | WEmpty => JOk (JObj [])
    | _ =>
        let* x := transcode_to t m (wkt_desc w) in
        match w with
        | WTimestamp =>
            let s := as_Z (typed_get x 1) in
            if check_timestamp s then JOk (JStr (jx_show_timestamp E s (as_Z (typed_get x 2)))) else JErr XTimestamp
        | WDuration =>
            let s := as_Z (typed_get x 1) in
            let n := as_Z (typed_get x 2) in
            if check_duration s n then JOk (JStr (jx_show_duration E s n)) else JErr XDuration
        | WStruct => ser_struct x
        | WList => ser_list x
        | WValue => ser_wvalue (VMessage x)
        | WMask => match mask_out [] (mask_paths x) with Some s => JOk (JStr s) | None => JErr XMask end
        | _ => ser_wrapped (typed_get x 1)
        end
    end.

  (** ** Messages *)
  Definition jclosure : Type := value * (kind -> jres json).

  (** the name of a field (ser/mod.rs:61-76) *)
  Definition item_name (ext : bool) (f : fdl) : str :=
    if ext then fd_json f else if j_proto_names o then fd_name f else fd_json f.
  (** serialize_dynamic_message_fields (ser/mod.rs:49-90) *)
  Fixpoint ser_items (its : list (item jclosure)) : jres (list (str * json)) :=
    match its with
    | [] => JOk []
    | IUnk _ :: r => ser_items r
    | IField f vc :: r =>
        let* j := snd vc (fd_kind f) in let* js := ser_items r in JOk ((item_name false f, j) :: js)
    | IExt f vc :: r =>
        let* j := snd vc (fd_kind f) in let* js := ser_items r in JOk ((item_name true f, j) :: js)
    end.

  (** the default of a field without presence: see TextFormat.fmt_default *)
  Definition ser_default (v : value) (k : kind) : jres json :=
    match ser_scalar v k with
    | Some r => r
    | None => match v with VMessage _ => JPanic | VMap _ => JOk (JObj []) | _ => JOk (JArr []) end
    end.
  Definition jclosure_default (f : fdl) : jclosure :=
    (fd_default_value t f, fun k => ser_default (fd_default_value t f) k).

  (** SerializeWrapper<DynamicMessage>::serialize and
      SerializeWrapper<ValueAndKind>::serialize (ser/mod.rs:33-47, 97-212) *)
  Fixpoint ser_value (any : dynmsg -> jres json) (v : value) (k : kind) {struct v} : jres json :=
    match v with
    | VMessage (DM d fs) =>
        match wkt_of t d with
        | Some w => ser_wkt any w (DM d fs)
        | None =>
            let* ms := ser_items
              (fs_iter_gen t fst jclosure_default d (negb (j_skip_default o)) false
                 (map (fun kv =>
                    (fst kv, match snd kv with
                             | SVal v' => SVal (v', fun k' => ser_value any v' k')
                             | Taken => Taken
                             | SUnk us => SUnk us
                             end)) fs)) in
            JOk (JObj ms)
        end
    | VList vs => let* js := jall (map (fun x => ser_value any x k) vs) in JOk (JArr js)
    | VMap kvs =>
        match kind_msg k with
        | Some e =>
            if is_map_entry t e then
              match entry_value t e with
              | Some vf =>
                  let* ms := jall (map (fun kv => let* j := ser_value any (snd kv) (fd_kind vf) in
                                                  JOk (ser_key (fst kv), j)) kvs) in
                  JOk (JObj ms)
              | None => JPanic
              end
            else JPanic
        | None => JPanic
        end
    | _ => match ser_scalar v k with Some r => r | None => JPanic end
    end.

  Definition jslot (any : dynmsg -> jres json) (kv : N * slot value) : N * slot jclosure :=
    (fst kv, match snd kv with
             | SVal v' => SVal (v', fun k' => ser_value any v' k')
             | Taken => Taken
             | SUnk us => SUnk us
             end).
  Definition ser_fields (any : dynmsg -> jres json) (m : dynmsg) : jres (list (str * json)) :=
    ser_items (fs_iter_gen t fst jclosure_default (dm_desc m) (negb (j_skip_default o)) false
                 (map (jslot any) (dm_fields m))).

  (** serialize_any (ser/wkt.rs:52-92); [n] bounds how deep Any messages are
      nested in the values of others *)
  Fixpoint ser_any (n : nat) (m : dynmsg) : jres json :=
    match n with
    | O => JFuel
    | S n' =>
        let* x := transcode_to t m 0 in
        let url := val_bytes (typed_get x 1) in
        match type_url_name url with
        | None => JErr XTypeUrl
        | Some name =>
            match find_msg t name with
            | None => JErr (XNoMessage name)
            | Some d =>
                let* body := jdec (msg_decode t d (val_bytes (typed_get x 2))) in
                match wkt_named name with
                | Some _ =>
                    let* j := ser_value (ser_any n') (VMessage body) (KMessage d) in
                    JOk (JObj [(s2b "@type", JStr url); (s2b "value", j)])
                | None =>
                    let* ms := ser_fields (ser_any n') body in
                    JOk (JObj ((s2b "@type", JStr url) :: ms))
                end
            end
        end
    end.

  (** serialize_message (ser/mod.rs:18-31) *)
  Definition to_json (n : nat) (m : dynmsg) : jres json :=
    ser_value (ser_any n) (VMessage m) (KMessage (dm_desc m)).
End Ser.

(** ** What is read is not quite what was written *)

(** serde_json writes a float that is not finite as null; others are read as
    f64 *)
Fixpoint carried (E : json_externs) (j : json) : json :=
  match j with
  | JF32 b => if f32_finite b then JF64 (jx_carry32 E b) else JNull
  | JF64 b => if f64_finite b then JF64 (jx_carry64 E b) else JNull
  | JArr l => JArr (map (carried E) l)
  | JObj l => JObj (map (fun kv => (fst kv, carried E (snd kv))) l)
  | _ => j
  end.
