(** Descriptors: the indexed tables of a DescriptorPool
    (prost-reflect/src/descriptor/mod.rs:82-320) and the lookups of
    descriptor/api.rs on them. *)
From Verif Require Import Base Wire Unknown Value.

(** Cardinality (descriptor/mod.rs:31-38) *)
Inductive card := Optional | Required | Repeated.
Definition card_eqb (a b : card) : bool :=
  match a, b with
  | Optional, Optional | Required, Required | Repeated, Repeated => true
  | _, _ => false
  end.

(** Syntax (descriptor/mod.rs:42-47) *)
Inductive syntax := Proto2 | Proto3.

(** KindIndex (descriptor/mod.rs:90-109); Kind is the same with [KGroup i]
    seen as [KMessage i] (api.rs:24-47). *)
Inductive kind :=
| KDouble | KFloat | KInt32 | KInt64 | KUint32 | KUint64 | KSint32 | KSint64
| KFixed32 | KFixed64 | KSfixed32 | KSfixed64 | KBool | KString | KBytes
| KMessage (i : nat) | KEnum (i : nat) | KGroup (i : nat).

(** KindIndex::is_packable (descriptor/mod.rs:346-368) *)
Definition is_packable (k : kind) : bool :=
  match k with
  | KString | KBytes | KMessage _ | KGroup _ => false
  | _ => true
  end.

(** Kind::wire_type (api.rs:97-112) *)
Definition kind_wt (k : kind) : wt :=
  match k with
  | KDouble | KFixed64 | KSfixed64 => W64
  | KFloat | KFixed32 | KSfixed32 => W32
  | KEnum _ | KInt32 | KInt64 | KUint32 | KUint64 | KSint32 | KSint64 | KBool => WVarint
  | KString | KBytes | KMessage _ | KGroup _ => WLen
  end.

(** Identity (descriptor/mod.rs:147-153) *)
Record ident := Ident { id_file : nat; id_path : list Z; id_full : str; id_ni : nat }.
(** Identity::name (descriptor/mod.rs:341-343) *)
Definition id_name (i : ident) : str := skipn (id_ni i) (id_full i).

(** FieldDescriptorInner (descriptor/mod.rs:228-239) *)
Record field_inner := FieldI {
  f_id : ident;
  f_number : N;
  f_json : str;
  f_kind : kind;
  f_oneof : option nat;
  f_packed : bool;
  f_presence : bool;
  f_card : card;
  f_default : option value
}.

(** OneofDescriptorInner (descriptor/mod.rs:215-219) *)
Record oneof_inner := OneofI { o_id : ident; o_fields : list nat }.

(** MessageDescriptorInner (descriptor/mod.rs:196-206).  [m_map_entry] caches
    MessageDescriptor::is_map_entry (api.rs:884-890), which reads the raw
    options of the message. *)
Record message_inner := MessageI {
  m_id : ident;
  m_parent : option nat;
  m_exts : list nat;
  m_fields : list field_inner;
  m_numbers : list (N * nat);
  m_names : list (str * nat);
  m_jsons : list (str * nat);
  m_oneofs : list oneof_inner;
  m_map_entry : bool
}.

(** ExtensionDescriptorInner (descriptor/mod.rs:248-259) *)
Record ext_inner := ExtI {
  x_id : ident;
  x_parent : option nat;
  x_number : N;
  x_json : str;
  x_extendee : nat;
  x_kind : kind;
  x_packed : bool;
  x_card : card;
  x_default : option value
}.

(** EnumValueDescriptorInner, EnumDescriptorInner (descriptor/mod.rs:268-289) *)
Record enum_value_inner := EnumValueI { ev_id : ident; ev_number : Z }.
Record enum_inner := EnumI {
  e_id : ident;
  e_parent : option nat;
  e_values : list enum_value_inner;
  e_numbers : list (Z * nat);
  e_names : list (str * nat);
  e_alias : bool
}.

(** The part of DescriptorPoolInner (descriptor/mod.rs:136-145) that descriptors
    and dynamic messages read.  The builder's pool (Build.v) contains it. *)
Record tables := Tables {
  t_messages : list message_inner;
  t_enums : list enum_inner;
  t_exts : list ext_inner
}.

(** ** Views of fields and extensions *)

(** What the FieldDescriptorLike trait (dynamic/fields.rs:17-35) exposes of a
    field or an extension.  [fd_oneof]: the numbers of the fields of the
    containing oneof. *)
Record fdl := Fdl {
  fd_number : N;
  fd_kind : kind;
  fd_card : card;
  fd_packed : bool;
  fd_presence : bool;
  fd_oneof : option (list N);
  fd_default : option value;
  fd_is_map : bool;
  fd_name : str;         (* text_name *)
  fd_json : str;
  fd_full : str
}.

(** MessageDescriptor::is_map_entry *)
Definition is_map_entry (t : tables) (d : nat) : bool :=
  match nth_error (t_messages t) d with
  | Some m => m_map_entry m
  | None => false
  end.

(** FieldDescriptor::is_map / ExtensionDescriptor::is_map (api.rs:1063-1069,
    1280-1286) *)
Definition is_map_kind (t : tables) (c : card) (k : kind) : bool :=
  card_eqb c Repeated &&
  match k with
  | KMessage i | KGroup i => is_map_entry t i
  | _ => false
  end.

(** numbers of the fields of oneof [o] (OneofDescriptor::fields, api.rs:1659-1664) *)
Definition oneof_numbers (m : message_inner) (o : nat) : list N :=
  match nth_error (m_oneofs m) o with
  | Some oi =>
      map (fun i => match nth_error (m_fields m) i with Some f => f_number f | None => 0 end)
          (o_fields oi)
  | None => []
  end.

(** FieldDescriptor as FieldDescriptorLike (dynamic/fields.rs:385-440) *)
Definition field_view (t : tables) (m : message_inner) (f : field_inner) : fdl :=
  {| fd_number := f_number f;
     fd_kind := f_kind f;
     fd_card := f_card f;
     fd_packed := f_packed f;
     fd_presence := f_presence f;
     fd_oneof := match f_oneof f with Some o => Some (oneof_numbers m o) | None => None end;
     fd_default := f_default f;
     fd_is_map := is_map_kind t (f_card f) (f_kind f);
     fd_name := id_name (f_id f);
     fd_json := f_json f;
     fd_full := id_full (f_id f) |}.

(** ExtensionDescriptor as FieldDescriptorLike (dynamic/fields.rs:442-497) *)
Definition ext_view (t : tables) (x : ext_inner) : fdl :=
  {| fd_number := x_number x;
     fd_kind := x_kind x;
     fd_card := x_card x;
     fd_packed := x_packed x;
     fd_presence := negb (card_eqb (x_card x) Repeated);
     fd_oneof := None;
     fd_default := x_default x;
     fd_is_map := is_map_kind t (x_card x) (x_kind x);
     fd_name := x_json x;
     fd_json := x_json x;
     fd_full := id_full (x_id x) |}.

(** is_list (api.rs:1052-1054, 1270-1272) *)
Definition fd_is_list (f : fdl) : bool := card_eqb (fd_card f) Repeated && negb (fd_is_map f).
(** is_group (api.rs:1044-1046) *)
Definition fd_is_group (f : fdl) : bool :=
  match fd_kind f with KGroup _ => true | _ => false end.
(** is_packable (api.rs:1136-1138) *)
Definition fd_is_packable (f : fdl) : bool := is_packable (fd_kind f).
(** is_required (api.rs:1079-1081) *)
Definition fd_is_required (f : fdl) : bool := card_eqb (fd_card f) Required.

(** fields[index] as a view; [None] stands for the out-of-bounds panic, which
    [tables_ok] rules out *)
Definition view_at (t : tables) (m : message_inner) (i : nat) : option fdl :=
  option_map (field_view t m) (nth_error (m_fields m) i).

Fixpoint filter_some {A} (l : list (option A)) : list A :=
  match l with
  | [] => []
  | Some a :: r => a :: filter_some r
  | None :: r => filter_some r
  end.

(** MessageDescriptor::fields: by number (api.rs:770-778) *)
Definition msg_fields (t : tables) (d : nat) : list fdl :=
  match nth_error (t_messages t) d with
  | Some m => filter_some (map (fun ni => view_at t m (snd ni)) (m_numbers m))
  | None => []
  end.

(** MessageDescriptor::fields_in_index_order (api.rs:780-791) *)
Definition msg_fields_index (t : tables) (d : nat) : list fdl :=
  match nth_error (t_messages t) d with
  | Some m => map (field_view t m) (m_fields m)
  | None => []
  end.

(** MessageDescriptor::get_field, get_field_by_name, get_field_by_json_name
    (api.rs:850-880) *)
Definition get_field (t : tables) (d : nat) (num : N) : option fdl :=
  match nth_error (t_messages t) d with
  | Some m => match bt_get num (m_numbers m) with Some i => view_at t m i | None => None end
  | None => None
  end.
Definition get_field_by_name (t : tables) (d : nat) (name : str) : option fdl :=
  match nth_error (t_messages t) d with
  | Some m => match assoc_s name (m_names m) with Some i => view_at t m i | None => None end
  | None => None
  end.
Definition get_field_by_json (t : tables) (d : nat) (name : str) : option fdl :=
  match nth_error (t_messages t) d with
  | Some m => match assoc_s name (m_jsons m) with Some i => view_at t m i | None => None end
  | None => None
  end.

(** MessageDescriptor::extensions (api.rs:838-847) *)
Definition msg_exts (t : tables) (d : nat) : list fdl :=
  match nth_error (t_messages t) d with
  | Some m => map (ext_view t) (filter_some (map (nth_error (t_exts t)) (m_exts m)))
  | None => []
  end.
(** get_extension, get_extension_by_full_name, get_extension_by_json_name
    (api.rs:948-960): the first that matches *)
Definition get_ext (t : tables) (d : nat) (num : N) : option fdl :=
  find (fun f => fd_number f =? num) (msg_exts t d).
Definition get_ext_by_full (t : tables) (d : nat) (name : str) : option fdl :=
  find (fun f => bytes_eqb (fd_full f) name) (msg_exts t d).
Definition get_ext_by_json (t : tables) (d : nat) (name : str) : option fdl :=
  find (fun f => bytes_eqb (fd_json f) name) (msg_exts t d).

(** A field or else an extension with that number *)
Definition find_desc (t : tables) (d : nat) (num : N) : option fdl :=
  match get_field t d num with Some f => Some f | None => get_ext t d num end.

(** EnumDescriptor::default_value().number() (api.rs:1459-1464): the first
    declared value.  An enum without values (rejected by the builder) would
    panic; here it gives 0. *)
Definition enum_default (t : tables) (e : nat) : Z :=
  match nth_error (t_enums t) e with
  | Some en => match e_values en with v :: _ => ev_number v | [] => 0%Z end
  | None => 0%Z
  end.

(** ** Default values *)

(** Kind::default_value (api.rs:118-132); DynamicMessage::new (dynamic/mod.rs:112-117) *)
Definition new_msg (d : nat) : dynmsg := DM d [].
Definition kind_default (t : tables) (k : kind) : value :=
  match k with
  | KMessage i | KGroup i => VMessage (new_msg i)
  | KEnum e => VEnum (enum_default t e)
  | KDouble => VF64 0
  | KFloat => VF32 0
  | KInt32 | KSint32 | KSfixed32 => VI32 0
  | KInt64 | KSint64 | KSfixed64 => VI64 0
  | KUint32 | KFixed32 => VU32 0
  | KUint64 | KFixed64 => VU64 0
  | KBool => VBool false
  | KString => VString []
  | KBytes => VBytes []
  end.

(** FieldDescriptor::default_value, ExtensionDescriptor::default_value
    (api.rs:1124-1134, 1322-1332) *)
Definition fd_default_value (t : tables) (f : fdl) : value :=
  if fd_is_list f then VList []
  else if fd_is_map f then VMap []
  else match fd_default f with
       | Some v => v
       | None => kind_default t (fd_kind f)
       end.

(** MapKey::default_value (dynamic/mod.rs:919-929); [None] is its panic *)
Definition mk_default (k : kind) : option mapkey :=
  match k with
  | KInt32 | KSint32 | KSfixed32 => Some (MKI32 0)
  | KInt64 | KSint64 | KSfixed64 => Some (MKI64 0)
  | KUint32 | KFixed32 => Some (MKU32 0)
  | KUint64 | KFixed64 => Some (MKU64 0)
  | KBool => Some (MKBool false)
  | KString => Some (MKString [])
  | _ => None
  end.

(** ** Validity of values *)

(** Value::is_valid (dynamic/mod.rs:676-692) *)
Definition is_valid (v : value) (k : kind) : bool :=
  match v, k with
  | VBool _, KBool => true
  | VI32 _, (KInt32 | KSint32 | KSfixed32) => true
  | VI64 _, (KInt64 | KSint64 | KSfixed64) => true
  | VU32 _, (KUint32 | KFixed32) => true
  | VU64 _, (KUint64 | KFixed64) => true
  | VF32 _, KFloat => true
  | VF64 _, KDouble => true
  | VString _, KString => true
  | VBytes _, KBytes => true
  | VEnum _, KEnum _ => true
  | VMessage _, (KMessage _ | KGroup _) => true
  | _, _ => false
  end.

(** MapKey::is_valid (dynamic/mod.rs:941-951) *)
Definition mk_valid (key : mapkey) (k : kind) : bool :=
  match key, k with
  | MKBool _, KBool => true
  | MKI32 _, (KInt32 | KSint32 | KSfixed32) => true
  | MKI64 _, (KInt64 | KSint64 | KSfixed64) => true
  | MKU32 _, (KUint32 | KFixed32) => true
  | MKU64 _, (KUint64 | KFixed64) => true
  | MKString _, KString => true
  | _, _ => false
  end.

Definition kind_msg (k : kind) : option nat :=
  match k with KMessage i | KGroup i => Some i | _ => None end.

(** map_entry_key_field / map_entry_value_field (api.rs:897-912), numbers 1
    and 2 (descriptor/mod.rs:23-24); [None] is their panic *)
Definition MAP_KEY_NUMBER : N := 1.
Definition MAP_VALUE_NUMBER : N := 2.
Definition entry_key (t : tables) (d : nat) : option fdl := get_field t d MAP_KEY_NUMBER.
Definition entry_value (t : tables) (d : nat) : option fdl := get_field t d MAP_VALUE_NUMBER.

(** Value::is_valid_for_field and is_valid_for_extension
    (dynamic/mod.rs:635-669); the panic on a map entry without key or value
    field counts as invalid here (excluded by [maps_ok]). *)
Fixpoint is_valid_for (t : tables) (f : fdl) (v : value) {struct v} : bool :=
  match v with
  | VList vs =>
      if fd_is_list f then forallb (fun x => is_valid x (fd_kind f)) vs
      else is_valid v (fd_kind f)
  | VMap kvs =>
      match kind_msg (fd_kind f), fd_is_map f with
      | Some e, true =>
          match entry_key t e, entry_value t e with
          | Some kf, Some vf =>
              forallb (fun kv => mk_valid (fst kv) (fd_kind kf) && is_valid_for t vf (snd kv)) kvs
          | _, _ => false
          end
      | _, _ => is_valid v (fd_kind f)
      end
  | _ => is_valid v (fd_kind f)
  end.

(** Value::is_default_for_field etc. (dynamic/mod.rs:620-632) *)
Definition is_default_for (t : tables) (f : fdl) (v : value) : bool :=
  value_eqb v (fd_default_value t f).

(** FieldDescriptorLike::has (dynamic/fields.rs:32-34) *)
Definition fd_has (t : tables) (f : fdl) (v : value) : bool :=
  fd_presence f || negb (is_default_for t f v).
