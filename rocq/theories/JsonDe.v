(** Deserializing dynamic messages from JSON:
    prost-reflect/src/dynamic/serde/de/{mod,kind,wkt}.rs. *)
From Coq Require Import String.
From Verif Require Import Base Wire Unknown Value Descr Fields Codec Float TextFormat TextParse Json JsonSer.
Open Scope list_scope.
Open Scope N_scope.

(** What a document is read as: a value of a kind, a message, a list or map
    field, a prost_types::Value, a String.  [TOpt] goes through
    deserialize_option, where null is no value. *)
Inductive goal :=
| GScalar (k : kind)
| GMsg (d : nat)
| GList (k : kind)
| GMap (k : kind)
| GWValue
| GStr.
Inductive target := TOpt (f : fdl) | TGoal (g : goal).

(** KindSeed, FieldDescriptorSeed (de/kind.rs:15-62, de/mod.rs:107-131) *)
Definition kind_goal (k : kind) : goal :=
  match kind_msg k with Some d => GMsg d | None => GScalar k end.
Definition field_goal (f : fdl) : goal :=
  if fd_is_list f then GList (fd_kind f)
  else if fd_is_map f then GMap (fd_kind f)
  else kind_goal (fd_kind f).
Definition target_goal (g : target) : goal :=
  match g with TOpt f => field_goal f | TGoal g => g end.

Section De.
  Variable (E : json_externs) (t : tables) (deny : bool).

  (** a visitor applied to a document that is still to be read; the boolean
      says whether the document was buffered *)
  Definition reader : Type := bool -> target -> jres (option value).
  Notation members := (list (str * reader)).

  (** make_message (de/mod.rs:198-207) *)
  Definition make_message (d : nat) (x : dynmsg) : jres (option value) :=
    let* b := jdec (enc_msg wkt_tables x) in
    match msg_merge t (new_msg d) b with
    | DOk m _ => JOk (Some (VMessage m))
    | DErr _ _ => JErr XDecode
    | DPanic => JPanic
    | DFuel => JFuel
    end.

  (** ** Scalars *)

  (** EnumVisitor (de/kind.rs:606-653), GoogleProtobufNullVisitor
      (de/wkt.rs:108-135) *)
  Definition de_enum (e : nat) (j : json) : jres (option value) :=
    if is_null_enum t e then
      match j with
      | JStr s => if bytes_eqb s (s2b "NULL_VALUE") then JOk (Some (VEnum 0))
                  else if deny then JErr XNull else JOk None
      | JNull => JOk (Some (VEnum 0))
      | _ => JErr XType
      end
    else
      match j with
      | JStr s => match enum_number t e s with
                  | Some z => JOk (Some (VEnum z))
                  | None => if deny then JErr XEnum else JOk None
                  end
      | JInt z => if (i32_lo <=? z)%Z && (z <=? i32_hi)%Z then JOk (Some (VEnum z)) else JErr XRange
      | _ => JErr XType
      end.
  (** KindSeed::deserialize (de/kind.rs:20-62) without messages *)
  Definition de_scalar (k : kind) (j : json) : jres (option value) :=
    match k with
    | KDouble => let* b := de_f64 j in JOk (Some (VF64 b))
    | KFloat => let* b := de_f32 j in JOk (Some (VF32 b))
    | KInt32 | KSint32 | KSfixed32 => let* z := de_i32 j in JOk (Some (VI32 z))
    | KInt64 | KSint64 | KSfixed64 => let* z := de_i64 j in JOk (Some (VI64 z))
    | KUint32 | KFixed32 => let* z := de_u32 j in JOk (Some (VU32 (Z.to_N z)))
    | KUint64 | KFixed64 => let* z := de_u64 j in JOk (Some (VU64 (Z.to_N z)))
    | KBool => match j with JBool b => JOk (Some (VBool b)) | _ => JErr XType end
    | KString => match j with JStr s => JOk (Some (VString s)) | _ => JErr XType end
    | KBytes => match j with JStr s => let* b := de_bytes s in JOk (Some (VBytes b)) | _ => JErr XType end
    | KEnum e => de_enum e j
    | KMessage _ | KGroup _ => JErr XType
    end.

  (** ** Well-known types *)

  (** a typed Value holding one field *)
  Definition wvalue (n : N) (v : value) : value := VMessage (DM 5 [(n, SVal v)]).
  Definition wstruct (ms : list (str * value)) : dynmsg :=
    DM 3 [(1, SVal (VMap (map (fun kv => (MKString (fst kv), snd kv)) (sort_members ms))))].
  Definition wlist (vs : list value) : dynmsg := DM 6 [(1, SVal (VList vs))].

  (** GoogleProtobufValueVisitor (de/wkt.rs:262-348), what is not a list or map *)
  Definition de_watom (j : json) : jres value :=
    match j with
    | JNull => JOk (wvalue 1 (VEnum 0))
    | JBool b => JOk (wvalue 4 (VBool b))
    | JInt z => JOk (wvalue 2 (VF64 (int_to_f64 z)))
    | JF64 b => JOk (wvalue 2 (VF64 b))
    | JF32 b => JOk (wvalue 2 (VF64 (f32_to_f64 b)))
    | JStr s => JOk (wvalue 3 (VString s))
    | _ => JErr XType
    end.

  Definition typed_time (d : nat) (s n : Z) : dynmsg := DM d [(1, SVal (VI64 s)); (2, SVal (VI32 n))].
  Definition wrapped_kind (d : nat) : kind :=
    match get_field wkt_tables d 1 with Some f => fd_kind f | None => KBool end.

  (** the visitors of deserialize_message (de/mod.rs:14-76) on documents that
      are not lists or maps *)
  Definition de_wkt_atom (w : wkt) (d : nat) (j : json) : jres (option value) :=
    match w with
    | WAny | WStruct | WList | WEmpty => JErr XType
    | WTimestamp =>
        match j with
        | JStr s =>
            if strict_rfc3339 s then
              match jx_parse_timestamp E s with
              | Some (sec, nan) =>
                  if check_timestamp sec then make_message d (typed_time 1 sec nan) else JErr XTimestamp
              | None => JErr XTimestamp
              end
            else JErr XTimestamp
        | _ => JErr XType
        end
    | WDuration =>
        match j with
        | JStr s =>
            match jx_parse_duration E s with
            | Some (sec, nan) =>
                if check_duration sec nan then make_message d (typed_time 2 sec nan) else JErr XDuration
            | None => JErr XDuration
            end
        | _ => JErr XType
        end
    | WMask =>
        match j with
        | JStr s => match mask_in s with
                    | Some ps => make_message d (DM 7 [(1, SVal (VList (map VString ps)))])
                    | None => JErr XMask
                    end
        | _ => JErr XType
        end
    | WValue => let* v := de_watom j in
                match v with VMessage x => make_message d x | _ => JPanic end
    | WWrap i => let* v := de_scalar (wrapped_kind i) j in
                 match v with Some v' => make_message d (DM i [(1, SVal v')]) | None => JPanic end
    end.

  (** OptionalFieldDescriptorSeed::visit_none (de/mod.rs:166-187) *)
  Definition null_field (f : fdl) : jres (option value) :=
    match kind_msg (fd_kind f) with
    | Some d => if bytes_eqb (full_name t d) (s2b "google.protobuf.Value")
                then make_message d (DM 5 [(1, SVal (VEnum 0))]) else JOk None
    | None => match fd_kind f with
              | KEnum e => if is_null_enum t e then JOk (Some (VEnum 0)) else JOk None
              | _ => JOk None
              end
    end.

  Definition de_atom (j : json) (g : goal) : jres (option value) :=
    match g with
    | GScalar k => de_scalar k j
    | GMsg d => match wkt_of t d with Some w => de_wkt_atom w d j | None => JErr XType end
    | GList _ | GMap _ => JErr XType
    | GWValue => let* v := de_watom j in JOk (Some v)
    | GStr => match j with JStr s => JOk (Some (VString s)) | _ => JErr XType end
    end.

  (** ** Lists *)

  (** ListVisitor (de/kind.rs:79-101): values that are ignored are left out *)
  Fixpoint de_list (rs : list reader) (buf : bool) (k : kind) : jres (list value) :=
    match rs with
    | [] => JOk []
    | r :: rest =>
        let* v := r buf (TGoal (kind_goal k)) in
        let* vs := de_list rest buf k in
        JOk (match v with Some x => x :: vs | None => vs end)
    end.
  (** GoogleProtobufListVisitor (de/wkt.rs:223-240) *)
  Fixpoint de_wlist (rs : list reader) (buf : bool) : jres (list value) :=
    match rs with
    | [] => JOk []
    | r :: rest =>
        let* v := r buf (TGoal GWValue) in
        let* vs := de_wlist rest buf in
        JOk (match v with Some x => x :: vs | None => vs end)
    end.
  Definition de_arr (rs : list reader) (buf : bool) (g : goal) : jres (option value) :=
    match g with
    | GList k => let* vs := de_list rs buf k in JOk (Some (VList vs))
    | GWValue => let* vs := de_wlist rs buf in JOk (Some (wvalue 6 (VMessage (wlist vs))))
    | GMsg d =>
        match wkt_of t d with
        | Some WList => let* vs := de_wlist rs buf in make_message d (wlist vs)
        | Some WValue => let* vs := de_wlist rs buf in make_message d (DM 5 [(6, SVal (VMessage (wlist vs)))])
        | _ => JErr XType
        end
    | GScalar _ | GMap _ | GStr => JErr XType
    end.

  (** ** Maps and messages *)

  (** the key of a map entry (de/kind.rs:121-140) *)
  Definition de_key (k : kind) (s : str) : jres mapkey :=
    let int lo hi (mk : Z -> mapkey) :=
      match int_from_str lo hi s with Some z => JOk (mk z) | None => JErr XKey end in
    match k with
    | KInt32 | KSint32 | KSfixed32 => int i32_lo i32_hi MKI32
    | KInt64 | KSint64 | KSfixed64 => int i64_lo i64_hi MKI64
    | KUint32 | KFixed32 => int 0%Z u32_hi (fun z => MKU32 (Z.to_N z))
    | KUint64 | KFixed64 => int 0%Z u64_hi (fun z => MKU64 (Z.to_N z))
    | KBool => if bytes_eqb s (s2b "true") then JOk (MKBool true)
               else if bytes_eqb s (s2b "false") then JOk (MKBool false) else JErr XKey
    | KString => JOk (MKString s)
    | _ => JPanic
    end.
  (** MapVisitor (de/kind.rs:103-149) *)
  Fixpoint de_map (ms : members) (buf : bool) (kk : kind) (vf : fdl) (acc : list (mapkey * value))
    : jres (list (mapkey * value)) :=
    match ms with
    | [] => JOk acc
    | (key, r) :: rest =>
        let* k := de_key kk key in
        let* v := r buf (TGoal (field_goal vf)) in
        de_map rest buf kk vf (match v with Some x => map_insert k x acc | None => acc end)
    end.

  (** the field or extension a member stands for (de/kind.rs:569-590) *)
  Definition json_field (d : nat) (key : str) : option fdl :=
    match get_field_by_json t d key with Some f => Some f | None => get_field_by_name t d key end.

  (** another member of the oneof has been given (de/kind.rs:575-584) *)
  Definition oneof_given (m : dynmsg) (f : fdl) : bool :=
    match fd_oneof f with
    | Some nums => existsb (fun n => has_field_by_number t m n) nums
    | None => false
    end.
  (** set_field asserts that the value is valid; set_extension does so only in
      debug builds *)
  Definition put_field (m : dynmsg) (f : fdl) (v : value) : jres dynmsg :=
    match set_field t m f v with Some m' => JOk m' | None => JPanic end.

  (** MessageVisitorInner::visit_map (de/kind.rs:556-604) *)
  Fixpoint de_members (ms : members) (buf : bool) (m : dynmsg) : jres dynmsg :=
    match ms with
    | [] => JOk m
    | (key, r) :: rest =>
        match json_field (dm_desc m) key with
        | Some f =>
            let* v := r buf (TOpt f) in
            match v with
            | None => de_members rest buf m
            | Some x =>
                if oneof_given m f then JErr XOneof
                else let* m' := put_field m f x in de_members rest buf m'
            end
        | None =>
            match get_ext_by_json t (dm_desc m) key with
            | Some f =>
                let* v := r buf (TOpt f) in
                match v with
                | None => de_members rest buf m
                | Some x => de_members rest buf (set_extension m f x)
                end
            | None => if deny then JErr (XUnknownField key) else de_members rest buf m
            end
        end
    end.

  (** find_field (de/wkt.rs:369-388): the entries before the wanted one, kept in
      a HashMap *)
  Fixpoint hash_insert {A} (k : str) (v : A) (l : list (str * A)) : list (str * A) :=
    match l with
    | [] => [(k, v)]
    | (k', v') :: r => if bytes_eqb k k' then (k, v) :: r else (k', v') :: hash_insert k v r
    end.
  Fixpoint find_member (want : str) (ms seen : members) : option (reader * members * members) :=
    match ms with
    | [] => None
    | (k, r) :: rest =>
        if bytes_eqb k want then Some (r, seen, rest) else find_member want rest (hash_insert k r seen)
    end.
  Fixpoint hash_remove {A} (k : str) (l : list (str * A)) : list (str * A) :=
    match l with
    | [] => []
    | (k', v') :: r => if bytes_eqb k k' then r else (k', v') :: hash_remove k r
    end.
  (** iteration over a HashMap *)
  Definition in_order {A} (l : list (str * A)) : list (str * A) :=
    flat_map (fun k => match assoc_s k l with Some v => [(k, v)] | None => [] end)
      (jx_order E (map fst l)).

  (** GoogleProtobufAnyVisitor (de/wkt.rs:38-106).  Entries that precede @type
      are read from a serde_value::Value. *)
  Definition any_payload (rest seen : members) (buf : bool) (name : str) (d : nat) : jres dynmsg :=
    match wkt_named name with
    | Some _ =>
        let* (v, seen', rest') :=
          match assoc_s (s2b "value") seen with
          | Some r => let* v := r true (TGoal (GMsg d)) in JOk (v, hash_remove (s2b "value") seen, rest)
          | None =>
              match find_member (s2b "value") rest seen with
              | Some (r, seen', rest') => let* v := r buf (TGoal (GMsg d)) in JOk (v, seen', rest')
              | None => JErr (XMissing (s2b "value"))
              end
          end in
        let* x := match v with Some (VMessage x) => JOk x | _ => JPanic end in
        if deny then
          match in_order seen' ++ rest' with
          | (k, _) :: _ => JErr (XUnknownField k)
          | [] => JOk x
          end
        else JOk x
    | None =>
        let* x := de_members (in_order seen) true (new_msg d) in
        de_members rest buf x
    end.
  Definition de_any (ms : members) (buf : bool) (d0 : nat) : jres (option value) :=
    match find_member (s2b "@type") ms [] with
    | None => JErr (XMissing (s2b "@type"))
    | Some (r, seen, rest) =>
        let* u := r buf (TGoal GStr) in
        let url := match u with Some v => val_bytes v | None => [] end in
        match type_url_name url with
        | None => JErr XTypeUrl
        | Some name =>
            match find_msg t name with
            | None => JErr (XNoMessage name)
            | Some d =>
                let* x := any_payload rest seen buf name d in
                let* b := jdec (enc_msg t x) in
                make_message d0 (DM 0 [(1, SVal (VString url)); (2, SVal (VBytes b))])
            end
        end
    end.

  (** GoogleProtobufStructVisitor (de/wkt.rs:242-260) *)
  Fixpoint de_wstruct (ms : members) (buf : bool) : jres (list (str * value)) :=
    match ms with
    | [] => JOk []
    | (key, r) :: rest =>
        let* v := r buf (TGoal GWValue) in
        let* vs := de_wstruct rest buf in
        JOk (match v with Some x => (key, x) :: vs | None => vs end)
    end.

  Definition de_obj (ms : members) (buf : bool) (g : goal) : jres (option value) :=
    match g with
    | GMsg d =>
        match wkt_of t d with
        | None => let* m := de_members ms buf (new_msg d) in JOk (Some (VMessage m))
        | Some WAny => de_any ms buf d
        | Some WStruct => let* vs := de_wstruct ms buf in make_message d (wstruct vs)
        | Some WValue => let* vs := de_wstruct ms buf in make_message d (DM 5 [(5, SVal (VMessage (wstruct vs)))])
        | Some WEmpty => match ms with [] => make_message d (new_msg 17) | _ => JErr XNotEmpty end
        | Some _ => JErr XType
        end
    | GMap k =>
        match kind_msg k with
        | None => JPanic
        | Some e =>
            match entry_key t e, entry_value t e with
            | Some kf, Some vf =>
                let* kvs := de_map ms buf (fd_kind kf) vf [] in JOk (Some (VMap kvs))
            | _, _ => JPanic
            end
        end
    | GWValue => let* vs := de_wstruct ms buf in JOk (Some (wvalue 5 (VMessage (wstruct vs))))
    | GScalar _ | GList _ | GStr => JErr XType
    end.

  (** The whole document.  A buffered one went through serde_value, whose maps
      are BTreeMaps. *)
  Fixpoint de (j : json) (buf : bool) (g : target) {struct j} : jres (option value) :=
    match j with
    | JObj l =>
        let ms := map (fun kv => (fst kv, fun b g' => de (snd kv) b g')) l in
        de_obj (if buf then sort_members ms else ms) buf (target_goal g)
    | JArr l => de_arr (map (fun x => fun b g' => de x b g') l) buf (target_goal g)
    | JNull => match g with TOpt f => null_field f | TGoal g' => de_atom JNull g' end
    | _ => de_atom j (target_goal g)
    end.

  (** DynamicMessage::deserialize_with_options (serde/mod.rs:160-170) *)
  Definition from_json (d : nat) (j : json) : jres dynmsg :=
    let* v := de j false (TGoal (GMsg d)) in
    match v with Some (VMessage m) => JOk m | _ => JPanic end.
End De.
