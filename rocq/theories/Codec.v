(** Binary encoding and decoding of dynamic messages:
    prost-reflect/src/dynamic/message.rs. *)
From Verif Require Import Base Wire Unknown Value Descr Fields.

(** [map]-like combinators over fallible encoders *)
Definition rsum {A} (g : A -> res N) : list A -> res N :=
  fix go l :=
    match l with
    | [] => Ok 0
    | a :: r => let! x := g a in let! y := go r in Ok (x + y)
    end.
Definition rcat {A} (g : A -> res bytes) : list A -> res bytes :=
  fix go l :=
    match l with
    | [] => Ok []
    | a :: r => let! x := g a in let! y := go r in Ok (x ++ y)
    end.
Definition of_opt {A} (o : option A) : res A :=
  match o with Some a => Ok a | None => Panic end.

(** ** Scalars *)

(** Wire type and payload of a scalar: the scalar arms of Value::encode_field
    (message.rs:93-135) with prost's bool/int32/…/bytes::encode.  [None] is the
    "mismatch" panic arm (message.rs:266-268). *)
Definition enc_scalar (k : kind) (v : value) : option (wt * bytes) :=
  match v, k with
  | VBool b, KBool => Some (WVarint, encode_varint (if b then 1 else 0))
  | VI32 z, KInt32 => Some (WVarint, encode_varint (zu64 z))
  | VI32 z, KSint32 => Some (WVarint, encode_varint (zigzag32 z))
  | VI32 z, KSfixed32 => Some (W32, le_encode 4 (zu32 z))
  | VI64 z, KInt64 => Some (WVarint, encode_varint (zu64 z))
  | VI64 z, KSint64 => Some (WVarint, encode_varint (zigzag64 z))
  | VI64 z, KSfixed64 => Some (W64, le_encode 8 (zu64 z))
  | VU32 n, KUint32 => Some (WVarint, encode_varint n)
  | VU32 n, KFixed32 => Some (W32, le_encode 4 n)
  | VU64 n, KUint64 => Some (WVarint, encode_varint n)
  | VU64 n, KFixed64 => Some (W64, le_encode 8 n)
  | VF32 b, KFloat => Some (W32, le_encode 4 b)
  | VF64 b, KDouble => Some (W64, le_encode 8 b)
  | VString s, KString => Some (WLen, write_delimited s)
  | VBytes s, KBytes => Some (WLen, write_delimited s)
  | VEnum z, KEnum _ => Some (WVarint, encode_varint (zu64 z))
  | _, _ => None
  end.

(** The scalar arms of Value::encoded_len (message.rs:390-431), without the key. *)
Definition len_scalar (k : kind) (v : value) : option N :=
  match v, k with
  | VBool b, KBool => Some (encoded_len_varint (if b then 1 else 0))
  | VI32 z, KInt32 => Some (encoded_len_varint (zu64 z))
  | VI32 z, KSint32 => Some (encoded_len_varint (zigzag32 z))
  | VI32 z, KSfixed32 => Some 4
  | VI64 z, KInt64 => Some (encoded_len_varint (zu64 z))
  | VI64 z, KSint64 => Some (encoded_len_varint (zigzag64 z))
  | VI64 z, KSfixed64 => Some 8
  | VU32 n, KUint32 => Some (encoded_len_varint n)
  | VU32 n, KFixed32 => Some 4
  | VU64 n, KUint64 => Some (encoded_len_varint n)
  | VU64 n, KFixed64 => Some 8
  | VF32 b, KFloat => Some 4
  | VF64 b, KDouble => Some 8
  | VString s, KString => Some (delimited_len s)
  | VBytes s, KBytes => Some (delimited_len s)
  | VEnum z, KEnum _ => Some (encoded_len_varint (zu64 z))
  | _, _ => None
  end.

(** Elements of a packed list (message.rs:144-248): the [encode] closure per
    kind; [None] is the failing [expect] or the "invalid type for packed
    field" panic. *)
Definition enc_packed (k : kind) (v : value) : option bytes :=
  match k, v with
  | KEnum _, VEnum z => Some (encode_varint (zu64 z))
  | KDouble, VF64 b => Some (le_encode 8 b)
  | KFloat, VF32 b => Some (le_encode 4 b)
  | KInt32, VI32 z => Some (encode_varint (zu64 z))
  | KInt64, VI64 z => Some (encode_varint (zu64 z))
  | KUint32, VU32 n => Some (encode_varint n)
  | KUint64, VU64 n => Some (encode_varint n)
  | KSint32, VI32 z => Some (encode_varint (from_sint32 z))
  | KSint64, VI64 z => Some (encode_varint (from_sint64 z))
  | KFixed32, VU32 n => Some (le_encode 4 n)
  | KFixed64, VU64 n => Some (le_encode 8 n)
  | KSfixed32, VI32 z => Some (le_encode 4 (zu32 z))
  | KSfixed64, VI64 z => Some (le_encode 8 (zu64 z))
  | KBool, VBool b => Some (encode_varint (if b then 1 else 0))
  | _, _ => None
  end.

(** The [encoded_len] closures of packed lists (message.rs:144-248, 437-511). *)
Definition len_packed (k : kind) (v : value) : option N :=
  match k, v with
  | KEnum _, VEnum z => Some (encoded_len_varint (zu64 z))
  | KDouble, VF64 _ => Some 8
  | KFloat, VF32 _ => Some 4
  | KInt32, VI32 z => Some (encoded_len_varint (zu64 z))
  | KInt64, VI64 z => Some (encoded_len_varint (zu64 z))
  | KUint32, VU32 n => Some (encoded_len_varint n)
  | KUint64, VU64 n => Some (encoded_len_varint n)
  | KSint32, VI32 z => Some (encoded_len_varint (from_sint32 z))
  | KSint64, VI64 z => Some (encoded_len_varint (from_sint64 z))
  | KFixed32, VU32 _ => Some 4
  | KFixed64, VU64 _ => Some 8
  | KSfixed32, VI32 _ => Some 4
  | KSfixed64, VI64 _ => Some 8
  | KBool, VBool b => Some (encoded_len_varint (if b then 1 else 0))
  | _, _ => None
  end.

(** ** Map keys *)

(** The arms of MapKey::encode_field (message.rs:553-592) *)
Definition mk_enc_scalar (k : kind) (key : mapkey) : option (wt * bytes) :=
  match key, k with
  | MKBool b, KBool => Some (WVarint, encode_varint (if b then 1 else 0))
  | MKI32 z, KInt32 => Some (WVarint, encode_varint (zu64 z))
  | MKI32 z, KSint32 => Some (WVarint, encode_varint (zigzag32 z))
  | MKI32 z, KSfixed32 => Some (W32, le_encode 4 (zu32 z))
  | MKI64 z, KInt64 => Some (WVarint, encode_varint (zu64 z))
  | MKI64 z, KSint64 => Some (WVarint, encode_varint (zigzag64 z))
  | MKI64 z, KSfixed64 => Some (W64, le_encode 8 (zu64 z))
  | MKU32 n, KUint32 => Some (WVarint, encode_varint n)
  | MKU32 n, KFixed32 => Some (W32, le_encode 4 n)
  | MKU64 n, KUint64 => Some (WVarint, encode_varint n)
  | MKU64 n, KFixed64 => Some (W64, le_encode 8 n)
  | MKString s, KString => Some (WLen, write_delimited s)
  | _, _ => None
  end.

(** The arms of MapKey::encoded_len (message.rs:646-683) *)
Definition mk_len_scalar (k : kind) (key : mapkey) : option N :=
  match key, k with
  | MKBool b, KBool => Some (encoded_len_varint (if b then 1 else 0))
  | MKI32 z, KInt32 => Some (encoded_len_varint (zu64 z))
  | MKI32 z, KSint32 => Some (encoded_len_varint (zigzag32 z))
  | MKI32 z, KSfixed32 => Some 4
  | MKI64 z, KInt64 => Some (encoded_len_varint (zu64 z))
  | MKI64 z, KSint64 => Some (encoded_len_varint (zigzag64 z))
  | MKI64 z, KSfixed64 => Some 8
  | MKU32 n, KUint32 => Some (encoded_len_varint n)
  | MKU32 n, KFixed32 => Some 4
  | MKU64 n, KUint64 => Some (encoded_len_varint n)
  | MKU64 n, KFixed64 => Some 8
  | MKString s, KString => Some (delimited_len s)
  | _, _ => None
  end.

(** [!supports_presence && self.is_default(kind)] with the panic of
    MapKey::default_value (dynamic/mod.rs:919-938) *)
Definition mk_omitted (f : fdl) (key : mapkey) : res bool :=
  if fd_presence f then Ok false
  else let! dk := of_opt (mk_default (fd_kind f)) in Ok (mk_eqb key dk).

(** MapKey::encode_field (message.rs:545-592) *)
Definition mk_encode (f : fdl) (key : mapkey) : res bytes :=
  let! om := mk_omitted f key in
  if om then Ok []
  else let! wb := of_opt (mk_enc_scalar (fd_kind f) key) in
       Ok (encode_key (fd_number f) (fst wb) ++ snd wb).

(** MapKey::encoded_len (message.rs:640-683) *)
Definition mk_len (f : fdl) (key : mapkey) : res N :=
  let! om := mk_omitted f key in
  if om then Ok 0
  else let! l := of_opt (mk_len_scalar (fd_kind f) key) in Ok (key_len (fd_number f) + l).

(** ** encoded_len *)

(** Attach to every stored value a closure computing its encoding (or length)
    for a given descriptor, so that the recursion over nested messages is
    structural while the iteration order is the one of [fs_iter]. *)
Definition annotate {R} (g : value -> fdl -> res R) (kv : N * slot value)
  : N * slot (value * (fdl -> res R)) :=
  (fst kv, match snd kv with
           | SVal v => SVal (v, g v)
           | Taken => Taken
           | SUnk us => SUnk us
           end).
Definition ann_dflt {R} (t : tables) (f : fdl) : value * (fdl -> res R) :=
  (fd_default_value t f, fun _ => Panic).

(** Value::encoded_len (message.rs:384-540) and, for nested messages,
    Message::encoded_len of DynamicMessage (message.rs:58-76). *)
Fixpoint len_value (t : tables) (v : value) (f : fdl) {struct v} : res N :=
  if negb (fd_presence f) && is_default_for t f v then Ok 0
  else
  match v with
  | VMessage (DM d fs) =>
      match kind_msg (fd_kind f) with
      | None => Panic
      | Some _ =>
          let! l := rsum (fun it =>
                      match it with
                      | IField f' vc | IExt f' vc => snd vc f'
                      | IUnk us => Ok (ufs_len us)
                      end)
                      (fs_iter_gen t fst (ann_dflt t) d false false
                         (map (fun kv =>
                            (fst kv, match snd kv with
                                     | SVal v' => SVal (v', fun f' => len_value t v' f')
                                     | Taken => Taken
                                     | SUnk us => SUnk us
                                     end)) fs)) in
          if fd_is_group f then Ok (2 * key_len (fd_number f) + l)
          else Ok (key_len (fd_number f) + encoded_len_varint l + l)
      end
  | VList vs =>
      if fd_is_list f then
        if fd_packed f then
          if negb (fd_is_packable f) then Panic else
          let! l := rsum (fun x => of_opt (len_packed (fd_kind f) x)) vs in
          Ok (key_len (fd_number f) + encoded_len_varint l + l)
        else rsum (fun x => len_value t x f) vs
      else Panic
  | VMap kvs =>
      match kind_msg (fd_kind f), fd_is_map f with
      | Some e, true =>
          match entry_key t e, entry_value t e with
          | Some kf, Some vf =>
              rsum (fun kv =>
                let! lk := mk_len kf (fst kv) in
                let! lv := len_value t (snd kv) vf in
                Ok (key_len (fd_number f) + encoded_len_varint (lk + lv) + (lk + lv))) kvs
          | _, _ => Panic
          end
      | _, _ => Panic
      end
  | _ => let! l := of_opt (len_scalar (fd_kind f) v) in Ok (key_len (fd_number f) + l)
  end.

(** Message::encoded_len (message.rs:58-76) *)
Definition len_item (t : tables) (it : item value) : res N :=
  match it with
  | IField f v | IExt f v => len_value t v f
  | IUnk us => Ok (ufs_len us)
  end.
Definition len_msg (t : tables) (m : dynmsg) : res N :=
  rsum (len_item t) (fs_iter t (dm_desc m) false false (dm_fields m)).

(** ** encode *)

(** Value::encode_field (message.rs:84-270) and encode_raw (message.rs:19-33).
    message::encode writes the key, [encoded_len] as a varint and the body;
    group::encode brackets the body with StartGroup/EndGroup keys. *)
Fixpoint enc_value (t : tables) (v : value) (f : fdl) {struct v} : res bytes :=
  if negb (fd_presence f) && is_default_for t f v then Ok []
  else
  match v with
  | VMessage (DM d fs) =>
      match kind_msg (fd_kind f) with
      | None => Panic
      | Some _ =>
          let! body := rcat (fun it =>
                      match it with
                      | IField f' vc | IExt f' vc => snd vc f'
                      | IUnk us => Ok (ufs_encode us)
                      end)
                      (fs_iter_gen t fst (ann_dflt t) d false false
                         (map (fun kv =>
                            (fst kv, match snd kv with
                                     | SVal v' => SVal (v', fun f' => enc_value t v' f')
                                     | Taken => Taken
                                     | SUnk us => SUnk us
                                     end)) fs)) in
          if fd_is_group f then
            Ok (encode_key (fd_number f) WStart ++ body ++ encode_key (fd_number f) WEnd)
          else
            let! l := len_msg t (DM d fs) in
            Ok (encode_key (fd_number f) WLen ++ encode_varint l ++ body)
      end
  | VList vs =>
      if fd_is_list f then
        if fd_packed f then
          if negb (fd_is_packable f) then Panic else
          let! l := rsum (fun x => of_opt (len_packed (fd_kind f) x)) vs in
          let! body := rcat (fun x => of_opt (enc_packed (fd_kind f) x)) vs in
          Ok (encode_key (fd_number f) WLen ++ encode_varint l ++ body)
        else rcat (fun x => enc_value t x f) vs
      else Panic
  | VMap kvs =>
      match kind_msg (fd_kind f), fd_is_map f with
      | Some e, true =>
          match entry_key t e, entry_value t e with
          | Some kf, Some vf =>
              rcat (fun kv =>
                let! lk := mk_len kf (fst kv) in
                let! lv := len_value t (snd kv) vf in
                let! bk := mk_encode kf (fst kv) in
                let! bv := enc_value t (snd kv) vf in
                Ok (encode_key (fd_number f) WLen ++ encode_varint (lk + lv) ++ bk ++ bv)) kvs
          | _, _ => Panic
          end
      | _, _ => Panic
      end
  | _ => let! wb := of_opt (enc_scalar (fd_kind f) v) in
         Ok (encode_key (fd_number f) (fst wb) ++ snd wb)
  end.

(** Message::encode_raw (message.rs:19-33) *)
Definition enc_item (t : tables) (it : item value) : res bytes :=
  match it with
  | IField f v | IExt f v => enc_value t v f
  | IUnk us => Ok (ufs_encode us)
  end.
Definition enc_msg (t : tables) (m : dynmsg) : res bytes :=
  rcat (enc_item t) (fs_iter t (dm_desc m) false false (dm_fields m)).

(** ** merge *)

(** A scalar read after prost's wire-type check; on error the value is left
    as it was. *)
Definition rd (expected w : wt) (old : value) (r : res (value * bytes)) : dres value :=
  if wt_eqb expected w then dlift old (fun x => x) r else DErr EWireType old.
Definition rd_varint (buf : bytes) (g : N -> value) : res (value * bytes) :=
  let! (x, r) := decode_varint buf in Ok (g x, r).
Definition rd_le (n : N) (buf : bytes) (g : N -> value) : res (value * bytes) :=
  let! (x, r) := le_decode n buf in Ok (g x, r).
Definition rd_string (buf : bytes) : res (value * bytes) :=
  let! (s, r) := read_delimited buf in
  if utf8_valid s then Ok (VString s, r) else Err EUtf8.

(** The scalar arms of Value::merge_field (message.rs:283-328).  string::merge
    clears the string on any error.  [None] is the "mismatch" panic. *)
Definition merge_scalar (k : kind) (v : value) (w : wt) (buf : bytes) : option (dres value) :=
  match v, k with
  | VBool _, KBool => Some (rd WVarint w v (rd_varint buf (fun x => VBool (negb (x =? 0)))))
  | VI32 _, KInt32 => Some (rd WVarint w v (rd_varint buf (fun x => VI32 (si32 x))))
  | VI32 _, KSint32 => Some (rd WVarint w v (rd_varint buf (fun x => VI32 (unzigzag32 x))))
  | VI32 _, KSfixed32 => Some (rd W32 w v (rd_le 4 buf (fun x => VI32 (si32 x))))
  | VI64 _, KInt64 => Some (rd WVarint w v (rd_varint buf (fun x => VI64 (si64 x))))
  | VI64 _, KSint64 => Some (rd WVarint w v (rd_varint buf (fun x => VI64 (unzigzag64 x))))
  | VI64 _, KSfixed64 => Some (rd W64 w v (rd_le 8 buf (fun x => VI64 (si64 x))))
  | VU32 _, KUint32 => Some (rd WVarint w v (rd_varint buf (fun x => VU32 (u32 x))))
  | VU32 _, KFixed32 => Some (rd W32 w v (rd_le 4 buf (fun x => VU32 x)))
  | VU64 _, KUint64 => Some (rd WVarint w v (rd_varint buf (fun x => VU64 x)))
  | VU64 _, KFixed64 => Some (rd W64 w v (rd_le 8 buf (fun x => VU64 x)))
  | VF32 _, KFloat => Some (rd W32 w v (rd_le 4 buf (fun x => VF32 x)))
  | VF64 _, KDouble => Some (rd W64 w v (rd_le 8 buf (fun x => VF64 x)))
  | VString _, KString => Some (rd WLen w (VString []) (rd_string buf))
  | VBytes _, KBytes =>
      Some (rd WLen w v (let! (s, r) := read_delimited buf in Ok (VBytes s, r)))
  | VEnum _, KEnum _ => Some (rd WVarint w v (rd_varint buf (fun x => VEnum (si32 x))))
  | _, _ => None
  end.

(** From<MapKey> for Value and Value::into_map_key (dynamic/mod.rs:911-922,
    1063-1074) *)
Definition mk_value (key : mapkey) : value :=
  match key with
  | MKBool b => VBool b
  | MKI32 z => VI32 z
  | MKI64 z => VI64 z
  | MKU32 n => VU32 n
  | MKU64 n => VU64 n
  | MKString s => VString s
  end.
Definition value_mk (v : value) : option mapkey :=
  match v with
  | VBool b => Some (MKBool b)
  | VI32 z => Some (MKI32 z)
  | VI64 z => Some (MKI64 z)
  | VU32 n => Some (MKU32 n)
  | VU64 n => Some (MKU64 n)
  | VString s => Some (MKString s)
  | _ => None
  end.

(** MapKey::merge_field (message.rs:594-638).  Its arms are, constructor by
    constructor, those of Value::merge_field, so it is modelled through the
    value with the same constructor. *)
Definition mk_merge (k : kind) (key : mapkey) (w : wt) (buf : bytes) : dres mapkey :=
  match merge_scalar k (mk_value key) w buf with
  | Some (DOk v r) => match value_mk v with Some key' => DOk key' r | None => DPanic end
  | Some (DErr e v) => match value_mk v with Some key' => DErr e key' | None => DPanic end
  | Some DPanic | None => DPanic
  | Some DFuel => DFuel
  end.

(** DynamicMessage::merge_field (message.rs:35-56), given the merge of a value. *)
Definition merge_into (t : tables) (mv : fdl -> value -> wt -> nat -> bytes -> dres value)
  (f : fdl) (m : dynmsg) (w : wt) (ctx : nat) (buf : bytes) : dres dynmsg :=
  let fs := fs_get_mut t f (dm_fields m) in
  match mv f (fs_get t f fs) w ctx buf with
  | DOk v r => DOk (with_fields m (fs_put f v fs)) r
  | DErr e v => DErr e (with_fields m (fs_put f v fs))
  | DPanic => DPanic
  | DFuel => DFuel
  end.
Definition merge_msg_field (t : tables) (mv : fdl -> value -> wt -> nat -> bytes -> dres value)
  (ctx : nat) (m : dynmsg) (num : N) (w : wt) (buf : bytes) : dres dynmsg :=
  match find_desc t (dm_desc m) num with
  | Some f => merge_into t mv f m w ctx buf
  | None =>
      match uf_decode_value ctx num w buf with
      | Ok (u, r) =>
          match fs_add_unknown num u (dm_fields m) with
          | Ok fs => DOk (with_fields m fs) r
          | _ => DPanic
          end
      | Err e => DErr e m
      | Panic => DPanic
      | Fuel => DFuel
      end
  end.

Definition dmap {A B} (g : A -> B) (d : dres A) : dres B :=
  match d with
  | DOk a r => DOk (g a) r
  | DErr e a => DErr e (g a)
  | DPanic => DPanic
  | DFuel => DFuel
  end.

(** Value::merge_field (message.rs:272-382), given the nested calls [mv]; [ctx]
    is the recursion budget of DecodeContext. *)
Definition merge_body (t : tables) (mv : fdl -> value -> wt -> nat -> bytes -> dres value)
  (f : fdl) (v : value) (w : wt) (ctx : nat) (buf : bytes) : dres value :=
  match v with
  | VMessage m =>
      match kind_msg (fd_kind f) with
      | None => DPanic
      | Some _ =>
          if fd_is_group f then
            (* group::merge *)
            if negb (wt_eqb WStart w) then DErr EWireType v
            else match ctx with
                 | O => DErr ERecursion v
                 | S ctx' =>
                     dmap VMessage
                       (group_loop (S (length buf))
                          (merge_msg_field t mv ctx') (fd_number f) m buf)
                 end
          else
            (* message::merge *)
            if negb (wt_eqb WLen w) then DErr EWireType v
            else match ctx with
                 | O => DErr ERecursion v
                 | S ctx' =>
                     dmap VMessage
                       (merge_loop
                          (keyed_step (merge_msg_field t mv ctx')) m buf)
                 end
      end
  | VList vs =>
      if fd_is_list f then
        if wt_eqb w WLen && fd_is_packable f then
          dmap VList
            (merge_loop
               (fun vs b =>
                  match mv f (kind_default t (fd_kind f)) (kind_wt (fd_kind f))
                          ctx b with
                  | DOk x r => DOk (vs ++ [x]) r
                  | DErr e _ => DErr e vs
                  | DPanic => DPanic
                  | DFuel => DFuel
                  end) vs buf)
        else
          match mv f (kind_default t (fd_kind f)) w ctx buf with
          | DOk x r => DOk (VList (vs ++ [x])) r
          | DErr e _ => DErr e v
          | DPanic => DPanic
          | DFuel => DFuel
          end
      else DPanic
  | VMap kvs =>
      match kind_msg (fd_kind f), fd_is_map f with
      | Some e, true =>
          match entry_key t e, entry_value t e with
          | Some kf, Some vf =>
              match mk_default (fd_kind kf) with
              | None => DPanic
              | Some k0 =>
                  match merge_loop
                          (keyed_step (fun kv num w' b =>
                             if num =? MAP_KEY_NUMBER then
                               dmap (fun k' => (k', snd kv))
                                 (mk_merge (fd_kind kf) (fst kv) w' b)
                             else if num =? MAP_VALUE_NUMBER then
                               dmap (fun v' => (fst kv, v'))
                                 (mv vf (snd kv) w' ctx b)
                             else match skip_field ctx w' num b with
                                  | Ok r => DOk kv r
                                  | Err e => DErr e kv
                                  | Panic => DPanic
                                  | Fuel => DFuel
                                  end))
                          (k0, fd_default_value t vf) buf with
                  | DOk (k', v') r => DOk (VMap (map_insert k' v' kvs)) r
                  | DErr e _ => DErr e v
                  | DPanic => DPanic
                  | DFuel => DFuel
                  end
              end
          | _, _ => DPanic
          end
      | _, _ => DPanic
      end
  | _ =>
      match merge_scalar (fd_kind f) v w buf with
      | Some d => d
      | None => DPanic
      end
  end.

(** [n] bounds the nesting of calls. *)
Fixpoint merge_value (n : nat) (t : tables) (f : fdl) (v : value) (w : wt) (ctx : nat)
  (buf : bytes) : dres value :=
  match n with
  | O => DFuel
  | S n' => merge_body t (merge_value n' t) f v w ctx buf
  end.

(** prost's Message::merge and DynamicMessage::decode (dynamic/mod.rs:121-128):
    the recursion budget starts at 100. *)
Definition merge_fuel (buf : bytes) : nat := (2 * length buf + 400)%nat.
Definition ctx0 : nat := N.to_nat recursion_limit.
Definition msg_merge_fuel (n : nat) (t : tables) (m : dynmsg) (buf : bytes) : dres dynmsg :=
  stream_loop (length buf) (merge_msg_field t (merge_value n t) ctx0) m buf.
Definition msg_merge (t : tables) (m : dynmsg) (buf : bytes) : dres dynmsg :=
  msg_merge_fuel (merge_fuel buf) t m buf.
(** decode gives the message only on success *)
Definition msg_decode (t : tables) (d : nat) (buf : bytes) : res dynmsg :=
  match msg_merge t (new_msg d) buf with
  | DOk m _ => Ok m
  | DErr e _ => Err e
  | DPanic => Panic
  | DFuel => Fuel
  end.
