(** The protobuf wire format written down as a grammar: what a sequence of
    bytes means, independently of the code that reads or writes it.  There is
    no fuel, no loop and no lookahead here.  What a merge does to a field is
    stated with the public operations get, set and add-unknown. *)
From Verif Require Import Base Wire Unknown Value Descr Fields Codec.

(** ** Numbers *)

(** Groups of seven bits, low group first, the top bit of a byte says that
    more follow. *)
Inductive varint : N -> bytes -> Prop :=
| vi_last b : b < 128 -> varint b [b]
| vi_more b v bs : b < 128 -> varint v bs -> varint (b + 128 * v) ((128 + b) :: bs).
(** As read: at most ten bytes and 64 bits. *)
Definition varint64 (n : N) (bs : bytes) : Prop :=
  varint n bs /\ (length bs <= 10)%nat /\ n < 18446744073709551616.
(** As written: no superfluous byte. *)
Inductive shortest : N -> bytes -> Prop :=
| sh_last b : b < 128 -> shortest b [b]
| sh_more b v bs : b < 128 -> 0 < v -> shortest v bs -> shortest (b + 128 * v) ((128 + b) :: bs).

(** Little-endian bytes. *)
Inductive little : N -> bytes -> Prop :=
| le_none : little 0 []
| le_byte b v bs : b < 256 -> little v bs -> little (b + 256 * v) (b :: bs).
Definition fixed (width : nat) (n : N) (bs : bytes) : Prop := little n bs /\ length bs = width.

(** [z] is the two's-complement reading of the low [bits] bits of [n]. *)
Definition twos (bits : Z) (n : N) (z : Z) : Prop :=
  (- 2 ^ (bits - 1) <= z < 2 ^ (bits - 1))%Z /\ (z mod 2 ^ bits = Z.of_N n mod 2 ^ bits)%Z.
(** 0, -1, 1, -2, 2 … *)
Definition zigzag (n : N) (z : Z) : Prop :=
  (Z.of_N n = if z <? 0 then -2 * z - 1 else 2 * z)%Z.

(** ** Text *)
Definition code_point (c : N) : Prop := c < 55296 \/ 57344 <= c < 1114112.
Definition utf8_of (c : N) : bytes :=
  if c <? 128 then [c]
  else if c <? 2048 then [192 + c / 64; 128 + c mod 64]
  else if c <? 65536 then [224 + c / 4096; 128 + (c / 64) mod 64; 128 + c mod 64]
  else [240 + c / 262144; 128 + (c / 4096) mod 64; 128 + (c / 64) mod 64; 128 + c mod 64].
Definition utf8_text (s : bytes) : Prop :=
  exists cs, Forall code_point cs /\ s = flat_map utf8_of cs.

(** ** Records *)

(** The key of a record: field number and wire type in one varint of 32 bits. *)
Definition record_key (num : N) (w : wt) (bs : bytes) : Prop :=
  1 <= num < 536870912 /\ varint64 (8 * num + wt_num w) bs.
(** A length, then that many bytes. *)
Definition delimited (body bs : bytes) : Prop :=
  exists lb, varint64 (N.of_nat (length body)) lb /\ bs = lb ++ body.

(** What follows the key of a record of which nothing is known but the wire
    type; [n] is the number of nested groups allowed. *)
Inductive raw : nat -> ufield -> bytes -> Prop :=
| raw_varint n num v bs : varint64 v bs -> raw n (UVarint num v) bs
| raw_64 n num bs : length bs = 8%nat -> raw n (U64 num bs) bs
| raw_len n num body bs : delimited body bs -> raw n (ULen num body) bs
| raw_group n num us body e : raws n us body -> record_key num WEnd e -> raw (S n) (UGroup num us) (body ++ e)
| raw_32 n num bs : length bs = 4%nat -> raw n (U32 num bs) bs
with raws : nat -> list ufield -> bytes -> Prop :=
| raws_nil n : raws n [] []
| raws_cons n u us kb pl rest :
    record_key (uf_number u) (uf_wire_type u) kb -> raw n u pl -> raws n us rest ->
    raws n (u :: us) (kb ++ pl ++ rest).

(** A record that is skipped.  At the limit of the nesting nothing can be
    skipped, not even a number. *)
Inductive skipped : nat -> ufield -> bytes -> Prop :=
| sk_varint n num v bs : varint64 v bs -> skipped (S n) (UVarint num v) bs
| sk_64 n num bs : length bs = 8%nat -> skipped (S n) (U64 num bs) bs
| sk_len n num body bs : delimited body bs -> skipped (S n) (ULen num body) bs
| sk_group n num us body e : skips n us body -> record_key num WEnd e -> skipped (S n) (UGroup num us) (body ++ e)
| sk_32 n num bs : length bs = 4%nat -> skipped (S n) (U32 num bs) bs
with skips : nat -> list ufield -> bytes -> Prop :=
| sks_nil n : skips n [] []
| sks_cons n u us kb pl rest :
    record_key (uf_number u) (uf_wire_type u) kb -> skipped n u pl -> skips n us rest ->
    skips n (u :: us) (kb ++ pl ++ rest).

(** ** Scalars *)

(** [scalar k w x bs]: a record of wire type [w] with payload [bs] is the value
    [x] of kind [k]. *)
Inductive scalar : kind -> wt -> value -> bytes -> Prop :=
| sc_bool n bs : varint64 n bs -> scalar KBool WVarint (VBool (negb (n =? 0))) bs
| sc_int32 n z bs : varint64 n bs -> twos 32 n z -> scalar KInt32 WVarint (VI32 z) bs
| sc_int64 n z bs : varint64 n bs -> twos 64 n z -> scalar KInt64 WVarint (VI64 z) bs
| sc_uint32 n bs : varint64 n bs -> scalar KUint32 WVarint (VU32 (n mod 4294967296)) bs
| sc_uint64 n bs : varint64 n bs -> scalar KUint64 WVarint (VU64 n) bs
| sc_sint32 n z bs : varint64 n bs -> zigzag (n mod 4294967296) z -> scalar KSint32 WVarint (VI32 z) bs
| sc_sint64 n z bs : varint64 n bs -> zigzag n z -> scalar KSint64 WVarint (VI64 z) bs
| sc_enum i n z bs : varint64 n bs -> twos 32 n z -> scalar (KEnum i) WVarint (VEnum z) bs
| sc_fixed32 n bs : fixed 4 n bs -> scalar KFixed32 W32 (VU32 n) bs
| sc_fixed64 n bs : fixed 8 n bs -> scalar KFixed64 W64 (VU64 n) bs
| sc_sfixed32 n z bs : fixed 4 n bs -> twos 32 n z -> scalar KSfixed32 W32 (VI32 z) bs
| sc_sfixed64 n z bs : fixed 8 n bs -> twos 64 n z -> scalar KSfixed64 W64 (VI64 z) bs
| sc_float n bs : fixed 4 n bs -> scalar KFloat W32 (VF32 n) bs
| sc_double n bs : fixed 8 n bs -> scalar KDouble W64 (VF64 n) bs
| sc_string s bs : delimited s bs -> utf8_text s -> scalar KString WLen (VString s) bs
| sc_bytes s bs : delimited s bs -> scalar KBytes WLen (VBytes s) bs.

(** The values a field of a scalar kind can hold. *)
Inductive holds : kind -> value -> Prop :=
| h_bool b : holds KBool (VBool b)
| h_int32 z : holds KInt32 (VI32 z) | h_sint32 z : holds KSint32 (VI32 z) | h_sfixed32 z : holds KSfixed32 (VI32 z)
| h_int64 z : holds KInt64 (VI64 z) | h_sint64 z : holds KSint64 (VI64 z) | h_sfixed64 z : holds KSfixed64 (VI64 z)
| h_uint32 n : holds KUint32 (VU32 n) | h_fixed32 n : holds KFixed32 (VU32 n)
| h_uint64 n : holds KUint64 (VU64 n) | h_fixed64 n : holds KFixed64 (VU64 n)
| h_float n : holds KFloat (VF32 n) | h_double n : holds KDouble (VF64 n)
| h_string s : holds KString (VString s) | h_bytes s : holds KBytes (VBytes s)
| h_enum i z : holds (KEnum i) (VEnum z).

(** Kinds whose lists may be packed, and the wire type of their elements. *)
Inductive packs : kind -> wt -> Prop :=
| pk_bool : packs KBool WVarint | pk_int32 : packs KInt32 WVarint | pk_int64 : packs KInt64 WVarint
| pk_uint32 : packs KUint32 WVarint | pk_uint64 : packs KUint64 WVarint | pk_sint32 : packs KSint32 WVarint
| pk_sint64 : packs KSint64 WVarint | pk_enum i : packs (KEnum i) WVarint
| pk_fixed32 : packs KFixed32 W32 | pk_sfixed32 : packs KSfixed32 W32 | pk_float : packs KFloat W32
| pk_fixed64 : packs KFixed64 W64 | pk_sfixed64 : packs KSfixed64 W64 | pk_double : packs KDouble W64.

(** ** Reading *)

Section Read.
  Context (t : tables).
  (** The wire types that the record of a map field may carry: by the protobuf
      specification [eq WLen] (length-delimited). *)
  Context (entry_wt : wt -> Prop).

  (** [reads_value n f v w pl v']: a record of field [f] with wire type [w] and
      payload [pl], merged into the value [v], gives [v'].  [n] bounds the
      nesting of messages and groups. *)
  Inductive reads_value : nat -> fdl -> value -> wt -> bytes -> value -> Prop :=
  | rv_scalar n f v w x pl : holds (fd_kind f) v -> scalar (fd_kind f) w x pl -> reads_value n f v w pl x
  | rv_message n f i m m' body pl : fd_kind f = KMessage i ->
      delimited body pl -> reads_message n m body m' ->
      reads_value (S n) f (VMessage m) WLen pl (VMessage m')
  | rv_group n f i m m' body e : fd_kind f = KGroup i ->
      reads_message n m body m' -> record_key (fd_number f) WEnd e ->
      reads_value (S n) f (VMessage m) WStart (body ++ e) (VMessage m')
  | rv_packed n f vs w xs pls pl : fd_is_list f = true -> packs (fd_kind f) w ->
      Forall2 (scalar (fd_kind f) w) xs pls -> delimited (concat pls) pl ->
      reads_value n f (VList vs) WLen pl (VList (vs ++ xs))
  | rv_element n f vs w x pl : fd_is_list f = true -> ~ (w = WLen /\ exists w', packs (fd_kind f) w') ->
      reads_value n f (kind_default t (fd_kind f)) w pl x ->
      reads_value n f (VList vs) w pl (VList (vs ++ [x]))
  | rv_entry n f i kvs w kf vf k0 k v body pl : entry_wt w ->
      fd_is_map f = true -> kind_msg (fd_kind f) = Some i ->
      entry_key t i = Some kf -> entry_value t i = Some vf -> mk_default (fd_kind kf) = Some k0 ->
      delimited body pl -> reads_entry n kf vf k0 (fd_default_value t vf) body k v ->
      reads_value n f (VMap kvs) w pl (VMap (map_insert k v kvs))
  (** the records of one map entry *)
  with reads_entry : nat -> fdl -> fdl -> mapkey -> value -> bytes -> mapkey -> value -> Prop :=
  | re_end n kf vf k v : reads_entry n kf vf k v [] k v
  | re_key n kf vf k v kb w pl rest k1 k' v' : record_key 1 w kb ->
      holds (fd_kind kf) (mk_value k) -> scalar (fd_kind kf) w (mk_value k1) pl ->
      reads_entry n kf vf k1 v rest k' v' -> reads_entry n kf vf k v (kb ++ pl ++ rest) k' v'
  | re_value n kf vf k v kb w pl rest v1 k' v' : record_key 2 w kb ->
      reads_value n vf v w pl v1 ->
      reads_entry n kf vf k v1 rest k' v' -> reads_entry n kf vf k v (kb ++ pl ++ rest) k' v'
  | re_other n kf vf k v kb u pl rest k' v' : record_key (uf_number u) (uf_wire_type u) kb ->
      uf_number u <> 1 -> uf_number u <> 2 -> skipped n u pl ->
      reads_entry n kf vf k v rest k' v' -> reads_entry n kf vf k v (kb ++ pl ++ rest) k' v'
  (** the records of a message *)
  with reads_message : nat -> dynmsg -> bytes -> dynmsg -> Prop :=
  | rm_end n m : reads_message n m [] m
  | rm_field n m kb w pl rest f v m' : record_key (fd_number f) w kb ->
      find_desc t (dm_desc m) (fd_number f) = Some f ->
      reads_value n f (get_field_value t m f) w pl v ->
      reads_message n (with_fields m (fs_set f v (dm_fields m))) rest m' ->
      reads_message n m (kb ++ pl ++ rest) m'
  | rm_unknown n m kb u pl rest fs m' : record_key (uf_number u) (uf_wire_type u) kb ->
      find_desc t (dm_desc m) (uf_number u) = None -> raw n u pl ->
      fs_add_unknown (uf_number u) u (dm_fields m) = Ok fs ->
      reads_message n (with_fields m fs) rest m' ->
      reads_message n m (kb ++ pl ++ rest) m'.
End Read.

Scheme reads_value_mut := Induction for reads_value Sort Prop
  with reads_entry_mut := Induction for reads_entry Sort Prop
  with reads_message_mut := Induction for reads_message Sort Prop.
Combined Scheme reads_mut from reads_value_mut, reads_entry_mut, reads_message_mut.
Scheme raw_mut := Induction for raw Sort Prop
  with raws_mut := Induction for raws Sort Prop.
Combined Scheme raw_both from raw_mut, raws_mut.
Scheme skipped_mut := Induction for skipped Sort Prop
  with skips_mut := Induction for skips Sort Prop.
Combined Scheme skip_both from skipped_mut, skips_mut.

(** ** Writing *)

Definition short_key (num : N) (w : wt) (bs : bytes) : Prop := shortest (8 * num + wt_num w) bs.
Definition short_delimited (body bs : bytes) : Prop :=
  exists lb, shortest (N.of_nat (length body)) lb /\ bs = lb ++ body.

(** [written k w x bs]: the one form in which a value is written.  Negative
    int32 and enum values are extended to 64 bits. *)
Inductive written : kind -> wt -> value -> bytes -> Prop :=
| wr_bool (v : bool) bs : shortest (if v then 1 else 0) bs -> written KBool WVarint (VBool v) bs
| wr_int32 n z bs : n < 18446744073709551616 -> twos 64 n z -> shortest n bs -> written KInt32 WVarint (VI32 z) bs
| wr_int64 n z bs : n < 18446744073709551616 -> twos 64 n z -> shortest n bs -> written KInt64 WVarint (VI64 z) bs
| wr_uint32 n bs : shortest n bs -> written KUint32 WVarint (VU32 n) bs
| wr_uint64 n bs : shortest n bs -> written KUint64 WVarint (VU64 n) bs
| wr_sint32 n z bs : zigzag n z -> shortest n bs -> written KSint32 WVarint (VI32 z) bs
| wr_sint64 n z bs : zigzag n z -> shortest n bs -> written KSint64 WVarint (VI64 z) bs
| wr_enum i n z bs : n < 18446744073709551616 -> twos 64 n z -> shortest n bs -> written (KEnum i) WVarint (VEnum z) bs
| wr_fixed32 n bs : fixed 4 n bs -> written KFixed32 W32 (VU32 n) bs
| wr_fixed64 n bs : fixed 8 n bs -> written KFixed64 W64 (VU64 n) bs
| wr_sfixed32 n z bs : fixed 4 n bs -> twos 32 n z -> written KSfixed32 W32 (VI32 z) bs
| wr_sfixed64 n z bs : fixed 8 n bs -> twos 64 n z -> written KSfixed64 W64 (VI64 z) bs
| wr_float n bs : fixed 4 n bs -> written KFloat W32 (VF32 n) bs
| wr_double n bs : fixed 8 n bs -> written KDouble W64 (VF64 n) bs
| wr_string s bs : short_delimited s bs -> written KString WLen (VString s) bs
| wr_bytes s bs : short_delimited s bs -> written KBytes WLen (VBytes s) bs.

(** An unknown field is written as the record it is. *)
Inductive writes_raw : ufield -> bytes -> Prop :=
| ww_varint num v kb bs : short_key num WVarint kb -> shortest v bs -> writes_raw (UVarint num v) (kb ++ bs)
| ww_64 num kb bs : short_key num W64 kb -> writes_raw (U64 num bs) (kb ++ bs)
| ww_len num body kb bs : short_key num WLen kb -> short_delimited body bs -> writes_raw (ULen num body) (kb ++ bs)
| ww_group num us bss kb e : short_key num WStart kb -> short_key num WEnd e -> Forall2 writes_raw us bss ->
    writes_raw (UGroup num us) (kb ++ concat bss ++ e)
| ww_32 num kb bs : short_key num W32 kb -> writes_raw (U32 num bs) (kb ++ bs).

(** The key of a map entry: nothing when it is the zero of its kind and the key
    field does not track presence. *)
Definition writes_key (kf : fdl) (k : mapkey) (bs : bytes) : Prop :=
  (fd_presence kf = false /\ mk_default (fd_kind kf) = Some k /\ bs = []) \/
  exists w kb pl, (fd_presence kf = true \/ mk_default (fd_kind kf) <> Some k) /\
    short_key (fd_number kf) w kb /\ written (fd_kind kf) w (mk_value k) pl /\ bs = kb ++ pl.

Section Write.
  Context (t : tables).

  (** [writes f v bs]: what is written for the value [v] of field [f]. *)
  Inductive writes : fdl -> value -> bytes -> Prop :=
  | ws_absent f v : fd_presence f = false -> is_default_for t f v = true -> writes f v []
  | ws_scalar f v w kb bs : fd_has t f v = true -> short_key (fd_number f) w kb -> written (fd_kind f) w v bs ->
      writes f v (kb ++ bs)
  | ws_message f i m kb body bs : fd_has t f (VMessage m) = true -> fd_kind f = KMessage i ->
      short_key (fd_number f) WLen kb -> writes_message m body -> short_delimited body bs ->
      writes f (VMessage m) (kb ++ bs)
  | ws_group f i m kb body e : fd_has t f (VMessage m) = true -> fd_kind f = KGroup i ->
      short_key (fd_number f) WStart kb -> writes_message m body -> short_key (fd_number f) WEnd e ->
      writes f (VMessage m) (kb ++ body ++ e)
  | ws_packed f vs w kb bss bs : fd_has t f (VList vs) = true -> fd_is_list f = true -> fd_packed f = true ->
      packs (fd_kind f) w -> short_key (fd_number f) WLen kb ->
      Forall2 (written (fd_kind f) w) vs bss -> short_delimited (concat bss) bs ->
      writes f (VList vs) (kb ++ bs)
  | ws_list f vs bss : fd_has t f (VList vs) = true -> fd_is_list f = true -> fd_packed f = false ->
      Forall2 (writes f) vs bss -> writes f (VList vs) (concat bss)
  | ws_map f i kf vf kvs bss : fd_has t f (VMap kvs) = true -> fd_is_map f = true -> kind_msg (fd_kind f) = Some i ->
      entry_key t i = Some kf -> entry_value t i = Some vf ->
      Forall2 (fun kv bs => exists kb kbs vbs ebs, short_key (fd_number f) WLen kb /\
        writes_key kf (fst kv) kbs /\ writes vf (snd kv) vbs /\ short_delimited (kbs ++ vbs) ebs /\ bs = kb ++ ebs) kvs bss ->
      writes f (VMap kvs) (concat bss)
  (** the fields of a message in the order of iteration *)
  with writes_message : dynmsg -> bytes -> Prop :=
  | wm m bss : Forall2 writes_item (fs_iter t (dm_desc m) false false (dm_fields m)) bss ->
      writes_message m (concat bss)
  with writes_item : item value -> bytes -> Prop :=
  | wi_field f v bs : writes f v bs -> writes_item (IField f v) bs
  | wi_ext f v bs : writes f v bs -> writes_item (IExt f v) bs
  | wi_unknown us bss : Forall2 writes_raw us bss -> writes_item (IUnk us) (concat bss).
End Write.
