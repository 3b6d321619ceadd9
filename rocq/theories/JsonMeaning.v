(** What a JSON document means for a message type.  The specification for C60. *)
From Coq Require Import String.
From Verif Require Import Base BaseProofs Wire Unknown Value Descr Fields Codec DescrOk Float TextFormat TextParse Json JsonSer
  JsonNumbers JsonDe JsonSafe Prop_JsonSafe Prop_JsonRules.
Open Scope list_scope.
Open Scope N_scope.

(** ** Numbers *)

Definition digit (c : N) : Prop := 48 <= c <= 57.
(** decimal digits, and the number they write *)
Definition numeral (s : str) (n : N) : Prop :=
  s <> [] /\ Forall digit s /\ n = fold_left (fun a c => a * 10 + (c - 48)) s 0.
Inductive int_text (signed : bool) : str -> Z -> Prop :=
| it_digits s n : numeral s n -> int_text signed s (Z.of_N n)
| it_plus s n : numeral s n -> int_text signed (43 :: s) (Z.of_N n)
| it_minus s n : signed = true -> numeral s n -> int_text signed (45 :: s) (- Z.of_N n)%Z.

(** An integer of a type with the given limits: a number with that value, or a
    string with its digits.  Of the 64-bit types ([wide]), the double just
    above the maximum is read as the maximum (C44). *)
Inductive int_says (lo hi : Z) (wide : bool) : json -> Z -> Prop :=
| is_int z : (lo <= z <= hi)%Z -> int_says lo hi wide (JInt z) z
| is_f64 b z : f64_is b z -> (lo <= z <= hi)%Z -> int_says lo hi wide (JF64 b) z
| is_limit b : wide = true -> f64_is b (hi + 1)%Z -> int_says lo hi wide (JF64 b) hi
| is_f32 b z : int_says lo hi wide (JF64 (f32_to_f64 b)) z -> int_says lo hi wide (JF32 b) z
| is_str s z : int_text (lo <? 0)%Z s z -> (lo <= z <= hi)%Z -> int_says lo hi wide (JStr s) z.

(** an exponent: nothing, or e, perhaps a sign, and digits *)
Inductive exponent_text : str -> Z -> Prop :=
| et_none : exponent_text [] 0
| et_some c s z : c = 101 \/ c = 69 -> int_text true s z -> exponent_text (c :: s) z.
(** digits, perhaps a point and digits, perhaps an exponent: the float nearest
    to digits * 10^exponent *)
Inductive decimal_says (round : N -> N -> N) : str -> N -> Prop :=
| ds_decimal i point f x z n : Forall digit i -> Forall digit f -> (point = [] /\ f = [] \/ point = [46]) ->
    numeral (i ++ f) n -> exponent_text x z ->
    decimal_says round (i ++ point ++ f ++ x) (dec_round round n (z - Z.of_nat (length f))).
(** a float in a string: a decimal number, or inf, infinity, nan in any case *)
Inductive float_magnitude (round : N -> N -> N) (inf nan : N) : str -> N -> Prop :=
| fm_decimal s b : decimal_says round s b -> float_magnitude round inf nan s b
| fm_inf s : map ascii_lower s = s2b "inf" \/ map ascii_lower s = s2b "infinity" -> float_magnitude round inf nan s inf
| fm_nan s : map ascii_lower s = s2b "nan" -> float_magnitude round inf nan s nan.
Inductive float_text (round : N -> N -> N) (inf nan sign : N) : str -> N -> Prop :=
| ft_plain s b : float_magnitude round inf nan s b -> float_text round inf nan sign s b
| ft_plus s b : float_magnitude round inf nan s b -> float_text round inf nan sign (43 :: s) b
| ft_minus s b : float_magnitude round inf nan s b -> float_text round inf nan sign (45 :: s) (sign + b).

Inductive f64_says : json -> N -> Prop :=
| d_f64 b : f64_says (JF64 b) b
| d_f32 b : f64_says (JF32 b) (f32_to_f64 b)
| d_int z : f64_says (JInt z) (int_to_f64 z)
| d_str s b : float_text round64 inf64 nan64 sign64 s b -> f64_says (JStr s) b.
(** a double is taken for a float if it is NaN or not above the largest float *)
Inductive f32_says : json -> N -> Prop :=
| s_f64 b : f64_nan b = true \/ f64_mag b <= f32_max_bits -> f32_says (JF64 b) (f64_to_f32 b)
| s_f32 b : f32_says (JF32 b) b
| s_int z : f32_says (JInt z) (int_to_f32 z)
| s_str s b : float_text round32 inf32 nan32 sign32 s b -> f32_says (JStr s) b.

(** ** Base64 *)

(** Symbols of one of the alphabets and then perhaps equals signs, which may
    fill the last group of four or part of it.  The bits of the symbols are
    those of the bytes and fewer than six more, whatever these are. *)
Definition b64_says (text bs : bytes) : Prop :=
  exists url syms p rest, Forall (fun v => v < 64) syms /\ bytes_ok bs /\
    text = map (fun v => nth (N.to_nat v) (b64_alphabet url) 0) syms ++ repeat 61 p /\
    flat_map (bits 6) syms = flat_map (bits 8) bs ++ rest /\ (length rest < 6)%nat /\
    (p = 0 \/ length syms mod 4 <> 0 /\ length syms mod 4 + p <= 4)%nat.

(** ** Field masks *)

(** fooBar for foo_bar *)
Inductive camel : str -> str -> Prop :=
| ca_nil : camel [] []
| ca_upper c s s' : 65 <= c <= 90 -> camel s s' -> camel (c :: s) (95 :: (c + 32) :: s')
| ca_other c s s' : ~ 65 <= c <= 90 -> c <> 95 -> camel s s' -> camel (c :: s) (c :: s').
(** the pieces of a string between separators *)
Definition pieces (sep : N) (s : str) (l : list str) : Prop :=
  l <> [] /\ s = join_with sep l /\ Forall (fun p => ~ In sep p) l.
Definition path_says (s p : str) : Prop :=
  exists l l', pieces 46 s l /\ Forall2 camel l l' /\ p = join_with 46 l'.
(** the paths between commas; empty ones are left out *)
Definition mask_says (s : str) (ps : list str) : Prop :=
  exists l, pieces 44 s l /\ Forall2 path_says (filter (fun p => negb (bytes_eqb p [])) l) ps.

(** ** google.protobuf.Value *)

(** Any document is a Value: the message of prost_types it is read as.  Objects
    are BTreeMaps: sorted by key, the last of equal keys. *)
Definition value_with (n : N) (v : value) : dynmsg := DM 5 [(n, SVal v)].
Definition list_with (vs : list value) : dynmsg := DM 6 [(1, SVal (VList vs))].
Definition struct_with (kvs : list (str * value)) : dynmsg :=
  DM 3 [(1, SVal (VMap (map (fun kv => (MKString (fst kv), snd kv)) (sort_members kvs))))].
Fixpoint value_of (j : json) : dynmsg :=
  match j with
  | JNull => value_with 1 (VEnum 0)
  | JBool b => value_with 4 (VBool b)
  | JInt z => value_with 2 (VF64 (int_to_f64 z))
  | JF32 b => value_with 2 (VF64 (f32_to_f64 b))
  | JF64 b => value_with 2 (VF64 b)
  | JStr s => value_with 3 (VString s)
  | JArr l => value_with 6 (VMessage (list_with (map (fun x => VMessage (value_of x)) l)))
  | JObj l => value_with 5 (VMessage (struct_with (map (fun kv => (fst kv, VMessage (value_of (snd kv)))) l)))
  end.

(** the value in each wrapper *)
Definition wrapper_kind (i : nat) : option kind :=
  nth_error [KFloat; KDouble; KInt32; KInt64; KUint32; KUint64; KBool; KString; KBytes] (i - 8).

(** ** Documents kept for later *)

(** The members of an Any before its type is known are kept as
    serde_value::Value, whose maps are BTreeMaps, in a HashMap. *)
Fixpoint buffered (j : json) : json :=
  match j with
  | JArr l => JArr (map buffered l)
  | JObj l => JObj (sort_members (map (fun kv => (fst kv, buffered (snd kv))) l))
  | _ => j
  end.
Definition kept (l : list (str * json)) : list (str * json) :=
  fold_left (fun acc kv => hash_insert (fst kv) (buffered (snd kv)) acc) l [].

Section Meaning.
  Variables (E : json_externs) (t : tables) (deny : bool).

  (** ** Scalars *)
  Inductive scalar_says : kind -> json -> value -> Prop :=
  | ss_double j b : f64_says j b -> scalar_says KDouble j (VF64 b)
  | ss_float j b : f32_says j b -> scalar_says KFloat j (VF32 b)
  | ss_i32 k j z : In k [KInt32; KSint32; KSfixed32] -> int_says (- 2 ^ 31) (2 ^ 31 - 1) false j z -> scalar_says k j (VI32 z)
  | ss_i64 k j z : In k [KInt64; KSint64; KSfixed64] -> int_says (- 2 ^ 63) (2 ^ 63 - 1) true j z -> scalar_says k j (VI64 z)
  | ss_u32 k j z : In k [KUint32; KFixed32] -> int_says 0 (2 ^ 32 - 1) false j z -> scalar_says k j (VU32 (Z.to_N z))
  | ss_u64 k j z : In k [KUint64; KFixed64] -> int_says 0 (2 ^ 64 - 1) true j z -> scalar_says k j (VU64 (Z.to_N z))
  | ss_bool b : scalar_says KBool (JBool b) (VBool b)
  | ss_string s : scalar_says KString (JStr s) (VString s)
  | ss_bytes s b : b64_says s b -> scalar_says KBytes (JStr s) (VBytes b)
  | ss_enum_name e s z : is_null_enum t e = false -> enum_number t e s = Some z -> scalar_says (KEnum e) (JStr s) (VEnum z)
  | ss_enum_number e z : is_null_enum t e = false -> (- 2 ^ 31 <= z < 2 ^ 31)%Z -> scalar_says (KEnum e) (JInt z) (VEnum z)
  | ss_null e : is_null_enum t e = true -> scalar_says (KEnum e) JNull (VEnum 0)
  | ss_null_name e : is_null_enum t e = true -> scalar_says (KEnum e) (JStr (s2b "NULL_VALUE")) (VEnum 0).
  (** the name of an enum value that is not declared: ignored, unless asked *)
  Definition unknown_name (k : kind) (j : json) : Prop :=
    deny = false /\ exists e s, k = KEnum e /\ j = JStr s /\
      if is_null_enum t e then s <> s2b "NULL_VALUE" else enum_number t e s = None.

  (** the key of a map entry *)
  Inductive key_says : kind -> str -> mapkey -> Prop :=
  | ks_i32 k s z : In k [KInt32; KSint32; KSfixed32] -> int_text true s z -> (- 2 ^ 31 <= z < 2 ^ 31)%Z -> key_says k s (MKI32 z)
  | ks_i64 k s z : In k [KInt64; KSint64; KSfixed64] -> int_text true s z -> (- 2 ^ 63 <= z < 2 ^ 63)%Z -> key_says k s (MKI64 z)
  | ks_u32 k s n : In k [KUint32; KFixed32] -> int_text false s (Z.of_N n) -> n < 2 ^ 32 -> key_says k s (MKU32 n)
  | ks_u64 k s n : In k [KUint64; KFixed64] -> int_text false s (Z.of_N n) -> n < 2 ^ 64 -> key_says k s (MKU64 n)
  | ks_true : key_says KBool (s2b "true") (MKBool true)
  | ks_false : key_says KBool (s2b "false") (MKBool false)
  | ks_string s : key_says KString s (MKString s).

  (** ** Messages *)

  (** [m] is a message of type [d] with the content of the well-known message
      [x]: what the encoding of [x] decodes to *)
  Definition carries (d : nat) (x m : dynmsg) : Prop :=
    exists b, enc_msg wkt_tables x = Ok b /\ msg_decode t d b = Ok m.
  (** [m] holds, for each field, what was given to it last *)
  Definition holds (d : nat) (gs : list (fdl * value)) (m : dynmsg) : Prop :=
    oneofs_once gs /\ dm_desc m = d /\ bt_sorted (dm_fields m) /\
    forall n, bt_get n (dm_fields m) = option_map SVal (last_given n gs).

  (** [kind_means k j o]: as a value of kind [k] the document [j] is [o]; [None]
      if it is ignored.  [value_means f j o]: the same for the value of field
      [f], a list or a map perhaps; [field_means], for a member of an object,
      where null is no value. *)
  Inductive kind_means : kind -> json -> option value -> Prop :=
  | km_scalar k j v : scalar_says k j v -> kind_means k j (Some v)
  | km_ignored k j : unknown_name k j -> kind_means k j None
  | km_msg k d j m : kind_msg k = Some d -> msg_means d j m -> kind_means k j (Some (VMessage m))
  with items_mean : kind -> list json -> list value -> Prop :=
  | im_nil k : items_mean k [] []
  | im_value k j l v vs : kind_means k j (Some v) -> items_mean k l vs -> items_mean k (j :: l) (v :: vs)
  | im_ignored k j l vs : kind_means k j None -> items_mean k l vs -> items_mean k (j :: l) vs
  (** the entries one after the other, on top of those in [kvs] *)
  with entries_mean : kind -> fdl -> list (mapkey * value) -> list (str * json) -> list (mapkey * value) -> Prop :=
  | em_nil kk vf kvs : entries_mean kk vf kvs [] kvs
  | em_value kk vf kvs key j l k v kvs' : key_says kk key k -> value_means vf j (Some v) ->
      entries_mean kk vf (map_insert k v kvs) l kvs' -> entries_mean kk vf kvs ((key, j) :: l) kvs'
  | em_ignored kk vf kvs key j l k kvs' : key_says kk key k -> value_means vf j None ->
      entries_mean kk vf kvs l kvs' -> entries_mean kk vf kvs ((key, j) :: l) kvs'
  with value_means : fdl -> json -> option value -> Prop :=
  | vm_list f l vs : fd_is_list f = true -> items_mean (fd_kind f) l vs -> value_means f (JArr l) (Some (VList vs))
  | vm_map f e kf vf l kvs : fd_is_list f = false -> fd_is_map f = true -> kind_msg (fd_kind f) = Some e ->
      get_field t e 1 = Some kf -> get_field t e 2 = Some vf -> entries_mean (fd_kind kf) vf [] l kvs ->
      value_means f (JObj l) (Some (VMap kvs))
  | vm_one f j o : fd_is_list f = false -> fd_is_map f = false -> kind_means (fd_kind f) j o -> value_means f j o
  with field_means : fdl -> json -> option value -> Prop :=
  | fm_unset f : takes_null t f = false -> field_means f JNull None
  | fm_null_enum f e : takes_null t f = true -> fd_kind f = KEnum e -> field_means f JNull (Some (VEnum 0))
  | fm_null_value f d m : takes_null t f = true -> kind_msg (fd_kind f) = Some d -> carries d (value_of JNull) m ->
      field_means f JNull (Some (VMessage m))
  | fm_value f j o : j <> JNull -> value_means f j o -> field_means f j o
  (** what the members of an object give to the fields of type [d], in order *)
  with members_mean : nat -> list (str * json) -> list (fdl * value) -> Prop :=
  | mb_nil d : members_mean d [] []
  | mb_value d key j l f x gs : stands_for t d key (Some f) -> field_means f j (Some x) -> members_mean d l gs ->
      members_mean d ((key, j) :: l) ((f, x) :: gs)
  | mb_unset d key j l f gs : stands_for t d key (Some f) -> field_means f j None -> members_mean d l gs ->
      members_mean d ((key, j) :: l) gs
  | mb_unknown d key j l gs : stands_for t d key None -> deny = false -> members_mean d l gs ->
      members_mean d ((key, j) :: l) gs
  with msg_means : nat -> json -> dynmsg -> Prop :=
  | mm_members d l gs m : wkt_of t d = None -> members_mean d l gs -> holds d gs m -> msg_means d (JObj l) m
  | mm_timestamp d s sec nan m : wkt_of t d = Some WTimestamp -> rfc3339 s -> jx_parse_timestamp E s = Some (sec, nan) ->
      (-62135596800 <= sec <= 253402300799)%Z ->
      carries d (DM 1 [(1, SVal (VI64 sec)); (2, SVal (VI32 nan))]) m -> msg_means d (JStr s) m
  | mm_duration d s sec nan m : wkt_of t d = Some WDuration -> jx_parse_duration E s = Some (sec, nan) ->
      (-315576000000 <= sec <= 315576000000)%Z -> (-999999999 <= nan <= 999999999)%Z ->
      carries d (DM 2 [(1, SVal (VI64 sec)); (2, SVal (VI32 nan))]) m -> msg_means d (JStr s) m
  | mm_mask d s ps m : wkt_of t d = Some WMask -> mask_says s ps ->
      carries d (DM 7 [(1, SVal (VList (map VString ps)))]) m -> msg_means d (JStr s) m
  | mm_value d j m : wkt_of t d = Some WValue -> carries d (value_of j) m -> msg_means d j m
  | mm_list d l m : wkt_of t d = Some WList ->
      carries d (list_with (map (fun x => VMessage (value_of x)) l)) m -> msg_means d (JArr l) m
  | mm_struct d l m : wkt_of t d = Some WStruct ->
      carries d (struct_with (map (fun kv => (fst kv, VMessage (value_of (snd kv)))) l)) m -> msg_means d (JObj l) m
  | mm_empty d m : wkt_of t d = Some WEmpty -> carries d (DM 17 []) m -> msg_means d (JObj []) m
  | mm_wrapper d i k j v m : wkt_of t d = Some (WWrap i) -> wrapper_kind i = Some k -> scalar_says k j v ->
      carries d (DM i [(1, SVal v)]) m -> msg_means d j m
  (** an Any: the member @type says what the others are *)
  | mm_any d pre url post name i x b m : wkt_of t d = Some WAny ->
      ~ In (s2b "@type") (map fst pre) -> type_url_name url = Some name -> find_msg t name = Some i ->
      body_means i pre post x -> enc_msg t x = Ok b ->
      carries d (DM 0 [(1, SVal (VString url)); (2, SVal (VBytes b))]) m ->
      msg_means d (JObj (pre ++ (s2b "@type", JStr url) :: post)) m
  (** the members before and after @type: those of the message, or for a
      well-known type the one member that holds it *)
  with body_means : nat -> list (str * json) -> list (str * json) -> dynmsg -> Prop :=
  | bm_members i pre post gs x : wkt_of t i = None -> members_mean i (in_order E (kept pre) ++ post) gs -> holds i gs x ->
      body_means i pre post x
  | bm_before i pre post j x : wkt_of t i <> None -> assoc_s (s2b "value") (kept pre) = Some j -> msg_means i j x ->
      (deny = true -> post = [] /\ forall k, In k (map fst pre) -> k = s2b "value") -> body_means i pre post x
  | bm_after i pre mid j post x : wkt_of t i <> None -> ~ In (s2b "value") (map fst (pre ++ mid)) -> msg_means i j x ->
      (deny = true -> pre = [] /\ mid = [] /\ post = []) -> body_means i pre (mid ++ (s2b "value", j) :: post) x.
End Meaning.
