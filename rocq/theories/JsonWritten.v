(** What a message is written as in JSON.  The specification for C61. *)
From Coq Require Import String.
From Verif Require Import Base BaseProofs Wire Unknown Value Descr Fields Codec DescrOk FieldsProofs Float TextFormat Json JsonSer
  JsonNumbers JsonMeaning.
Open Scope list_scope.
Open Scope N_scope.

(** ** Scalars *)

(** decimal digits without superfluous zeros, after a minus sign if negative *)
Definition decimal (n : N) (s : str) : Prop := numeral s n /\ forall r, s = 48 :: r -> r = [].
Inductive int_shown : Z -> str -> Prop :=
| sh_nat n s : decimal n s -> int_shown (Z.of_N n) s
| sh_neg n s : n <> 0 -> decimal n s -> int_shown (- Z.of_N n)%Z (45 :: s).

(** floats that are no numbers have names *)
Inductive f32_shown (b : N) : json -> Prop :=
| f32_number : b mod 2 ^ 31 < 255 * 2 ^ 23 -> f32_shown b (JF32 b)
| f32_not_a_number : 255 * 2 ^ 23 < b mod 2 ^ 31 -> f32_shown b (JStr (s2b "NaN"))
| f32_inf : b = 255 * 2 ^ 23 -> f32_shown b (JStr (s2b "Infinity"))
| f32_minus_inf : b = 2 ^ 31 + 255 * 2 ^ 23 -> f32_shown b (JStr (s2b "-Infinity")).
Inductive f64_shown (b : N) : json -> Prop :=
| f64_number : b mod 2 ^ 63 < 2047 * 2 ^ 52 -> f64_shown b (JF64 b)
| f64_not_a_number : 2047 * 2 ^ 52 < b mod 2 ^ 63 -> f64_shown b (JStr (s2b "NaN"))
| f64_inf : b = 2047 * 2 ^ 52 -> f64_shown b (JStr (s2b "Infinity"))
| f64_minus_inf : b = 2 ^ 63 + 2047 * 2 ^ 52 -> f64_shown b (JStr (s2b "-Infinity")).

(** ** Field masks *)

(** foo_bar for fooBar; no capitals, and after an underscore a letter; one at
    the end is dropped *)
Inductive snake : str -> str -> Prop :=
| sn_nil : snake [] []
| sn_last : snake [95] []
| sn_under c s s' : 97 <= c <= 122 -> snake s s' -> snake (95 :: c :: s) ((c - 32) :: s')
| sn_other c s s' : ~ 65 <= c <= 90 -> c <> 95 -> snake s s' -> snake (c :: s) (c :: s').
Definition path_shown (p s : str) : Prop :=
  exists l l', pieces 46 p l /\ Forall2 snake l l' /\ s = join_with 46 l'.
(** commas between the paths, but none before the first that is not empty *)
Fixpoint after_empty (l : list str) : list str := match l with [] :: r => after_empty r | _ => l end.
Definition mask_shown (ps : list str) (s : str) : Prop :=
  exists l, Forall2 path_shown ps l /\ s = join_with 44 (after_empty l).

(** ** google.protobuf.Value *)

(** member [n] of a typed message is set to [v] *)
Definition is_set (x : dynmsg) (n : N) (v : value) : Prop := bt_get n (dm_fields x) = Some (SVal v).
(** field [n] of a typed message is [v] *)
Definition typed_is (x : dynmsg) (n : N) (v : value) : Prop := get_field_by_number wkt_tables x n = Some v.
(** Objects come from a BTreeMap: by key. *)
Inductive value_written : dynmsg -> json -> Prop :=
| vw_unset x : (forall n v, In n [1; 2; 3; 4; 5; 6] -> ~ is_set x n v) -> value_written x JNull
| vw_null x v : is_set x 1 v -> value_written x JNull
| vw_number x b : is_set x 2 (VF64 b) -> b mod 2 ^ 63 < 2047 * 2 ^ 52 -> value_written x (JF64 b)
| vw_string x s : is_set x 3 (VString s) -> value_written x (JStr s)
| vw_bool x b : is_set x 4 (VBool b) -> value_written x (JBool b)
| vw_struct x y kvs ms : is_set x 5 (VMessage y) -> typed_is y 1 (VMap kvs) -> values_of_keys kvs ms ->
    value_written x (JObj (sort_members ms))
| vw_list x y vs js : is_set x 6 (VMessage y) -> typed_is y 1 (VList vs) -> values_of_list vs js -> value_written x (JArr js)
with values_of_list : list value -> list json -> Prop :=
| vl_nil : values_of_list [] []
| vl_cons x l j js : value_written x j -> values_of_list l js -> values_of_list (VMessage x :: l) (j :: js)
with values_of_keys : list (mapkey * value) -> list (str * json) -> Prop :=
| vk_nil : values_of_keys [] []
| vk_cons s x l j js : value_written x j -> values_of_keys l js ->
    values_of_keys ((MKString s, VMessage x) :: l) ((s, j) :: js).

Section Written.
  Variables (E : json_externs) (t : tables) (o : jopt).

  Inductive scalar_shown : kind -> value -> json -> Prop :=
  | sw_bool k b : scalar_shown k (VBool b) (JBool b)
  | sw_i32 k z : scalar_shown k (VI32 z) (JInt z)
  | sw_u32 k n : scalar_shown k (VU32 n) (JInt (Z.of_N n))
  | sw_i64 k z : j_stringify o = false -> scalar_shown k (VI64 z) (JInt z)
  | sw_i64_text k z s : j_stringify o = true -> int_shown z s -> scalar_shown k (VI64 z) (JStr s)
  | sw_u64 k n : j_stringify o = false -> scalar_shown k (VU64 n) (JInt (Z.of_N n))
  | sw_u64_text k n s : j_stringify o = true -> decimal n s -> scalar_shown k (VU64 n) (JStr s)
  | sw_f32 k b j : f32_shown b j -> scalar_shown k (VF32 b) j
  | sw_f64 k b j : f64_shown b j -> scalar_shown k (VF64 b) j
  | sw_string k s : scalar_shown k (VString s) (JStr s)
  | sw_bytes k bs s : b64_text false true bs s -> scalar_shown k (VBytes bs) (JStr s)
  | sw_null e z : is_null_enum t e = true -> scalar_shown (KEnum e) (VEnum z) JNull
  | sw_enum_number e z : is_null_enum t e = false -> j_enum_numbers o = true -> scalar_shown (KEnum e) (VEnum z) (JInt z)
  | sw_enum_name e z s : is_null_enum t e = false -> j_enum_numbers o = false -> json_enum_name E t e z = Some s ->
      scalar_shown (KEnum e) (VEnum z) (JStr s)
  | sw_enum_unknown e z : is_null_enum t e = false -> j_enum_numbers o = false -> json_enum_name E t e z = None ->
      scalar_shown (KEnum e) (VEnum z) (JInt z).
  (** in a wrapper, floats are given to the format whatever they are *)
  Inductive wrapped_shown : value -> json -> Prop :=
  | wr_f32 b : wrapped_shown (VF32 b) (JF32 b)
  | wr_f64 b : wrapped_shown (VF64 b) (JF64 b)
  | wr_other v j : (forall b, v <> VF32 b) -> (forall b, v <> VF64 b) -> scalar_shown KBool v j -> wrapped_shown v j.
  Inductive key_shown : mapkey -> str -> Prop :=
  | kw_true : key_shown (MKBool true) (s2b "true")
  | kw_false : key_shown (MKBool false) (s2b "false")
  | kw_i32 z s : int_shown z s -> key_shown (MKI32 z) s
  | kw_i64 z s : int_shown z s -> key_shown (MKI64 z) s
  | kw_u32 n s : decimal n s -> key_shown (MKU32 n) s
  | kw_u64 n s : decimal n s -> key_shown (MKU64 n) s
  | kw_string s : key_shown (MKString s) s.

  (** ** Messages *)

  (** the fields to be written, by number: those that are set and, unless
      defaults are skipped, those without presence *)
  Definition fields_listed (m : dynmsg) (l : list (fdl * value)) : Prop :=
    increasing (map (fun fv => fd_number (fst fv)) l) /\
    forall f v, In (f, v) l <-> get_field t (dm_desc m) (fd_number f) = Some f /\ v = get_field_value t m f /\
      (has_field t m f = true \/ j_skip_default o = false /\ fd_presence f = false).
  (** then the extensions that are set *)
  Definition exts_listed (m : dynmsg) (l : list (fdl * value)) : Prop :=
    increasing (map (fun fv => fd_number (fst fv)) l) /\
    forall f v, In (f, v) l <-> get_ext t (dm_desc m) (fd_number f) = Some f /\ v = get_field_value t m f /\ has_field t m f = true.
  Definition field_name (f : fdl) : str := if j_proto_names o then fd_name f else fd_json f.

  (** [x] is the well-known message number [w] with the content of [m] *)
  Definition content (m : dynmsg) (w : nat) (x : dynmsg) : Prop :=
    exists b, enc_msg t m = Ok b /\ msg_decode wkt_tables w b = Ok x.

  Inductive value_shown : kind -> value -> json -> Prop :=
  | vs_scalar k v j : scalar_shown k v j -> value_shown k v j
  | vs_msg k m j : msg_shown m j -> value_shown k (VMessage m) j
  | vs_list k l js : items_shown k l js -> value_shown k (VList l) (JArr js)
  | vs_map k e vf kvs ms : kind_msg k = Some e -> get_field t e 2 = Some vf -> entries_shown (fd_kind vf) kvs ms ->
      value_shown k (VMap kvs) (JObj ms)
  with items_shown : kind -> list value -> list json -> Prop :=
  | is_nil k : items_shown k [] []
  | is_cons k v l j js : value_shown k v j -> items_shown k l js -> items_shown k (v :: l) (j :: js)
  with entries_shown : kind -> list (mapkey * value) -> list (str * json) -> Prop :=
  | es_nil k : entries_shown k [] []
  | es_cons k key v l s j ms : key_shown key s -> value_shown k v j -> entries_shown k l ms ->
      entries_shown k ((key, v) :: l) ((s, j) :: ms)
  with members_shown : (fdl -> str) -> list (fdl * value) -> list (str * json) -> Prop :=
  | bs_nil name : members_shown name [] []
  | bs_cons name f v l j ms : value_shown (fd_kind f) v j -> members_shown name l ms ->
      members_shown name ((f, v) :: l) ((name f, j) :: ms)
  with fields_shown : dynmsg -> list (str * json) -> Prop :=
  | fs_all m fs xs ms ms' : fields_listed m fs -> exts_listed m xs -> members_shown field_name fs ms -> members_shown fd_json xs ms' ->
      fields_shown m (ms ++ ms')
  with msg_shown : dynmsg -> json -> Prop :=
  | gs_fields m ms : wkt_of t (dm_desc m) = None -> fields_shown m ms -> msg_shown m (JObj ms)
  | gs_empty m : wkt_of t (dm_desc m) = Some WEmpty -> msg_shown m (JObj [])
  | gs_timestamp m x sec nan : wkt_of t (dm_desc m) = Some WTimestamp -> content m 1 x ->
      typed_is x 1 (VI64 sec) -> typed_is x 2 (VI32 nan) -> (-62135596800 <= sec <= 253402300799)%Z ->
      msg_shown m (JStr (jx_show_timestamp E sec nan))
  | gs_duration m x sec nan : wkt_of t (dm_desc m) = Some WDuration -> content m 2 x ->
      typed_is x 1 (VI64 sec) -> typed_is x 2 (VI32 nan) -> (-315576000000 <= sec <= 315576000000)%Z ->
      (-999999999 <= nan <= 999999999)%Z -> msg_shown m (JStr (jx_show_duration E sec nan))
  | gs_mask m x ps s : wkt_of t (dm_desc m) = Some WMask -> content m 7 x -> typed_is x 1 (VList (map VString ps)) ->
      mask_shown ps s -> msg_shown m (JStr s)
  | gs_value m x j : wkt_of t (dm_desc m) = Some WValue -> content m 5 x -> value_written x j -> msg_shown m j
  | gs_list m x vs js : wkt_of t (dm_desc m) = Some WList -> content m 6 x -> typed_is x 1 (VList vs) ->
      values_of_list vs js -> msg_shown m (JArr js)
  | gs_struct m x kvs ms : wkt_of t (dm_desc m) = Some WStruct -> content m 3 x -> typed_is x 1 (VMap kvs) ->
      values_of_keys kvs ms -> msg_shown m (JObj (sort_members ms))
  | gs_wrapper m i x v j : wkt_of t (dm_desc m) = Some (WWrap i) -> content m i x -> typed_is x 1 v ->
      wrapped_shown v j -> msg_shown m j
  (** an Any: its type, and the members of the message in it, or for a
      well-known type the member [value] *)
  | gs_any m x url b name i body ms : wkt_of t (dm_desc m) = Some WAny -> content m 0 x ->
      typed_is x 1 (VString url) -> typed_is x 2 (VBytes b) -> type_url_name url = Some name ->
      find_msg t name = Some i -> msg_decode t i b = Ok body -> body_shown body ms ->
      msg_shown m (JObj ((s2b "@type", JStr url) :: ms))
  with body_shown : dynmsg -> list (str * json) -> Prop :=
  | ys_fields m ms : wkt_of t (dm_desc m) = None -> fields_shown m ms -> body_shown m ms
  | ys_value m j : wkt_of t (dm_desc m) <> None -> msg_shown m j -> body_shown m [(s2b "value", j)].
End Written.

Scheme vw_ind := Induction for value_written Sort Prop
  with vl_ind := Induction for values_of_list Sort Prop
  with vk_ind := Induction for values_of_keys Sort Prop.
Combined Scheme value_written_ind' from vw_ind, vl_ind, vk_ind.
Scheme vs_ind := Induction for value_shown Sort Prop
  with its_ind := Induction for items_shown Sort Prop
  with ens_ind := Induction for entries_shown Sort Prop
  with mbs_ind := Induction for members_shown Sort Prop
  with fds_ind := Induction for fields_shown Sort Prop
  with msh_ind := Induction for msg_shown Sort Prop
  with bds_ind := Induction for body_shown Sort Prop.
Combined Scheme written_ind from vs_ind, its_ind, ens_ind, mbs_ind, fds_ind, msh_ind, bds_ind.
