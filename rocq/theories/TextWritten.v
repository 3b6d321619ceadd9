(** What a message is written as in the text format.  The specification for
    C66. *)
From Coq Require Import String.
From Verif Require Import Base BaseProofs Wire Unknown Value Descr Fields Codec DescrOk FieldsProofs Float TextFormat WireSpec
  JsonNumbers JsonMeaning JsonWritten.
Open Scope list_scope.
Open Scope N_scope.

(** ** Documents and how they are laid out *)

(** a word, the fields of a message, or a list *)
Inductive tval :=
| TWord (s : bytes)
| TBody (fs : list (bytes * tval))
| TList (vs : list tval).

Fixpoint between (sep : bytes) (l : list bytes) : bytes :=
  match l with [] => [] | [a] => a | a :: r => a ++ sep ++ between sep r end.
Definition line (ind : nat) : bytes := 10 :: repeat 32 ind.
Definition colon (v : tval) : bytes := match v with TBody _ => [] | _ => s2b ":" end.

(** In short form nothing but what is needed, with commas between the fields.
    In long form each field is on a line of its own, two columns further in
    than the message it is in. *)
Fixpoint lay (long : bool) (ind : nat) (v : tval) : bytes :=
  let pad := if long then s2b " " else [] in
  match v with
  | TWord s => s
  | TBody [] => s2b "{}"
  | TBody fs =>
      if long
      then s2b "{" ++ line (2 + ind)
           ++ between (line (2 + ind)) (map (fun f => fst f ++ colon (snd f) ++ pad ++ lay long (2 + ind) (snd f)) fs)
           ++ line ind ++ s2b "}"
      else s2b "{" ++ between (s2b ",") (map (fun f => fst f ++ colon (snd f) ++ pad ++ lay long ind (snd f)) fs) ++ s2b "}"
  | TList vs => s2b "[" ++ between (s2b "," ++ pad) (map (lay long ind) vs) ++ s2b "]"
  end.
Definition lay_field (long : bool) (ind : nat) (f : bytes * tval) : bytes :=
  fst f ++ colon (snd f) ++ (if long then s2b " " else []) ++ lay long ind (snd f).
Definition lay_fields (long : bool) (ind : nat) (fs : list (bytes * tval)) : bytes :=
  between (if long then line ind else s2b ",") (map (lay_field long ind) fs).

(** ** Words *)

(** one byte of a string: three octal digits unless it can be shown *)
Inductive byte_text : N -> bytes -> Prop :=
| by_tab : byte_text 9 (s2b "\t")
| by_return : byte_text 13 (s2b "\r")
| by_line : byte_text 10 (s2b "\n")
| by_backslash : byte_text 92 (s2b "\\")
| by_quote : byte_text 39 (s2b "\'")
| by_double : byte_text 34 [92; 34]
| by_plain c : 32 <= c <= 126 -> ~ In c [34; 39; 92] -> byte_text c [c]
| by_octal a b c : a < 8 -> b < 8 -> c < 8 -> ~ 32 <= 64 * a + 8 * b + c <= 126 -> ~ In (64 * a + 8 * b + c) [9; 10; 13] ->
    byte_text (64 * a + 8 * b + c) [92; 48 + a; 48 + b; 48 + c].
Definition quoted (bs s : bytes) : Prop := exists l, Forall2 byte_text bs l /\ s = 34 :: concat l ++ [34].

Definition hex_digit (c d : N) : Prop := 48 <= c <= 57 /\ d = c - 48 \/ 97 <= c <= 102 /\ d = c - 87.
Inductive hex_of : bytes -> N -> Prop :=
| hx_none : hex_of [] 0
| hx_more s x c d : hex_of s x -> hex_digit c d -> hex_of (s ++ [c]) (16 * x + d).

(** ** Unknown fields: what is delimited is shown as records if it can be *)
Inductive unknown_text : ufield -> bytes * tval -> Prop :=
| ut_varint num v n s : decimal num n -> decimal v s -> unknown_text (UVarint num v) (n, TWord s)
| ut_32 num bs v n s : decimal num n -> fixed 4 v bs -> hex_of s v -> length s = 8%nat -> unknown_text (U32 num bs) (n, TWord (s2b "0x" ++ s))
| ut_64 num bs v n s : decimal num n -> fixed 8 v bs -> hex_of s v -> length s = 16%nat -> unknown_text (U64 num bs) (n, TWord (s2b "0x" ++ s))
| ut_records num bs us n fs : decimal num n -> bs <> [] -> raws 100 us bs -> unknowns_text us fs -> unknown_text (ULen num bs) (n, TBody fs)
| ut_string num bs n s : decimal num n -> (bs = [] \/ forall us, ~ raws 100 us bs) -> quoted bs s -> unknown_text (ULen num bs) (n, TWord s)
| ut_group num us n fs : decimal num n -> unknowns_text us fs -> unknown_text (UGroup num us) (n, TBody fs)
with unknowns_text : list ufield -> list (bytes * tval) -> Prop :=
| us_nil : unknowns_text [] []
| us_cons u f us fs : unknown_text u f -> unknowns_text us fs -> unknowns_text (u :: us) (f :: fs).

Section Written.
  Variables (E : text_externs) (t : tables) (o : topt).

  Inductive scalar_text : kind -> value -> bytes -> Prop :=
  | st_true k : scalar_text k (VBool true) (s2b "true")
  | st_false k : scalar_text k (VBool false) (s2b "false")
  | st_i32 k z s : int_shown z s -> scalar_text k (VI32 z) s
  | st_i64 k z s : int_shown z s -> scalar_text k (VI64 z) s
  | st_u32 k n s : decimal n s -> scalar_text k (VU32 n) s
  | st_u64 k n s : decimal n s -> scalar_text k (VU64 n) s
  | st_f32 k b : scalar_text k (VF32 b) (tx_show32 E b)
  | st_f64 k b : scalar_text k (VF64 b) (tx_show64 E b)
  | st_string k bs s : quoted bs s -> scalar_text k (VString bs) s
  | st_bytes k bs s : quoted bs s -> scalar_text k (VBytes bs) s
  | st_enum e z s : enum_name E t e z = Some s -> scalar_text (KEnum e) (VEnum z) s
  | st_number e z s : enum_name E t e z = None -> int_shown z s -> scalar_text (KEnum e) (VEnum z) s.
  Inductive key_text : mapkey -> bytes -> Prop :=
  | kt_true : key_text (MKBool true) (s2b "true")
  | kt_false : key_text (MKBool false) (s2b "false")
  | kt_i32 z s : int_shown z s -> key_text (MKI32 z) s
  | kt_i64 z s : int_shown z s -> key_text (MKI64 z) s
  | kt_u32 n s : decimal n s -> key_text (MKU32 n) s
  | kt_u64 n s : decimal n s -> key_text (MKU64 n) s
  | kt_string bs s : quoted bs s -> key_text (MKString bs) s.

  (** ** What of a message is shown, and in which order *)

  (** the declared fields, by number or in the order of their declaration *)
  Definition in_order (d : nat) (fs : list fdl) : Prop :=
    (forall f, In f fs <-> get_field t d (fd_number f) = Some f) /\
    if o_index_order o
    then exists mi, nth_error (t_messages t) d = Some mi /\ map fd_number fs = map f_number (m_fields mi)
    else increasing (map fd_number fs).
  (** those that are set and, unless defaults are skipped, those without presence *)
  Definition to_show (m : dynmsg) (f : fdl) : bool := has_field t m f || negb (o_skip_default o) && negb (fd_presence f).

  Inductive row :=
  | RField (f : fdl) (v : value)
  | RExt (f : fdl) (v : value)
  | RUnk (u : ufield).
  (** extensions that are set, and unknown fields if they are wanted, by number *)
  Definition rest_at (m : dynmsg) (n : N) (l : list row) : Prop :=
    (exists f, get_ext t (dm_desc m) n = Some f /\ has_field t m f = true /\ l = [RExt f (get_field_value t m f)]) \/
    (exists us, o_skip_unknown o = false /\ bt_get n (dm_fields m) = Some (SUnk us) /\ l = map RUnk us).
  Definition rows_listed (m : dynmsg) (l : list row) : Prop :=
    exists fs rest, in_order (dm_desc m) fs /\ increasing (map fst rest) /\ (forall n x, In (n, x) rest <-> rest_at m n x) /\
      l = map (fun f => RField f (get_field_value t m f)) (filter (to_show m) fs) ++ concat (map snd rest).

  (** [m] is an Any with a message of a known type in it *)
  Definition expands (m : dynmsg) (url : str) (body : dynmsg) : Prop :=
    full_name t (dm_desc m) = any_name /\
    exists b x v pre name i, enc_msg t m = Ok b /\ msg_decode any_tables 0 b = Ok x /\
      get_field_by_number any_tables x 1 = Some (VString url) /\ get_field_by_number any_tables x 2 = Some (VBytes v) /\
      url = pre ++ 47 :: name /\ ~ In 47 name /\ find_msg t name = Some i /\ msg_decode t i v = Ok body.

  (** groups go by the name of their type *)
  Definition field_label (f : fdl) (s : bytes) : Prop :=
    match fd_kind f with
    | KGroup i => exists mi, nth_error (t_messages t) i = Some mi /\ s = id_name (m_id mi)
    | _ => s = fd_name f
    end.

  (** ** Values and messages *)
  Inductive value_text : kind -> value -> tval -> Prop :=
  | vt_scalar k v s : scalar_text k v s -> value_text k v (TWord s)
  | vt_msg k m fs : body_text m fs -> value_text k (VMessage m) (TBody fs)
  | vt_list k l vs : items_text k l vs -> value_text k (VList l) (TList vs)
  | vt_map k e vf kvs vs : kind_msg k = Some e -> get_field t e 2 = Some vf -> entries_text (fd_kind vf) kvs vs ->
      value_text k (VMap kvs) (TList vs)
  with items_text : kind -> list value -> list tval -> Prop :=
  | it_nil k : items_text k [] []
  | it_cons k v l x xs : value_text k v x -> items_text k l xs -> items_text k (v :: l) (x :: xs)
  with entries_text : kind -> list (mapkey * value) -> list tval -> Prop :=
  | et_nil k : entries_text k [] []
  | et_cons k key v l s x xs : key_text key s -> value_text k v x -> entries_text k l xs ->
      entries_text k ((key, v) :: l) (TBody [(s2b "key", TWord s); (s2b "value", x)] :: xs)
  with rows_text : list row -> list (bytes * tval) -> Prop :=
  | rt_nil : rows_text [] []
  | rt_field f v l s x xs : field_label f s -> value_text (fd_kind f) v x -> rows_text l xs ->
      rows_text (RField f v :: l) ((s, x) :: xs)
  | rt_ext f v l x xs : value_text (fd_kind f) v x -> rows_text l xs ->
      rows_text (RExt f v :: l) ((s2b "[" ++ fd_full f ++ s2b "]", x) :: xs)
  | rt_unk u l x xs : unknown_text u x -> rows_text l xs -> rows_text (RUnk u :: l) (x :: xs)
  with msg_text : dynmsg -> list (bytes * tval) -> Prop :=
  | mt_any m url body fs : o_expand_any o = true -> expands m url body -> body_text body fs ->
      msg_text m [(s2b "[" ++ url ++ s2b "]", TBody fs)]
  | mt_fields m l fs : (o_expand_any o = true -> forall url body, ~ expands m url body) -> rows_listed m l -> rows_text l fs ->
      msg_text m fs
  (** inside another: empty if it has nothing to show *)
  with body_text : dynmsg -> list (bytes * tval) -> Prop :=
  | bt_nothing m : rows_listed m [] -> body_text m []
  | bt_fields m fs : ~ rows_listed m [] -> msg_text m fs -> body_text m fs.

  (** ** The text of a message *)
  Definition text_of (m : dynmsg) (b : bytes) : Prop := exists fs, msg_text m fs /\ b = lay_fields (o_pretty o) 0 fs.
End Written.

Scheme ut_ind := Induction for unknown_text Sort Prop
  with uts_ind := Induction for unknowns_text Sort Prop.
Combined Scheme unknown_text_ind' from ut_ind, uts_ind.
Scheme vt_ind := Induction for value_text Sort Prop
  with itt_ind := Induction for items_text Sort Prop
  with ent_ind := Induction for entries_text Sort Prop
  with rwt_ind := Induction for rows_text Sort Prop
  with mtt_ind := Induction for msg_text Sort Prop
  with bdt_ind := Induction for body_text Sort Prop.
Combined Scheme written_text_ind from vt_ind, itt_ind, ent_ind, rwt_ind, mtt_ind, bdt_ind.
