(** What a text in the text format means: the grammar of texts, and the meaning
    of a text for a message.  The specification for C59. *)
From Coq Require Import String.
From Verif Require Import Base Wire Unknown Value Descr Fields Codec Float TextLex TextFormat TextParse.
Open Scope list_scope.
Open Scope N_scope.

(** ** The grammar: a text is a list of fields *)

(** A value is a literal or a message; a field is given one value or a list of
    them. [fname] is a field name: an identifier, an extension in brackets, or
    the type URL of an expanded Any in brackets. *)
Inductive tvalue :=
| TLit (ts : list tok)
| TMsg (fs : list tfield)
with tfield := TField (n : fname) (g : tgiven)
with tgiven := TOne (v : tvalue) | TMany (vs : list tvalue).

(** a name with dots, from its parts *)
Definition dotted (x : str) (xs : list str) : str := x ++ flat_map (fun y => 46 :: y) xs.
Definition dotted_toks (x : str) (xs : list str) : list tok := TIdent x :: flat_map (fun y => [TDot; TIdent y]) xs.

Inductive name_text : fname -> list tok -> Prop :=
| nt_ident s : name_text (FIdent s) [TIdent s]
| nt_ext x xs : name_text (FExt (dotted x xs)) (TLBrack :: dotted_toks x xs ++ [TRBrack])
| nt_any x xs y ys : name_text (FAny (dotted x xs) (dotted y ys))
    (TLBrack :: dotted_toks x xs ++ TSlash :: dotted_toks y ys ++ [TRBrack]).

(** a number or identifier, perhaps with a minus sign; or adjacent strings *)
Inductive lit_text : list tok -> Prop :=
| lt_ident s minus : lit_text ((if minus : bool then [TMinus] else []) ++ [TIdent s])
| lt_int ds radix minus : lit_text ((if minus : bool then [TMinus] else []) ++ [TInt ds radix])
| lt_float s minus : lit_text ((if minus : bool then [TMinus] else []) ++ [TFloat s])
| lt_strings s ss : lit_text (map TStr (s :: ss)).

Definition opens (ts : list tok) : Prop :=
  match ts with TLBrace :: _ | TLAngle :: _ => True | _ => False end.

(** messages stand in braces or angle brackets; the colon before them may be
    left out; a comma or semicolon may follow a field *)
Inductive value_text : tvalue -> list tok -> Prop :=
| vt_lit ts : lit_text ts -> value_text (TLit ts) ts
| vt_brace fs ts : fields_text fs ts -> value_text (TMsg fs) (TLBrace :: ts ++ [TRBrace])
| vt_angle fs ts : fields_text fs ts -> value_text (TMsg fs) (TLAngle :: ts ++ [TRAngle])
with fields_text : list tfield -> list tok -> Prop :=
| fst_nil : fields_text [] []
| fst_cons n g a sep b sfx fs ts :
    name_text n a -> given_text g b -> (sep = [TColon] \/ sep = [] /\ opens b) -> (sfx = [] \/ sfx = [TComma] \/ sfx = [TSemi]) ->
    fields_text fs ts -> fields_text (TField n g :: fs) ((a ++ sep ++ b ++ sfx) ++ ts)
with given_text : tgiven -> list tok -> Prop :=
| gt_one v ts : value_text v ts -> given_text (TOne v) ts
| gt_none : given_text (TMany []) [TLBrack; TRBrack]
| gt_many v vs a b : value_text v a -> more_text vs b -> given_text (TMany (v :: vs)) (TLBrack :: a ++ b ++ [TRBrack])
with more_text : list tvalue -> list tok -> Prop :=
| mt_nil : more_text [] []
| mt_cons v vs a b : value_text v a -> more_text vs b -> more_text (v :: vs) (TComma :: a ++ b).

(** ** The meaning *)

(** an integer: with a minus sign or not, and the value of its digits *)
Definition int_lit (ts : list tok) (minus : bool) (n : N) : Prop :=
  exists ds radix, ts = (if minus then [TMinus] else []) ++ [TInt ds radix] /\ n = radix_val radix ds.
Definition signed_lit (ts : list tok) (z : Z) : Prop :=
  exists minus n, int_lit ts minus n /\ z = (if minus : bool then - Z.of_N n else Z.of_N n)%Z.
(** a float: a decimal number, or inf, infinity, nan in any case *)
Inductive float_name : tok -> N -> Prop :=
| fl_float s : float_name (TFloat s) (f64_parse s)
| fl_int ds : float_name (TInt ds 10) (f64_parse ds)
| fl_inf s : lowercase s = s2b "inf" \/ lowercase s = s2b "infinity" -> float_name (TIdent s) inf64
| fl_nan s : lowercase s = s2b "nan" -> float_name (TIdent s) nan64.
Definition float_lit (ts : list tok) (b : N) : Prop :=
  exists minus k b', ts = (if minus : bool then [TMinus] else []) ++ [k] /\ float_name k b' /\ b = if minus then f64_neg b' else b'.
Inductive bool_lit : list tok -> bool -> Prop :=
| bl_true s : In s [s2b "true"; s2b "True"; s2b "t"] -> bool_lit [TIdent s] true
| bl_false s : In s [s2b "false"; s2b "False"; s2b "f"] -> bool_lit [TIdent s] false
| bl_1 ts : int_lit ts false 1 -> bool_lit ts true
| bl_0 ts : int_lit ts false 0 -> bool_lit ts false.

(** [says t k ts v]: for kind [k], the literal [ts] is the value [v] *)
Inductive says (t : tables) : kind -> list tok -> value -> Prop :=
| sy_bool ts b : bool_lit ts b -> says t KBool ts (VBool b)
| sy_i32 k ts z : In k [KInt32; KSint32; KSfixed32] -> signed_lit ts z -> (- 2 ^ 31 <= z < 2 ^ 31)%Z -> says t k ts (VI32 z)
| sy_i64 k ts z : In k [KInt64; KSint64; KSfixed64] -> signed_lit ts z -> (- 2 ^ 63 <= z < 2 ^ 63)%Z -> says t k ts (VI64 z)
| sy_u32 k ts n : In k [KUint32; KFixed32] -> int_lit ts false n -> n < 2 ^ 32 -> says t k ts (VU32 n)
| sy_u64 k ts n : In k [KUint64; KFixed64] -> int_lit ts false n -> n < 2 ^ 64 -> says t k ts (VU64 n)
| sy_f32 ts b : float_lit ts b -> says t KFloat ts (VF32 (f64_to_f32 b))
| sy_f64 ts b : float_lit ts b -> says t KDouble ts (VF64 b)
| sy_string ss : ss <> [] -> utf8_valid (concat ss) = true -> says t KString (map TStr ss) (VString (concat ss))
| sy_bytes ss : ss <> [] -> says t KBytes (map TStr ss) (VBytes (concat ss))
| sy_enum_name e s z : enum_number t e s = Some z -> says t (KEnum e) [TIdent s] (VEnum z)
| sy_enum_number e ts z : signed_lit ts z -> (- 2 ^ 31 <= z < 2 ^ 31)%Z -> says t (KEnum e) ts (VEnum z).

(** [names t d n f]: in a message of type [d], the name stands for the field or
    extension [f].  A group is named by its type, and its field by that in lower
    case. *)
Inductive names (t : tables) (d : nat) : fname -> fdl -> Prop :=
| na_field f : In f (msg_fields t d) -> fd_is_group f = false -> names t d (FIdent (fd_name f)) f
| na_group f i m s : In f (msg_fields t d) -> fd_kind f = KGroup i -> nth_error (t_messages t) i = Some m ->
    s = id_name (m_id m) -> fd_name f = lowercase s ->
    (forall g, In g (msg_fields t d) -> fd_name g = s -> fd_is_group g = true) -> names t d (FIdent s) f
| na_ext f l l' : msg_exts t d = l ++ f :: l' -> (forall g, In g l -> fd_full g <> fd_full f) -> names t d (FExt (fd_full f)) f.

(** set_field (C16) *)
Definition set_to (m : dynmsg) (f : fdl) (v : value) : dynmsg := DM (dm_desc m) (fs_set f v (dm_fields m)).

(** the entries of a map, one after the other: fields 1 and 2 of each message *)
Inductive entered (t : tables) : list (mapkey * value) -> list value -> list (mapkey * value) -> Prop :=
| en_nil kvs : entered t kvs [] kvs
| en_cons kvs m kf vf key vs kvs' : get_field t (dm_desc m) 1 = Some kf -> get_field t (dm_desc m) 2 = Some vf ->
    value_mk (get_field_value t m kf) = Some key -> entered t (map_insert key (get_field_value t m vf) kvs) vs kvs' ->
    entered t kvs (VMessage m :: vs) kvs'.

(** [means_value t k v x]: for kind [k], the value [v] in the text is [x].
    [means_fields t m fs m']: the fields [fs] turn the message [m] into [m']. *)
Inductive means_value (t : tables) : kind -> tvalue -> value -> Prop :=
| mv_lit k ts x : kind_msg k = None -> says t k ts x -> means_value t k (TLit ts) x
| mv_msg k d fs m : kind_msg k = Some d -> means_fields t (new_msg d) fs m -> means_value t k (TMsg fs) (VMessage m)
with means_fields (t : tables) : dynmsg -> list tfield -> dynmsg -> Prop :=
| mfs_nil m : means_fields t m [] m
| mfs_cons m f m1 fs m2 : means_field t m f m1 -> means_fields t m1 fs m2 -> means_fields t m (f :: fs) m2
with means_field (t : tables) : dynmsg -> tfield -> dynmsg -> Prop :=
(** a singular field must not be set yet, nor another member of its oneof *)
| mf_one m n f v x : names t (dm_desc m) n f -> fd_is_list f = false -> fd_is_map f = false ->
    has_field t m f = false ->
    (forall nums k, fd_oneof f = Some nums -> In k nums -> has_field_by_number t m k = false) ->
    means_value t (fd_kind f) v x -> means_field t m (TField n (TOne v)) (set_to m f x)
(** a list is extended *)
| mf_list m n f g xs l : names t (dm_desc m) n f -> fd_is_list f = true -> means_given t (fd_kind f) g xs ->
    get_field_value t m f = VList l -> means_field t m (TField n g) (set_to m f (VList (l ++ xs)))
(** entries are added to a map *)
| mf_map m n f g xs kvs kvs' : names t (dm_desc m) n f -> fd_is_list f = false -> fd_is_map f = true -> means_given t (fd_kind f) g xs ->
    get_field_value t m f = VMap kvs -> entered t kvs xs kvs' -> means_field t m (TField n g) (set_to m f (VMap kvs'))
(** an expanded Any holds the type URL and the bytes of the message *)
| mf_any m domain name v i body b f1 f2 : full_name t (dm_desc m) = any_name -> find_msg t name = Some i ->
    means_value t (KMessage i) v (VMessage body) -> enc_msg t body = Ok b ->
    get_field t (dm_desc m) 1 = Some f1 -> get_field t (dm_desc m) 2 = Some f2 ->
    is_valid_for t f1 (VString (domain ++ 47 :: name)) = true -> is_valid_for t f2 (VBytes b) = true ->
    means_field t m (TField (FAny domain name) (TOne v)) (set_to (set_to m f1 (VString (domain ++ 47 :: name))) f2 (VBytes b))
(** the values given *)
with means_given (t : tables) : kind -> tgiven -> list value -> Prop :=
| mg_one k v x : means_value t k v x -> means_given t k (TOne v) [x]
| mg_many k vs xs : means_values t k vs xs -> means_given t k (TMany vs) xs
with means_values (t : tables) : kind -> list tvalue -> list value -> Prop :=
| mvs_nil k : means_values t k [] []
| mvs_cons k v vs x xs : means_value t k v x -> means_values t k vs xs -> means_values t k (v :: vs) (x :: xs).
