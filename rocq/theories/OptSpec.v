(** What a custom option means: the specification for C58. *)
From Coq Require Import String.
From Verif Require Import Base Wire Unknown Value Descr Fields Codec Float TextParse Proto Build ResolveSpec OptResolve.
Open Scope list_scope.
Open Scope N_scope.

(** ** The value of an option *)

(** the integer written in the option: positive, or else negative *)
Definition int_given (o : uoption) (z : Z) : Prop :=
  match uo_pos o with
  | Some n => z = Z.of_N n
  | None => uo_neg o = Some z
  end.
(** the double nearest to an integer *)
Definition nearest (z : Z) : N :=
  if (z <? 0)%Z then f64_neg (round64 (Z.to_N (- z)) 1) else round64 (Z.to_N z) 1.
(** the number written in the option, as a double *)
Definition float_given (o : uoption) (b : N) : Prop :=
  match uo_double o with
  | Some d => b = d
  | None => exists z, int_given o z /\ b = nearest z
  end.

(** [means t o k v]: written for a field of kind [k], the option says [v].
    Booleans and enum values are identifiers, messages are texts in the text
    format. *)
Inductive means (t : tables) (o : uoption) : kind -> value -> Prop :=
| me_true : uo_ident o = Some (s2b "true") -> means t o KBool (VBool true)
| me_false : uo_ident o = Some (s2b "false") -> means t o KBool (VBool false)
| me_i32 k z : In k [KInt32; KSint32; KSfixed32] -> int_given o z -> (- 2 ^ 31 <= z < 2 ^ 31)%Z -> means t o k (VI32 z)
| me_i64 k z : In k [KInt64; KSint64; KSfixed64] -> int_given o z -> (- 2 ^ 63 <= z < 2 ^ 63)%Z -> means t o k (VI64 z)
| me_u32 k n : In k [KUint32; KFixed32] -> int_given o (Z.of_N n) -> n < 2 ^ 32 -> means t o k (VU32 n)
| me_u64 k n : In k [KUint64; KFixed64] -> int_given o (Z.of_N n) -> n < 2 ^ 64 -> means t o k (VU64 n)
| me_f32 b : float_given o b -> means t o KFloat (VF32 (f64_to_f32 b))
| me_f64 b : float_given o b -> means t o KDouble (VF64 b)
| me_string s : uo_string o = Some s -> utf8_valid s = true -> means t o KString (VString s)
| me_bytes s : uo_string o = Some s -> means t o KBytes (VBytes s)
| me_enum e s z : uo_ident o = Some s -> enum_number t e s = Some z -> means t o (KEnum e) (VEnum z)
| me_message k d s m : kind_msg k = Some d -> uo_aggregate o = Some s -> parse_text t d s = MOk m [] ->
    means t o k (VMessage m).

(** [sets t o f v v' i]: the option turns the value [v] of field [f] into [v'];
    [i]: the place in the list, for a repeated field *)
Inductive sets (t : tables) (o : uoption) (f : fdl) : value -> value -> list Z -> Prop :=
| st_one v v' : fd_is_list f = false -> fd_is_map f = false -> means t o (fd_kind f) v' -> sets t o f v v' []
| st_list vs v' : fd_is_list f = true -> means t o (fd_kind f) v' ->
    sets t o f (VList vs) (VList (vs ++ [v'])) [Z.of_nat (length vs)]
(** the text gives one entry *)
| st_map kvs e s m kf vf key : fd_is_map f = true -> kind_msg (fd_kind f) = Some e ->
    uo_aggregate o = Some s -> parse_text t e s = MOk m [] ->
    entry_key t e = Some kf -> entry_value t e = Some vf -> value_mk (get_field_value t m kf) = Some key ->
    sets t o f (VMap kvs) (VMap (map_insert key (get_field_value t m vf) kvs)) [].

(** ** The name of an option *)

Definition extension_kind (k : dkind) : Prop := exists i, k = DExtension i.
(** a reference to an extension: by the rules of C24, or, outside any scope, the
    full name with or without a leading dot *)
Definition refers (p : pool) (file : nat) (scope ref n : str) (d : def) : Prop :=
  exists fi, nth_error (p_files p) file = Some fi /\
    let names := fun x => assoc_s x (p_names p) in
    let visible := fun x => In x (fi_trans fi) in
    match scope with
    | [] => (ref = n /\ (forall r, ref <> dot :: r) \/ ref = dot :: n) /\ fitting names visible extension_kind n d
    | _ => resolves names visible extension_kind scope ref n d
    end.

Section Interprets.
  Variable p : pool.        (* the pool being built *)
  Variable t : tables.      (* where the options message is described *)
  Variable own : bool.      (* in that pool, or in the global one *)
  Variable scope : str.
  Variable file : nat.

  (** one part of the name of an option, for message [d]: a field of it, or (in
      parentheses) an extension of it *)
  Inductive part_names (d : nat) : str * bool -> fdl -> Prop :=
  | pn_field f : In f (msg_fields t d) -> part_names d (fd_name f, false) f
  | pn_ext ref n df i x : own = true -> refers p file scope ref n df -> d_kind df = DExtension i ->
      nth_error (p_exts p) i = Some x -> x_extendee x = d -> part_names d (ref, true) (ext_view t x).

  (** storing a value in a message, as set_field does *)
  Definition stored (m : dynmsg) (f : fdl) (v : value) : dynmsg := DM (dm_desc m) (fs_set f v (dm_fields m)).

  (** [interprets o parts m m' path]: the option with that name turns [m] into
      [m'], by setting what the name leads to, through messages; [path]: the
      numbers on the way.  A field that is not repeated must not be set yet. *)
  Inductive interprets (o : uoption) : list (str * bool) -> dynmsg -> dynmsg -> list Z -> Prop :=
  | ip_last part m f v i : part_names (dm_desc m) part f ->
      (fd_card f = Repeated \/ has_field t m f = false) ->
      sets t o f (get_field_value t m f) v i ->
      interprets o [part] m (stored m f v) (Z.of_N (fd_number f) :: i)
  | ip_in part rest m f sub sub' path : part_names (dm_desc m) part f ->
      get_field_value t m f = VMessage sub ->
      interprets o rest sub sub' path ->
      interprets o (part :: rest) m (stored m f (VMessage sub')) (Z.of_N (fd_number f) :: path).

  (** one option after the other *)
  Inductive interpreted : list uoption -> dynmsg -> dynmsg -> list (list Z) -> Prop :=
  | in_none m : interpreted [] m m []
  | in_some o us m m1 m2 path paths : interprets o (uo_name o) m m1 path -> interpreted us m1 m2 paths ->
      interpreted (o :: us) m m2 (path :: paths).
End Interprets.

(** ** Where options stand *)

(** [enum_options scope e path ty s]: below the enum [e], declared in [scope],
    the options of type [ty] stand at [path] (descriptor.proto's numbers), and
    names in them are looked up from [s] *)
Inductive enum_options (scope : str) (e : eproto) : list Z -> str -> str -> Prop :=
| eo_self : enum_options scope e [3%Z] (s2b "google.protobuf.EnumOptions") (join_scope scope (ep_name e))
| eo_value i v : nth_error (ep_values e) i = Some v ->
    enum_options scope e [2%Z; Z.of_nat i; 3%Z] (s2b "google.protobuf.EnumValueOptions") (join_scope scope (fst v)).
(** the same for the message [m] of that full name *)
Inductive message_options : str -> dproto -> list Z -> str -> str -> Prop :=
| mo_self full m : message_options full m [7%Z] (s2b "google.protobuf.MessageOptions") full
| mo_range full m i r : nth_error (dp_ext_ranges m) i = Some r ->
    message_options full m [5%Z; Z.of_nat i; 3%Z] (s2b "google.protobuf.ExtensionRangeOptions") full
| mo_field full m i f : nth_error (dp_fields m) i = Some f ->
    message_options full m [2%Z; Z.of_nat i; 8%Z] (s2b "google.protobuf.FieldOptions") (join_scope full (fp_name f))
| mo_oneof_ full m i o : nth_error (dp_oneofs m) i = Some o ->
    message_options full m [8%Z; Z.of_nat i; 2%Z] (s2b "google.protobuf.OneofOptions") (join_scope full o)
| mo_ext full m i x : nth_error (dp_exts m) i = Some x ->
    message_options full m [6%Z; Z.of_nat i; 8%Z] (s2b "google.protobuf.FieldOptions") (join_scope full (fp_name x))
| mo_enum full m i e path ty s : nth_error (dp_enums m) i = Some e -> enum_options full e path ty s ->
    message_options full m (4%Z :: Z.of_nat i :: path) ty s
| mo_nested full m i n path ty s : nth_error (dp_nested m) i = Some n ->
    message_options (join_scope full (dp_name n)) n path ty s ->
    message_options full m (3%Z :: Z.of_nat i :: path) ty s.
(** the same for the file *)
Inductive file_options (f : file) : list Z -> str -> str -> Prop :=
| fo_self : file_options f [8%Z] (s2b "google.protobuf.FileOptions") (fl_package f)
| fo_message i m path ty s : nth_error (fl_messages f) i = Some m ->
    message_options (join_scope (fl_package f) (dp_name m)) m path ty s ->
    file_options f (4%Z :: Z.of_nat i :: path) ty s
| fo_enum i e path ty s : nth_error (fl_enums f) i = Some e -> enum_options (fl_package f) e path ty s ->
    file_options f (5%Z :: Z.of_nat i :: path) ty s
| fo_service i sv : nth_error (fl_services f) i = Some sv ->
    file_options f [6%Z; Z.of_nat i; 3%Z] (s2b "google.protobuf.ServiceOptions") (join_scope (fl_package f) (sp_name sv))
| fo_method i sv j md : nth_error (fl_services f) i = Some sv -> nth_error (sp_methods sv) j = Some md ->
    file_options f [6%Z; Z.of_nat i; 2%Z; Z.of_nat j; 4%Z] (s2b "google.protobuf.MethodOptions")
      (join_scope (join_scope (fl_package f) (sp_name sv)) (mp_name md))
| fo_ext i x : nth_error (fl_exts f) i = Some x ->
    file_options f [7%Z; Z.of_nat i; 8%Z] (s2b "google.protobuf.FieldOptions") (join_scope (fl_package f) (fp_name x)).

(** the types of options *)
Definition option_types : list str :=
  map (fun s => s2b ("google.protobuf." ++ s)%string)
    ["FileOptions"; "MessageOptions"; "ExtensionRangeOptions"; "FieldOptions"; "OneofOptions"; "EnumOptions";
     "EnumValueOptions"; "ServiceOptions"; "MethodOptions"]%string.

(** where options stood in the file as written, and where they stand once
    interpreted: number [i] of the uninterpreted options (field 999) of the
    options at [path] *)
Fixpoint moved (path : list Z) (i : nat) (paths : list (list Z)) : list (list Z * list Z) :=
  match paths with
  | [] => []
  | to :: rest => (path ++ [999%Z; Z.of_nat i], path ++ to) :: moved path (S i) rest
  end.

(** [resolved g p file path ty scope encoded us m b moves]: the options of type
    [ty] at [path], given as [encoded] and the options [us] still to be
    interpreted, are the message [m], without the options as written; its bytes
    are [b] *)
Definition resolved (g p : pool) (file : nat) (path : list Z) (ty scope : str) (encoded : bytes) (us : list uoption)
    (m : dynmsg) (b : bytes) (moves : list (list Z * list Z)) : Prop :=
  exists own d m0 m1 paths, options_message g p ty = Some (own, d) /\
    let t := options_tables g p own in
    msg_decode t d encoded = Ok m0 /\
    interpreted p t own scope file us m0 m1 paths /\
    m = clear_field_by_number t m1 999 /\ enc_msg t m = Ok b /\ moves = moved path 0 paths.

(** [misfit g p file path ty scope encoded us w]: these options have no meaning.
    Either the bytes are not those of a message of the type, and [w] is nothing;
    or some option cannot be interpreted after those before it, and [w] is where
    it stands, as written. *)
Inductive misfit (g p : pool) (file : nat) (path : list Z) (ty scope : str) (encoded : bytes) (us : list uoption)
  : option (nat * list Z) -> Prop :=
| mf_bytes own d : options_message g p ty = Some (own, d) ->
    (forall m, msg_decode (options_tables g p own) d encoded <> Ok m) ->
    misfit g p file path ty scope encoded us None
| mf_option own d m0 m1 before o after paths : options_message g p ty = Some (own, d) ->
    msg_decode (options_tables g p own) d encoded = Ok m0 ->
    us = before ++ o :: after ->
    interpreted p (options_tables g p own) own scope file before m0 m1 paths ->
    (forall m2 q, ~ interprets p (options_tables g p own) own scope file o (uo_name o) m1 m2 q) ->
    misfit g p file path ty scope encoded us (Some (file, path ++ [999%Z; Z.of_nat (length before)])).
