(** Interpreting custom options while a pool is built
    (prost-reflect/src/descriptor/build/options.rs) and reading them back
    (the options() getters, descriptor/api.rs:1952-1966).  The feature
    text-format is on. *)
From Coq Require Import String.
From Verif Require Import Base Wire Unknown Value Descr Fields Codec Float TextParse Proto Build.
Open Scope list_scope.
Open Scope N_scope.

(** UninterpretedOption (descriptor/types.rs): name parts (name_part,
    is_extension) and the six values, each present or not; positive is a u64,
    negative an i64, double the bits of an f64 *)
Record uoption := UO {
  uo_name : list (str * bool);
  uo_ident : option str;
  uo_pos : option N;
  uo_neg : option Z;
  uo_double : option N;
  uo_string : option bytes;
  uo_aggregate : option str
}.

(** the DescriptorErrorKind of a rejected option *)
Inductive oerr :=
| OptDuplicate            (* DuplicateOption *)
| OptNotFound             (* OptionNotFound *)
| OptType (last : bool)   (* InvalidOptionType *)
| OptText (e : perr)      (* InvalidMessageOption *)
| OptName                 (* NameNotFound, InvalidType, NameShadowed *)
| OptExtendee             (* InvalidOptionExtendee *)
| OptDecode (e : derr).   (* DecodeFileDescriptorSet *)

(** option_to_bool (options.rs:575-581) *)
Definition option_to_bool (o : uoption) : option bool :=
  match uo_ident o with
  | Some s => if bytes_eqb s (s2b "true") then Some true
              else if bytes_eqb s (s2b "false") then Some false else None
  | None => None
  end.

(** option_to_int (options.rs:583-594): [fits] tells whether the target type
    holds the number (TryFrom) *)
Definition option_to_int (fits : Z -> bool) (o : uoption) : option Z :=
  match uo_pos o with
  | Some n => if fits (Z.of_N n) then Some (Z.of_N n) else None
  | None =>
      match uo_neg o with
      | Some z => if fits z then Some z else None
      | None => None
      end
  end.
Definition fits_u32 (z : Z) : bool := ((0 <=? z) && (z <? 4294967296))%Z.
Definition fits_u64 (z : Z) : bool := ((0 <=? z) && (z <? 18446744073709551616))%Z.

(** [x as f64] on integers *)
Definition int_to_f64 (z : Z) : N :=
  if (z <? 0)%Z then f64_neg (round64 (Z.to_N (- z)) 1) else round64 (Z.to_N z) 1.
(** option_to_float (options.rs:596-606) *)
Definition option_to_float (o : uoption) : option N :=
  match uo_double o with
  | Some b => Some b
  | None =>
      match uo_pos o with
      | Some n => Some (int_to_f64 (Z.of_N n))
      | None => option_map int_to_f64 (uo_neg o)
      end
  end.

(** option_to_string, option_to_bytes (options.rs:608-622) *)
Definition option_to_string (o : uoption) : option bytes :=
  match uo_string o with
  | Some s => if utf8_valid s then Some s else None
  | None => None
  end.
Definition option_to_bytes (o : uoption) : option bytes := uo_string o.

(** option_to_enum (options.rs:624-637) *)
Definition option_to_enum (t : tables) (e : nat) (o : uoption) : option Z :=
  match uo_ident o with
  | Some s => enum_number t e s
  | None => None
  end.

(** option_to_message (options.rs:644-654); the error is None (no aggregate) or
    the parse error *)
Definition option_to_message (t : tables) (d : nat) (o : uoption) : res (dynmsg + option perr) :=
  match uo_aggregate o with
  | None => Ok (inr None)
  | Some s =>
      match parse_text t d s with
      | MOk m _ => Ok (inl m)
      | MErr e _ => Ok (inr (Some e))
      | MPanic => Panic
      | MFuel => Fuel
      end
  end.

(** option_to_map_entry (options.rs:668-684) *)
Definition option_to_map_entry (t : tables) (d : nat) (o : uoption)
  : res ((mapkey * value) + option perr) :=
  let! r := option_to_message t d o in
  match r with
  | inr e => Ok (inr e)
  | inl m =>
      match get_field_by_number t m MAP_KEY_NUMBER with
      | None => Ok (inr None)
      | Some kv =>
          match value_mk kv with
          | None => Ok (inr None)
          | Some key =>
              match get_field_by_number t m MAP_VALUE_NUMBER with
              | None => Ok (inr None)
              | Some v => Ok (inl (key, v))
              end
          end
      end
  end.

(** fmt_field_ty (options.rs:686-702), called for every type error: it panics
    when the entry message of a map field lacks its key or value field *)
Definition fmt_field_ty (t : tables) (f : fdl) : res unit :=
  if fd_is_map f then
    match kind_msg (fd_kind f) with
    | Some e =>
        match entry_key t e, entry_value t e with
        | Some _, Some _ => Ok tt
        | _, _ => Panic
        end
    | None => Panic
    end
  else Ok tt.
(** the closures [err] and [parse_err] (options.rs:459-477) *)
Definition type_err {A} (t : tables) (f : fdl) : res (A + oerr) :=
  let! _ := fmt_field_ty t f in Ok (inr (OptType true)).
Definition message_err {A} (t : tables) (f : fdl) (e : option perr) : res (A + oerr) :=
  let! _ := fmt_field_ty t f in
  Ok (inr (match e with Some e => OptText e | None => OptType true end)).
Definition or_err {A} (t : tables) (f : fdl) (v : A -> value) (o : option A) : res (value + oerr) :=
  match o with Some a => Ok (inl (v a)) | None => type_err t f end.

(** set_field_value (options.rs:449-511) on anything but a list: the arm is
    chosen by the value that stands there.  The list arm calls the function
    again on the default of the element kind, which is no list. *)
Definition set_plain (t : tables) (f : fdl) (o : uoption) (v : value) : res (value + oerr) :=
  match v with
  | VBool _ => or_err t f VBool (option_to_bool o)
  | VI32 _ => or_err t f VI32 (option_to_int i32_ok o)
  | VI64 _ => or_err t f VI64 (option_to_int i64_ok o)
  | VU32 _ => or_err t f (fun z => VU32 (Z.to_N z)) (option_to_int fits_u32 o)
  | VU64 _ => or_err t f (fun z => VU64 (Z.to_N z)) (option_to_int fits_u64 o)
  | VF32 _ => or_err t f (fun b => VF32 (f64_to_f32 b)) (option_to_float o)
  | VF64 _ => or_err t f VF64 (option_to_float o)
  | VString _ => or_err t f VString (option_to_string o)
  | VBytes _ => or_err t f VBytes (option_to_bytes o)
  | VEnum _ =>
      match fd_kind f with
      | KEnum e => or_err t f VEnum (option_to_enum t e o)
      | _ => Panic
      end
  | VMessage _ =>
      match kind_msg (fd_kind f) with
      | Some d =>
          let! r := option_to_message t d o in
          match r with
          | inl m => Ok (inl (VMessage m))
          | inr e => message_err t f e
          end
      | None => Panic
      end
  | VMap kvs =>
      match kind_msg (fd_kind f) with
      | Some d =>
          let! r := option_to_map_entry t d o in
          match r with
          | inl (key, x) => Ok (inl (VMap (map_insert key x kvs)))
          | inr e => message_err t f e
          end
      | None => Panic
      end
  | VList _ => Panic
  end.
(** the whole of set_field_value: the new value and what it pushes on
    resolved_path *)
Definition set_value (t : tables) (f : fdl) (o : uoption) (v : value)
  : res ((value * list Z) + oerr) :=
  match v with
  | VList vs =>
      let! r := set_plain t f o (kind_default t (fd_kind f)) in
      Ok (match r with
          | inl x => inl (VList (vs ++ [x]), [Z.of_nat (length vs)])
          | inr e => inr e
          end)
  | _ =>
      let! r := set_plain t f o v in
      Ok (match r with inl x => inl (x, []) | inr e => inr e end)
  end.

Section Set_option.
  (** the pool being built; the tables of the pool the options message comes
      from, and whether that is the pool being built (else it is the global
      pool); the scope and file of the options *)
  Variable p : pool.
  Variable t : tables.
  Variable own : bool.
  Variable scope : str.
  Variable file : nat.

  (** find_extension (options.rs:514-555) with into_result (build/mod.rs:232-295);
      descriptors of different pools are never equal *)
  Definition find_extension (name : str) (extendee : nat) : res (fdl + oerr) :=
    let! fi := at_ (p_files p) file in
    match resolve_name (fi_trans fi) (p_names p) scope name FExtension with
    | RFound _ d =>
        match d_kind d with
        | DExtension i =>
            let! x := at_ (p_exts p) i in
            Ok (if own && (x_extendee x =? extendee)%nat then inl (ext_view t x) else inr OptExtendee)
        | _ => Panic
        end
    | RInvalidType _ d => let! _ := at_ (p_files p) (d_file d) in Ok (inr OptName)
    | RNotImported _ df => let! _ := at_ (p_files p) df in Ok (inr OptName)
    | RShadowed _ _ | RNotFound => Ok (inr OptName)
    end.

  (** one part of the name: the extension or field it names *)
  Definition find_part (d : nat) (part : str * bool) : res (fdl + oerr) :=
    if snd part then find_extension (fst part) d
    else Ok (match get_field_by_name t d (fst part) with
             | Some f => inl f
             | None => inr OptNotFound
             end).

  (** set_option (options.rs:345-447): the message afterwards, the error if
      any, and the numbers pushed on resolved_path.  [message] descends into
      the submessage; here the walk back out writes it through the reference. *)
  Fixpoint set_option (o : uoption) (parts : list (str * bool)) (m : dynmsg)
    : res (dynmsg * option oerr * list Z) :=
    match parts with
    | [] => Ok (m, None, [])
    | part :: rest =>
        let! r := find_part (dm_desc m) part in
        match r with
        | inr e => Ok (m, Some e, [])
        | inl f =>
            match rest with
            | [] =>
                if negb (card_eqb (fd_card f) Repeated) && has_field t m f
                then Ok (m, Some OptDuplicate, [Z.of_N (fd_number f)])
                else
                  let fs := fs_get_mut t f (dm_fields m) in
                  let! r := set_value t f o (fs_get t f fs) in
                  match r with
                  | inl (v, path) =>
                      Ok (with_fields m (fs_put f v fs), None, Z.of_N (fd_number f) :: path)
                  | inr e => Ok (with_fields m fs, Some e, [Z.of_N (fd_number f)])
                  end
            | _ =>
                let fs := fs_get_mut t f (dm_fields m) in
                match fs_get t f fs with
                | VMessage sub =>
                    let! (sub', e, path) := set_option o rest sub in
                    Ok (with_fields m (fs_put f (VMessage sub') fs), e, Z.of_N (fd_number f) :: path)
                | _ =>
                    let! _ := fmt_field_ty t f in
                    Ok (with_fields m fs, Some (OptType false), [Z.of_N (fd_number f)])
                end
            end
        end
    end.

  (** the loop over the uninterpreted options (options.rs:324-335): the message,
      the errors, each with the path of its label (DescriptorErrorKind::label,
      error.rs:309-341: all of set_option's errors are labelled with the path of
      the option as written), and the renamed locations (from, to) *)
  Fixpoint set_options (path : list Z) (i : nat) (us : list uoption) (m : dynmsg)
    : res (dynmsg * list (oerr * option (list Z)) * list (list Z * list Z)) :=
    match us with
    | [] => Ok (m, [], [])
    | o :: rest =>
        let! (m1, e, to) := set_option o (uo_name o) m in
        let! (m2, es, locs) := set_options path (S i) rest m1 in
        match e with
        | Some e => Ok (m2, (e, Some (path ++ [999%Z; Z.of_nat i])) :: es, locs)
        | None => Ok (m2, es, (path ++ [999%Z; Z.of_nat i], path ++ to) :: locs)
        end
    end.

  (** resolve_options of one options message (options.rs:300-342), from the
      point where its descriptor [d] is known; DecodeFileDescriptorSet has no
      label *)
  Definition resolve_one (d : nat) (path : list Z) (encoded : bytes) (us : list uoption)
    : res (bytes * list (oerr * option (list Z)) * list (list Z * list Z)) :=
    match msg_decode t d encoded with
    | Err e => Ok ([], [(OptDecode e, None)], [])
    | Panic => Panic
    | Fuel => Fuel
    | Ok m =>
        let! (m', es, locs) := set_options path 0 us m in
        let! b := enc_msg t (clear_field_by_number t m' 999) in
        Ok (b, es, locs)
    end.
End Set_option.

(** the message that describes the options: of the pool, else of the global
    pool [g] (options.rs:309-313; api.rs:1957-1959) *)
Definition options_message (g p : pool) (name : str) : option (bool * nat) :=
  match get_message_by_name p name with
  | Some d => Some (true, d)
  | None => option_map (pair false) (get_message_by_name g name)
  end.
Definition options_tables (g p : pool) (own : bool) : tables := p_tables (if own then p else g).

(** ** The pass over the files *)

(** the options message that stands at a path of a file, if there is one: its
    bytes (Options::encoded) and its uninterpreted options *)
Definition raw_options := nat -> list Z -> option (bytes * list uoption).
(** an options message to resolve: file, path, its type, the scope of its names *)
Definition place := (nat * list Z * str * str)%type.

(** OptionsVisitor (options.rs:77-298): the places visited for one event *)
Definition opt_places (e : event) : list place :=
  match e with
  | EvFile path index f => [(index, path ++ [8%Z], s2b "google.protobuf.FileOptions", fl_package f)]
  | EvMessage path full file _ _ m =>
      (file, path ++ [7%Z], s2b "google.protobuf.MessageOptions", full) ::
      map (fun i => (file, path ++ [5%Z; Z.of_nat i; 3%Z],
                     s2b "google.protobuf.ExtensionRangeOptions", full))
          (seq 0 (length (dp_ext_ranges m)))
  | EvField path full file _ _ _ | EvExt path full file _ _ _ =>
      [(file, path ++ [8%Z], s2b "google.protobuf.FieldOptions", full)]
  | EvOneof path full file _ _ _ => [(file, path ++ [2%Z], s2b "google.protobuf.OneofOptions", full)]
  | EvService path full file _ _ => [(file, path ++ [3%Z], s2b "google.protobuf.ServiceOptions", full)]
  | EvMethod path full file _ _ _ => [(file, path ++ [4%Z], s2b "google.protobuf.MethodOptions", full)]
  | EvEnum path full file _ _ _ => [(file, path ++ [3%Z], s2b "google.protobuf.EnumOptions", full)]
  | EvEnumValue path full file _ _ _ =>
      [(file, path ++ [3%Z], s2b "google.protobuf.EnumValueOptions", full)]
  end.

Section Pass.
  (** the global pool, and whether the typed options message of that name
      decodes these bytes (prost) *)
  Variable g : pool.
  Variable typed : str -> bytes -> bool.

  (** what the visitor collects: errors with the place of their label, options,
      locations *)
  Definition collected := (list (oerr * option spot) * list (nat * list Z * str * bytes) * list (nat * list Z * list Z))%type.

  (** one place (options.rs:78-296 and 300-342) *)
  Definition opt_place (p : pool) (raw : raw_options) (c : collected) (pl : place) : res collected :=
    let '(file, path, name, scope) := pl in
    let '(es, os, ls) := c in
    match raw file path with
    | None => Ok c
    | Some (encoded, us) =>
        match options_message g p name with
        | None => Panic
        | Some (own, d) =>
            let! (b, es', ls') :=
              resolve_one p (options_tables g p own) own scope file d path encoded us in
            Ok (es ++ map (fun e => (fst e, option_map (fun q => (file, q)) (snd e))) es', os ++ [(file, path, name, b)],
                ls ++ map (fun l => (file, fst l, snd l)) ls')
        end
    end.

  (** set_file_option and its helpers (options.rs:728-813): the options at that
      path are replaced; [Options::decode(encoded).unwrap()] panics if the
      typed decoder rejects the bytes.  The path was made by the visitor, so
      it leads somewhere. *)
  Definition write_options (raw : raw_options) (w : nat * list Z * str * bytes) : res raw_options :=
    let '(file, path, name, b) := w in
    if typed name b
    then Ok (fun f q => if ((f =? file)%nat && (if list_eq_dec Z.eq_dec q path then true else false))%bool
                        then Some (b, []) else raw f q)
    else Panic.

  (** DescriptorPool::resolve_options (options.rs:29-67), up to the locations *)
  Definition resolve_options (p : pool) (o : offsets) (files : list Proto.file) (raw : raw_options)
    : res (list (oerr * option spot) + (raw_options * list (nat * list Z * list Z))) :=
    let! (es, os, ls) :=
      fold_res (fun pl c => opt_place p raw c pl) (flat_map opt_places (visit o files)) ([], [], []) in
    match es with
    | _ :: _ => Ok (inl es)
    | [] => let! raw' := fold_res (fun w r => write_options r w) os raw in Ok (inr (raw', ls))
    end.
End Pass.

(** renaming the locations of a file (options.rs:55-64): a path that starts
    with [from] gets [to] in its place; one renaming after the other *)
Fixpoint strip_prefix (from path : list Z) : option (list Z) :=
  match from, path with
  | [], _ => Some path
  | a :: from', b :: path' => if (a =? b)%Z then strip_prefix from' path' else None
  | _, _ => None
  end.
Definition rename_location (l : list Z * list Z) (path : list Z) : list Z :=
  match strip_prefix (fst l) path with
  | Some rest => snd l ++ rest
  | None => path
  end.
Definition rename_locations (ls : list (list Z * list Z)) (paths : list (list Z)) : list (list Z) :=
  fold_left (fun ps l => map (rename_location l) ps) ls paths.

(** decode_options (api.rs:1952-1966): the options() getters; [None] when there
    are no options.  [raw]: the bytes kept in the file *)
Definition get_options (g p : pool) (name : str) (raw : option bytes) : res (tables * dynmsg) :=
  match options_message g p name with
  | None => Panic
  | Some (own, d) =>
      match msg_decode (options_tables g p own) d (match raw with Some b => b | None => [] end) with
      | Ok m => Ok (options_tables g p own, m)
      | Err _ => Panic
      | Panic => Panic
      | Fuel => Fuel
      end
  end.
