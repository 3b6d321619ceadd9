(** Which sets of files are valid: the specification for C62.  Rules about the
    declarations of the files alone; no pool is mentioned. *)
From Coq Require Import String.
From Verif Require Import Base Value Descr Proto Build DeclSpec ResolveSpec DefaultSpec.
From Coq Require Import List ZArith NArith.
Import ListNotations.
Local Open Scope list_scope.

(** ** Names *)

(** an item with the full name [n] is declared at [path] of file number [k] *)
Definition thing (fs : list file) (k : nat) (path : list Z) (n : str) (it : item) : Prop :=
  exists f, nth_error fs k = Some f /\ declares_name f path n it.

Definition syntax_of (f : file) (sy : syntax) : Prop :=
  match sy with
  | Proto2 => fl_syntax f = None \/ fl_syntax f = Some (s2b "proto2"%string)
  | Proto3 => fl_syntax f = Some (s2b "proto3"%string)
  end.

(** a name in lower case and without its underscores *)
Definition lower_letter (c : N) : N := if (65 <=? c)%N && (c <=? 90)%N then (c + 32)%N else c.
Definition squeezed (s : str) : str := map lower_letter (filter (fun c => negb (c =? 95)%N) s).

(** The rules about names, for the files [new] to be added to the files [old]:
    the syntax of each is known; their own names differ; no two declarations
    have the same full name, and none has that of a package; in proto3, the
    fields of a message differ by more than case and underscores, and enums
    have a first value, zero in proto3. *)
Record names_valid (old new : list file) : Prop := {
  nv_syntax : forall f, In f new -> exists sy, syntax_of f sy;
  nv_files : NoDup (map fl_name new);
  nv_apart : forall k path n it k' path' it',
    thing (old ++ new) k path n it -> thing (old ++ new) k' path' n it' -> k = k' /\ path = path';
  nv_packages : forall k path n it f,
    thing (old ++ new) k path n it -> In f (old ++ new) -> ~ package_prefix f n;
  nv_fields : forall f path scope m, In f new -> syntax_of f Proto3 -> message_at f path scope m ->
    NoDup (map (fun x => squeezed (fp_name x)) (dp_fields m));
  nv_enums : forall f path scope e, In f new -> enum_at f path scope e ->
    exists v vs, ep_values e = v :: vs /\ (syntax_of f Proto3 -> snd v = 0%Z)
}.

(** ** References *)

(** what the full name [n] stands for: a package, or the item of the same sort *)
Definition sort_of (k : dkind) (it : item) : Prop :=
  match k, it with
  | DMessage _, IMessage _ | DField _, IField _ | DOneof _, IOneof _ | DService _, IService _
  | DMethod _, IMethod _ | DEnum _, IEnum _ | DEnumValue _, IValue _ | DExtension _, IExt _ => True
  | _, _ => False
  end.
Definition stands_for (fs : list file) (n : str) (d : def) : Prop :=
  match d_kind d with
  | DPackage => exists f, nth_error fs (d_file d) = Some f /\ package_prefix f n
  | _ => exists path it, d_path d = path ++ [1%Z] /\ thing fs (d_file d) path n it /\ sort_of (d_kind d) it
  end.
(** [names] is a table of all the names there are *)
Definition names_of (fs : list file) (names : str -> option def) : Prop :=
  (forall n d, names n = Some d -> stands_for fs n d) /\
  (forall n d, stands_for fs n d -> names n <> None).

Section References.
  Context (X : externs) (fs : list file) (names : str -> option def) (vis : nat -> nat -> Prop).

  (** [ref], written in file [k] where the full name of the declaration that
      contains it is [full], stands for [n]: by the rules of C24; in a
      declaration without a name the reference is taken as it is *)
  Definition refers (k : nat) (fits : dkind -> Prop) (full ref n : str) (d : def) : Prop :=
    (full <> [] -> resolves names (vis k) fits full ref n d) /\
    (full = [] -> fitting names (vis k) fits n d /\ (ref = dot :: n \/ (ref = n /\ forall r, ref <> dot :: r))).
  (** it stands for the declared message [dm] *)
  Definition to_message (k : nat) (full ref : str) (dm : dproto) : Prop :=
    exists n d path, refers k message_type full ref n d /\ d_path d = path ++ [1%Z] /\ thing fs (d_file d) path n (IMessage dm).

  (** types: scalar, message or enum *)
  Inductive dtype := DScalar (k : kind) | DMsg | DEnm (e : eproto).
  Inductive scalar_type : ptype -> kind -> Prop :=
  | st_double : scalar_type TDouble KDouble
  | st_float : scalar_type TFloat KFloat
  | st_int64 : scalar_type TInt64 KInt64
  | st_uint64 : scalar_type TUint64 KUint64
  | st_int32 : scalar_type TInt32 KInt32
  | st_fixed64 : scalar_type TFixed64 KFixed64
  | st_fixed32 : scalar_type TFixed32 KFixed32
  | st_bool : scalar_type TBool KBool
  | st_string : scalar_type TString KString
  | st_bytes : scalar_type TBytes KBytes
  | st_uint32 : scalar_type TUint32 KUint32
  | st_sfixed32 : scalar_type TSfixed32 KSfixed32
  | st_sfixed64 : scalar_type TSfixed64 KSfixed64
  | st_sint32 : scalar_type TSint32 KSint32
  | st_sint64 : scalar_type TSint64 KSint64.
  Inductive has_type (k : nat) (full : str) (fd : fproto) : dtype -> Prop :=
  | ht_scalar s : fp_type_name fd = [] -> scalar_type (fp_type fd) s -> has_type k full fd (DScalar s)
  | ht_message n d path dm : fp_type_name fd <> [] -> refers k field_type full (fp_type_name fd) n d ->
      d_path d = path ++ [1%Z] -> thing fs (d_file d) path n (IMessage dm) -> has_type k full fd DMsg
  | ht_enum n d path e : fp_type_name fd <> [] -> refers k field_type full (fp_type_name fd) n d ->
      d_path d = path ++ [1%Z] -> thing fs (d_file d) path n (IEnum e) -> has_type k full fd (DEnm e).

  (** defaults: texts that denote a value of the type (C32, C33); a value of the
      enum; none for messages.  What a float or a byte string with escapes may
      look like is the business of the parser for these (C32). *)
  Definition default_valid (t : dtype) (d : option str) : Prop :=
    match d with
    | None => True
    | Some s =>
        match t with
        | DScalar KDouble => x_f64 X s <> None
        | DScalar KFloat => x_f32 X s <> None
        | DScalar KBytes => exists bs, unescape_c (x_checked X) s = Ok (Some bs)
        | DScalar k => exists v, denotes (fun _ => []) k s v
        | DMsg => False
        | DEnm e => In s (map fst (ep_values e))
        end
    end.
  Definition typed (k : nat) (full : str) (fd : fproto) : Prop :=
    exists t, has_type k full fd t /\ default_valid t (fp_default fd).

  (** numbers: 1 to 2^29-1 without 19000 to 19999, not reserved, and in an
      extension range of the message if and only if it is an extension of it *)
  Definition number_valid (dm : dproto) (fd : fproto) : Prop :=
    let z := fp_number fd in
    (1 <= z <= 536870911)%Z /\ ~ (19000 <= z <= 19999)%Z /\
    (forall lo hi, In (lo, hi) (dp_reserved dm) -> ~ (lo <= z < hi)%Z) /\
    ((exists lo hi, In (lo, hi) (dp_ext_ranges dm) /\ (lo <= z < hi)%Z) <-> fp_extendee fd <> None).

  Definition json_name (fd : fproto) : str :=
    match fp_json fd with Some j => j | None => to_json_name (fp_name fd) end.

  (** the fields of a message with full name [full] in file [k] *)
  Definition fields_valid (k : nat) (full : str) (dm : dproto) : Prop :=
    NoDup (map fp_number (dp_fields dm)) /\ NoDup (map json_name (dp_fields dm)) /\
    forall fd, In fd (dp_fields dm) ->
      number_valid dm fd /\ typed k (dotted full (fp_name fd)) fd /\
      (forall z, fp_oneof fd = Some z -> (0 <= z < Z.of_nat (length (dp_oneofs dm)))%Z).

  (** enum values: not reserved; numbers differ unless aliases are allowed *)
  Definition aliased (e : eproto) : Prop :=
    exists a us, ep_options e = Some (a, us) /\
      (a = true \/ exists u, In u us /\ ui_name u = [(s2b "allow_alias"%string, false)] /\ ui_ident u = Some (s2b "true"%string)).
  Definition values_valid (e : eproto) : Prop :=
    (forall v lo hi, In v (ep_values e) -> In (lo, hi) (ep_reserved e) -> ~ (lo <= snd v <= hi)%Z) /\
    (aliased e \/ NoDup (map snd (ep_values e))).

  Definition ext_valid (k : nat) (full : str) (fd : fproto) : Prop :=
    (exists dm, to_message k full (match fp_extendee fd with Some e => e | None => [] end) dm /\ number_valid dm fd) /\
    typed k full fd.
  Definition method_valid (k : nat) (full : str) (m : mproto) : Prop :=
    (exists dm, to_message k full (mp_input m) dm) /\ (exists dm, to_message k full (mp_output m) dm).

  (** imports: the files exist, and the lists of public and of weak imports are
      lists of positions of imports *)
  Definition imports_valid (f : file) : Prop :=
    (forall name, In name (fl_deps f) -> exists g, In g fs /\ fl_name g = name) /\
    (forall z, In z (fl_public f) \/ In z (fl_weak f) -> (0 <= z < Z.of_nat (length (fl_deps f)))%Z).

  (** file number [k] *)
  Record file_valid (k : nat) (f : file) : Prop := {
    fv_imports : imports_valid f;
    fv_fields : forall path scope m, message_at f path scope m -> fields_valid k (dotted scope (dp_name m)) m;
    fv_values : forall path scope e, enum_at f path scope e -> values_valid e;
    fv_exts : forall path n fd, declares_name f path n (IExt fd) -> ext_valid k n fd;
    fv_methods : forall path n m, declares_name f path n (IMethod m) -> method_valid k n m
  }.
End References.

(** [new] are valid additions to [old]; [vis k x]: file [k] sees file [x] *)
Definition valid (X : externs) (vis : nat -> nat -> Prop) (old new : list file) : Prop :=
  names_valid old new /\
  exists names, names_of (old ++ new) names /\
    forall j f, nth_error new j = Some f -> file_valid X (old ++ new) names vis (length old + j) f.
