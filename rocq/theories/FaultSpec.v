(** What the errors of a rejected call point at: the specification for C68.
    Faults of files, each at the path (as in SourceCodeInfo) of the element that
    is at fault.  As in ValidSpec.v only the files are mentioned, no pool. *)
From Coq Require Import String.
From Verif Require Import Base Value Descr Proto Build DeclSpec ResolveSpec DefaultSpec ValidSpec.
From Coq Require Import List ZArith NArith.
Import ListNotations.
Local Open Scope list_scope.

(** ** Names *)

Section Names.
  Context (fs : list file) (k : nat) (f : file).   (* all the files; one of them, number [k] *)

  (** the full name [n], declared at [path] of [f], is that of another
      declaration or of a package *)
  Definition taken (path : list Z) (n : str) : Prop :=
    (exists k' path' it, thing fs k' path' n it /\ (k', path') <> (k, path)) \/
    (exists g, In g fs /\ package_prefix g n).

  Inductive name_fault : list Z -> what -> Prop :=
  | nf_name path n it : declares_name f path n it -> taken path n -> name_fault (path ++ [1%Z]) (ErrDupName n)
  | nf_package n k' path it : package_prefix f n -> thing fs k' path n it -> name_fault [2%Z] (ErrDupName n)
  | nf_fields path scope m i j x y : message_at f path scope m -> syntax_of f Proto3 ->
      (i < j)%nat -> nth_error (dp_fields m) i = Some x -> nth_error (dp_fields m) j = Some y ->
      squeezed (fp_name x) = squeezed (fp_name y) -> name_fault (path ++ [2; pos j; 1]%Z) ErrCamel
  | nf_empty path scope e : enum_at f path scope e -> ep_values e = [] -> name_fault path ErrEmptyEnum
  | nf_first path scope e v vs : enum_at f path scope e -> syntax_of f Proto3 -> ep_values e = v :: vs -> snd v <> 0%Z ->
      name_fault (path ++ [2; 0; 2]%Z) ErrEnumDefault.
End Names.

(** ** Uses *)

Section Uses.
  Context (X : externs) (fs : list file) (names : str -> option def) (vis : nat -> nat -> Prop).
  Context (k : nat) (f : file).

  Definition extendee (x : fproto) : str := match fp_extendee x with Some e => e | None => [] end.
  (** a field or an extension *)
  Definition member_at (path : list Z) (n : str) (x : fproto) : Prop :=
    declares_name f path n (IField x) \/ declares_name f path n (IExt x).
  (** a field or an extension with the message it belongs to *)
  Inductive numbered : list Z -> fproto -> dproto -> Prop :=
  | nu_field path scope m j x : message_at f path scope m -> nth_error (dp_fields m) j = Some x ->
      numbered (path ++ [2%Z; pos j]) x m
  | nu_ext path n x m : declares_name f path n (IExt x) -> to_message fs names vis k n (extendee x) m -> numbered path x m.
  Definition in_ranges (z : Z) (l : list (Z * Z)) : Prop := exists lo hi, In (lo, hi) l /\ (lo <= z < hi)%Z.

  (** a reference: where it is, the declaration that contains it, its text, and
      what it can stand for *)
  Inductive reference : list Z -> str -> str -> (dkind -> Prop) -> Prop :=
  | rf_type path n x : member_at path n x -> fp_type_name x <> [] -> reference (path ++ [6%Z]) n (fp_type_name x) field_type
  | rf_extendee path n x : declares_name f path n (IExt x) -> reference (path ++ [2%Z]) n (extendee x) message_type
  | rf_input path n m : declares_name f path n (IMethod m) -> reference (path ++ [2%Z]) n (mp_input m) message_type
  | rf_output path n m : declares_name f path n (IMethod m) -> reference (path ++ [3%Z]) n (mp_output m) message_type.
  Inductive reference_error : what -> Prop :=
  | re_not_found n : reference_error (ErrNotFound n)
  | re_shadowed n : reference_error (ErrShadowed n)
  | re_invalid n : reference_error (ErrInvalidType n).

  (** numbers that are the same as 32-bit integers *)
  Definition same32 (a b : Z) : Prop := (a mod 4294967296 = b mod 4294967296)%Z.

  Inductive use_fault : list Z -> what -> Prop :=
  | uf_import j d : nth_error (fl_deps f) j = Some d -> (forall g, In g fs -> fl_name g <> d) ->
      use_fault [3%Z; pos j] (ErrFileNotFound d)
  | uf_number path n x : member_at path n x ->
      ~ ((1 <= fp_number x <= 536870911)%Z /\ ~ (19000 <= fp_number x <= 19999)%Z) -> use_fault (path ++ [3%Z]) ErrFieldNumber
  | uf_reserved path x m : numbered path x m -> in_ranges (fp_number x) (dp_reserved m) -> use_fault (path ++ [3%Z]) ErrReserved
  | uf_in_range path x m : numbered path x m -> fp_extendee x = None -> in_ranges (fp_number x) (dp_ext_ranges m) ->
      use_fault (path ++ [3%Z]) ErrInExtRange
  | uf_not_in_range path x m : numbered path x m -> fp_extendee x <> None -> ~ in_ranges (fp_number x) (dp_ext_ranges m) ->
      use_fault (path ++ [3%Z]) ErrNotInExtRange
  | uf_no_type path n x : member_at path n x -> fp_type_name x = [] ->
      fp_type x = TGroup \/ fp_type x = TMessage \/ fp_type x = TEnum -> use_fault (path ++ [6%Z]) ErrMissingType
  | uf_reference path n ref fits e : reference path n ref fits ->
      (forall n' d, ~ refers names vis k fits n ref n' d) -> reference_error e -> use_fault path e
  | uf_default path n x s t : member_at path n x -> fp_default x = Some s -> has_type fs names vis k n x t ->
      ~ default_valid X t (Some s) -> use_fault (path ++ [7%Z]) (ErrDefault s)
  | uf_same_number path scope m i j x y : message_at f path scope m -> (i < j)%nat ->
      nth_error (dp_fields m) i = Some x -> nth_error (dp_fields m) j = Some y -> same32 (fp_number x) (fp_number y) ->
      use_fault (path ++ [2%Z; pos j] ++ [3%Z]) ErrDupNumber
  | uf_same_json path scope m i j x y : message_at f path scope m -> (i < j)%nat ->
      nth_error (dp_fields m) i = Some x -> nth_error (dp_fields m) j = Some y -> json_name x = json_name y ->
      use_fault (path ++ [2%Z; pos j] ++ [1%Z]) ErrDupJson
  | uf_value_number path scope e i j x y : enum_at f path scope e -> ~ aliased e -> (i < j)%nat ->
      nth_error (ep_values e) i = Some x -> nth_error (ep_values e) j = Some y -> snd x = snd y ->
      use_fault (path ++ [2%Z; pos j] ++ [2%Z]) ErrDupEnumNumber
  | uf_value_reserved path scope e j x lo hi : enum_at f path scope e -> nth_error (ep_values e) j = Some x ->
      In (lo, hi) (ep_reserved e) -> (lo <= snd x <= hi)%Z -> use_fault (path ++ [2%Z; pos j] ++ [2%Z]) ErrEnumReserved.
End Uses.

(** ** Errors without a place *)

Inductive file_fault (new : list file) : what -> Prop :=
| ff_name i j f g : (i < j)%nat -> nth_error new i = Some f -> nth_error new j = Some g -> fl_name f = fl_name g ->
    file_fault new (ErrDupFile (fl_name g)).
Inductive loose_fault (X : externs) (new : list file) : what -> Prop :=
| lf_import f z : In f new -> In z (fl_public f) \/ In z (fl_weak f) -> ~ (0 <= z < Z.of_nat (length (fl_deps f)))%Z ->
    loose_fault X new ErrImportIndex
| lf_oneof f path scope m x z : In f new -> message_at f path scope m -> In x (dp_fields m) -> fp_oneof x = Some z ->
    ~ (0 <= z < Z.of_nat (length (dp_oneofs m)))%Z -> loose_fault X new ErrOneofIndex
| lf_options q : x_options X q new = Ok false -> loose_fault X new ErrOptions.

(** ** Where an error points *)

(** [fs = old ++ new]: an error says which file, one of the new ones, and where
    in it; or nothing *)
Definition points_at (fs : list file) (first : nat) (fault : nat -> file -> list Z -> what -> Prop) (loose : what -> Prop) (e : err) : Prop :=
  match er_at e with
  | Some (k, path) => exists f, (first <= k)%nat /\ nth_error fs k = Some f /\ fault k f path (er_what e)
  | None => loose (er_what e)
  end.

(** the same, but where the number of an enum value is reserved the last step
    of the path is 3 (the number of a field) and not 2 (that of an enum value) *)
Definition nearly (fault : list Z -> what -> Prop) (path : list Z) (w : what) : Prop :=
  (w <> ErrEnumReserved /\ fault path w) \/
  (w = ErrEnumReserved /\ exists q, path = q ++ [3%Z] /\ fault (q ++ [2%Z]) w).
