(** Building a DescriptorPool from file descriptors:
    prost-reflect/src/descriptor/build/{mod,names,resolve}.rs and the pool's
    lookups (descriptor/mod.rs, descriptor/api.rs).

    Simplifications, for the whole file:
    - Rust's [u32] indices are unbounded naturals (a pool has fewer than 2^32
      definitions, otherwise [to_index] panics);
    - an error is its kind and its first place: of other labels only the indexing [files[file]] is kept
      (error.rs:782), because it can panic;
    - the raw file descriptors keep the text they were added with: storing the
      computed json_name / type_name / type back into them
      (resolve.rs:564-565, 752-758) is reduced to the lookup of the place to
      write to, because that lookup can panic;
    - interpreting uninterpreted options (build/options.rs) is a parameter that
      accepts, rejects or panics; it changes only the options of new files,
      which nothing modelled here reads afterwards. *)
From Coq Require Import String.
From Verif Require Import Base Wire Value Descr Proto.
From Coq Require Import List.
Import ListNotations.
Local Open Scope list_scope.

(** ** The pool *)

(** DefinitionKind, Definition (descriptor/mod.rs:154-172) *)
Inductive dkind :=
| DPackage
| DMessage (i : nat) | DField (i : nat) | DOneof (i : nat)
| DService (i : nat) | DMethod (i : nat)
| DEnum (i : nat) | DEnumValue (i : nat)
| DExtension (i : nat).
Record def := Def { d_file : nat; d_path : list Z; d_kind : dkind }.

(** FileDescriptorInner (descriptor/mod.rs:182-188) without the prost copy;
    transitive_dependencies as a list without duplicates *)
Record file_inner := FileI {
  fi_syntax : syntax; fi_raw : file; fi_deps : list nat; fi_trans : list nat }.
(** MethodDescriptorInner, ServiceDescriptorInner (descriptor/mod.rs:299-317) *)
Record method_inner := MethodI { me_id : ident; me_input : nat; me_output : nat }.
Record service_inner := ServiceI { s_id : ident; s_methods : list method_inner }.

(** DescriptorPoolInner (descriptor/mod.rs:135-144) *)
Record pool := Pool {
  p_names : list (str * def);
  p_file_names : list (str * nat);
  p_files : list file_inner;
  p_messages : list message_inner;
  p_enums : list enum_inner;
  p_exts : list ext_inner;
  p_services : list service_inner
}.
Definition empty_pool : pool := Pool [] [] [] [] [] [] [].
Definition p_tables (p : pool) : tables := Tables (p_messages p) (p_enums p) (p_exts p).

(** HashMap::insert: the new map and the previous value *)
Fixpoint assoc_put {A} (k : str) (v : A) (l : list (str * A)) : list (str * A) :=
  match l with
  | [] => [(k, v)]
  | (k', v') :: r => if bytes_eqb k k' then (k, v) :: r else (k', v') :: assoc_put k v r
  end.
(** element [i] changed in place *)
Fixpoint upd {A} (i : nat) (g : A -> A) (l : list A) : list A :=
  match l, i with
  | [], _ => []
  | a :: r, O => g a :: r
  | a :: r, S i' => a :: upd i' g r
  end.

(** Identity::new (descriptor/mod.rs:319-330); its debug assertions hold by
    the way full names are made *)
Definition mk_id (f : nat) (path : list Z) (full name : str) : ident :=
  Ident f path full (length full - length name).

(** ** Errors, and the state threaded through a visitor *)

(** DescriptorErrorKind (descriptor/error.rs:15-154) *)
Inductive what :=
| ErrSyntax | ErrDupFile (name : str) | ErrDupName (name : str) | ErrCamel
| ErrEmptyEnum | ErrEnumDefault
| ErrFileNotFound (name : str) | ErrImportIndex
| ErrFieldNumber | ErrReserved | ErrInExtRange | ErrNotInExtRange
| ErrMissingType | ErrNotFound (name : str) | ErrShadowed (name : str) | ErrInvalidType (name : str)
| ErrDefault (value : str) | ErrOneofIndex | ErrDupNumber | ErrDupJson
| ErrEnumReserved | ErrDupEnumNumber
| ErrOptions.

(** A file, by its index, and a path in it. *)
Definition spot : Type := nat * list Z.
(** join_path (build/mod.rs:388-393) in a file *)
Definition inside_spot (w : spot) (tags : list Z) : spot := (fst w, snd w ++ tags).
(** An error with what DescriptorError::file and DescriptorError::path say about
    it (error.rs:177-180, 203-208): the place of the label that
    DescriptorErrorKind::label (error.rs:295-330) picks, if there is one. *)
Record err := ErrAt { er_what : what; er_at : option spot }.
Definition at_spot (w : spot) (e : what) : err := ErrAt e (Some w).
Definition nowhere (e : what) : err := ErrAt e None.

Record vst := V { v_pool : pool; v_errs : list err }.

(** Label::new (error.rs:775-807) indexes the files *)
Definition label_ok (p : pool) (f : nat) : bool := (f <? length (p_files p))%nat.
(** [errors.push(Error { label, .. })] *)
Definition push_err (labels : list nat) (e : err) (v : vst) : res vst :=
  if forallb (label_ok (v_pool v)) labels then Ok (V (v_pool v) (v_errs v ++ [e])) else Panic.

Definition set_names n p :=
  Pool n (p_file_names p) (p_files p) (p_messages p) (p_enums p) (p_exts p) (p_services p).
Definition set_files fn fs p :=
  Pool (p_names p) fn fs (p_messages p) (p_enums p) (p_exts p) (p_services p).
Definition set_messages ms p :=
  Pool (p_names p) (p_file_names p) (p_files p) ms (p_enums p) (p_exts p) (p_services p).
Definition set_enums es p :=
  Pool (p_names p) (p_file_names p) (p_files p) (p_messages p) es (p_exts p) (p_services p).
Definition set_exts xs p :=
  Pool (p_names p) (p_file_names p) (p_files p) (p_messages p) (p_enums p) xs (p_services p).
Definition set_services ss p :=
  Pool (p_names p) (p_file_names p) (p_files p) (p_messages p) (p_enums p) (p_exts p) ss.
Definition on_pool (g : pool -> pool) (v : vst) : vst := V (g (v_pool v)) (v_errs v).

(** a debug_assert! *)
Definition assert (b : bool) (v : vst) : res vst := if b then Ok v else Panic.

(** [vec[i]]: panics when out of range *)
Definition at_ {A} (l : list A) (i : nat) : res A :=
  match nth_error l i with Some a => Ok a | None => Panic end.

(** ** Phase 1: collecting names (build/names.rs) *)

Definition is_package (k : dkind) : bool := match k with DPackage => true | _ => false end.

(** add_name (names.rs:330-365) *)
Definition add_name (f : nat) (name : str) (path : list Z) (k : dkind) (v : vst) : res vst :=
  match assoc_s name (p_names (v_pool v)) with
  | None => Ok (on_pool (fun p => set_names ((name, Def f path k) :: p_names p) p) v)
  | Some d =>
      if is_package k && is_package (d_kind d) then Ok v
      else push_err [d_file d; f] (at_spot (f, path) (ErrDupName name)) v
  end.

(** the part of [s] before each of its dots, shortest first *)
Fixpoint before_dots (pre s : str) : list str :=
  match s with
  | [] => []
  | c :: r => (if c =? dot then [pre] else []) ++ before_dots (pre ++ [c]) r
  end.

Fixpoint fold_res {A S} (g : A -> S -> res S) (l : list A) (s : S) : res S :=
  match l with
  | [] => Ok s
  | a :: r => let! s' := g a s in fold_res g r s'
  end.

Definition b_proto2 : str := s2b "proto2"%string.
Definition b_proto3 : str := s2b "proto3"%string.

(** the syntax of a file (names.rs:54-69) *)
Definition file_syntax (f : file) : option syntax :=
  match fl_syntax f with
  | None => Some Proto2
  | Some s => if bytes_eqb s b_proto2 then Some Proto2
              else if bytes_eqb s b_proto3 then Some Proto3 else None
  end.

(** visit_file (names.rs:51-107) *)
Definition names_file (path : list Z) (index : nat) (f : file) (v : vst) : res vst :=
  let! v := assert (length (p_files (v_pool v)) =? index)%nat v in
  match file_syntax f with
  | None => push_err [index] (at_spot (index, path ++ [12%Z]) ErrSyntax) v
  | Some sy =>
      let old := assoc_s (fl_name f) (p_file_names (v_pool v)) in
      let v := on_pool (fun p => set_files (assoc_put (fl_name f) index (p_file_names p)) (p_files p) p) v in
      let! v := match old with Some _ => push_err [] (nowhere (ErrDupFile (fl_name f))) v | None => Ok v end in
      let v := on_pool (fun p => set_files (p_file_names p) (p_files p ++ [FileI sy f [] []]) p) v in
      match fl_package f with
      | [] => Ok v
      | pkg =>
          let! v := fold_res (fun pre => add_name index pre (path ++ [2%Z]) DPackage) (before_dots [] pkg) v in
          add_name index pkg (path ++ [2%Z]) DPackage v
      end
  end.

(** char::to_ascii_lowercase, to_ascii_uppercase on UTF-8 bytes *)
Definition lower (c : N) : N := if (65 <=? c) && (c <=? 90) then c + 32 else c.
Definition upper (c : N) : N := if (97 <=? c) && (c <=? 122) then c - 32 else c.
Definition underscore : N := 95.

(** to_lower_without_underscores (names.rs:409-416) *)
Definition to_lower_without_underscores (s : str) : str :=
  map lower (filter (fun c => negb (c =? underscore)) s).

(** check_message_field_camel_case_names (names.rs:367-406) *)
Fixpoint check_camel (w : spot) (i : nat) (seen : list str) (fields : list fproto) (v : vst) : res vst :=
  match fields with
  | [] => Ok v
  | fd :: r =>
      let n := to_lower_without_underscores (fp_name fd) in
      if existsb (bytes_eqb n) seen
      then let! v := push_err [fst w; fst w] (at_spot (inside_spot w [2; Z.of_nat i; 1]%Z) ErrCamel) v in
           check_camel w (S i) seen r v
      else check_camel w (S i) (n :: seen) r v
  end.

(** visit_message (names.rs:109-141) *)
Definition names_message path full f parent index (m : dproto) (v : vst) : res vst :=
  let! v := add_name f full (path ++ [1%Z]) (DMessage index) v in
  let! v := assert (length (p_messages (v_pool v)) =? index)%nat v in
  let mi := MessageI (mk_id f path full (dp_name m)) parent [] [] [] [] [] [] (dp_map_entry m) in
  let v := on_pool (fun p => set_messages (p_messages p ++ [mi]) p) v in
  let! fi := at_ (p_files (v_pool v)) f in
  match fi_syntax fi with
  | Proto2 => Ok v
  | Proto3 => check_camel (f, path) 0 [] (dp_fields m) v
  end.

Definition m_push_oneof (o : oneof_inner) (m : message_inner) : message_inner :=
  MessageI (m_id m) (m_parent m) (m_exts m) (m_fields m) (m_numbers m) (m_names m) (m_jsons m)
           (m_oneofs m ++ [o]) (m_map_entry m).

(** visit_oneof (names.rs:161-188) *)
Definition names_oneof path full f message index (name : str) (v : vst) : res vst :=
  let! v := add_name f full (path ++ [1%Z]) (DOneof message) v in
  let! m := at_ (p_messages (v_pool v)) message in
  let! v := assert (length (m_oneofs m) =? index)%nat v in
  let o := OneofI (mk_id f path full name) [] in
  Ok (on_pool (fun p => set_messages (upd message (m_push_oneof o) (p_messages p)) p) v).

(** option_to_bool (options.rs:575-581) *)
Definition option_to_bool (u : uninterp) : option bool :=
  match ui_ident u with
  | Some s => if bytes_eqb s (s2b "true"%string) then Some true
              else if bytes_eqb s (s2b "false"%string) then Some false else None
  | None => None
  end.
(** allow_alias (names.rs:260-268) *)
Definition allow_alias (e : eproto) : bool :=
  match ep_options e with
  | None => false
  | Some (a, us) =>
      a || existsb (fun u => match ui_name u with
                             | [(part, is_ext)] =>
                                 bytes_eqb part (s2b "allow_alias"%string) && negb is_ext
                                 && match option_to_bool u with Some b => b | None => false end
                             | _ => false
                             end) us
  end.

(** visit_enum (names.rs:225-279) *)
Definition names_enum path full f parent index (e : eproto) (v : vst) : res vst :=
  let! v := add_name f full (path ++ [1%Z]) (DEnum index) v in
  let! v := match ep_values e with
            | [] => push_err [f] (at_spot (f, path) ErrEmptyEnum) v
            | first :: _ =>
                let! fi := at_ (p_files (v_pool v)) f in
                match fi_syntax fi with
                | Proto3 => if (snd first =? 0)%Z then Ok v
                            else push_err [f] (at_spot (f, path ++ [2; 0; 2]%Z) ErrEnumDefault) v
                | Proto2 => Ok v
                end
            end in
  let! v := assert (length (p_enums (v_pool v)) =? index)%nat v in
  let ei := EnumI (mk_id f path full (ep_name e)) parent [] [] [] (allow_alias e) in
  Ok (on_pool (fun p => set_enums (p_enums p ++ [ei]) p) v).

Definition e_push_value (x : enum_value_inner) (e : enum_inner) : enum_inner :=
  EnumI (e_id e) (e_parent e) (e_values e ++ [x]) (e_numbers e) (e_names e) (e_alias e).

(** visit_enum_value (names.rs:281-308) *)
Definition names_enum_value path full f enum index (x : str * Z) (v : vst) : res vst :=
  let! v := add_name f full (path ++ [1%Z]) (DEnumValue enum) v in
  let! e := at_ (p_enums (v_pool v)) enum in
  let! v := assert (length (e_values e) =? index)%nat v in
  let ev := EnumValueI (mk_id f path full (fst x)) (snd x) in
  Ok (on_pool (fun p => set_enums (upd enum (e_push_value ev) (p_enums p)) p) v).

(** NameVisitor (names.rs:50-327) *)
Definition names_step (e : event) (v : vst) : res vst :=
  match e with
  | EvFile path index f => names_file path index f v
  | EvMessage path full f parent index m => names_message path full f parent index m v
  | EvField path full f message _ _ => add_name f full (path ++ [1%Z]) (DField message) v
  | EvOneof path full f message index o => names_oneof path full f message index o v
  | EvService path full f index _ => add_name f full (path ++ [1%Z]) (DService index) v
  | EvMethod path full f service _ _ => add_name f full (path ++ [1%Z]) (DMethod service) v
  | EvEnum path full f parent index en => names_enum path full f parent index en v
  | EvEnumValue path full f enum index x => names_enum_value path full f enum index x v
  | EvExt path full f _ index _ => add_name f full (path ++ [1%Z]) (DExtension index) v
  end.

(** ** Name resolution (build/mod.rs:34-60, 151-386) *)

Inductive rfilter := FMessage | FExtension | FFieldType.
(** ResolveNameFilter::is_match (mod.rs:151-163) *)
Definition is_match (r : rfilter) (k : dkind) : bool :=
  match r, k with
  | FMessage, DMessage _ => true
  | FExtension, DExtension _ => true
  | FFieldType, (DMessage _ | DEnum _) => true
  | _, _ => false
  end.
(** DefinitionKind::is_parent (descriptor/mod.rs:393-407) *)
Definition is_parent (k : dkind) : bool :=
  match k with DPackage | DMessage _ | DService _ | DEnum _ => true | _ => false end.

(** ResolveNameResult (mod.rs:41-60) *)
Inductive rres :=
| RFound (name : str) (d : def)
| RInvalidType (name : str) (d : def)
| RNotImported (name : str) (f : nat)
| RShadowed (name shadowed : str)
| RNotFound.

(** ResolveNameResult::new (mod.rs:176-197) *)
Definition lookup_name (deps : list nat) (names : list (str * def)) (name : str) (r : rfilter) : rres :=
  match assoc_s name names with
  | Some d =>
      if negb (existsb (Nat.eqb (d_file d)) deps) then RNotImported name (d_file d)
      else if negb (is_match r (d_kind d)) then RInvalidType name d
      else RFound name d
  | None => RNotFound
  end.

(** resolve_relative_candidate_parents (mod.rs:382-386) *)
Definition candidate_parents (scope : str) : list str :=
  scope :: rev (before_dots [] scope) ++ [[]].

(** [relative_name.split('.').next()] *)
Fixpoint first_part (s : str) : str :=
  match s with
  | [] => []
  | c :: r => if c =? dot then [] else c :: first_part r
  end.

(** resolve_relative_name (mod.rs:330-380): the loop, with the error kept so far *)
Fixpoint resolve_loop (deps : list nat) (names : list (str * def)) (r : rfilter)
    (rel : str) (parents : list str) (e : rres) : rres :=
  match parents with
  | [] => e
  | parent :: rest =>
      let first := first_part rel in
      let candidate := join_scope parent first in
      if (length first =? length rel)%nat then
        let x := lookup_name deps names candidate r in
        match x with
        | RFound _ _ => x
        | _ => resolve_loop deps names r rel rest (match e with RNotFound => x | _ => e end)
        end
      else
        match assoc_s candidate names with
        | Some d =>
            if is_parent (d_kind d) then
              let full := join_scope parent rel in
              match lookup_name deps names full r with
              | RNotFound => RShadowed rel full
              | x => x
              end
            else resolve_loop deps names r rel rest e
        | None => resolve_loop deps names r rel rest e
        end
  end.

(** resolve_name (mod.rs:316-328) *)
Definition resolve_name (deps : list nat) (names : list (str * def)) (scope name : str)
    (r : rfilter) : rres :=
  match name with
  | c :: full =>
      if c =? dot then lookup_name deps names full r
      else match scope with
           | [] => lookup_name deps names name r
           | _ => resolve_loop deps names r name (candidate_parents scope) RNotFound
           end
  | [] =>
      match scope with
      | [] => lookup_name deps names name r
      | _ => resolve_loop deps names r name (candidate_parents scope) RNotFound
      end
  end.

(** ** Defaults *)

(** what the standard library does and this model does not define *)
Record externs := Externs {
  (** [str::parse] for f32, f64: the bits *)
  x_f32 : str -> option N;
  x_f64 : str -> option N;
  (** overflow checks enabled (debug builds) *)
  x_checked : bool;
  (** [slice::binary_search_by] on (number, index) pairs sorted by number:
      the position of a match (any one), or where to insert *)
  x_search : list (Z * nat) -> Z -> nat * bool;
  (** resolve_options (options.rs:29-75): accepts, rejects or panics *)
  x_options : pool -> list file -> res bool
}.

Definition is_digit (c : N) : bool := (48 <=? c) && (c <=? 57).
(** decimal digits, at least one *)
Definition dec_value (s : str) : N := fold_left (fun a c => a * 10 + (c - 48)) s 0.
Definition parse_digits (s : str) : option N :=
  match s with
  | [] => None
  | _ => if forallb is_digit s then Some (dec_value s) else None
  end.
(** [<unsigned>::from_str], [<signed>::from_str] without the range check *)
Definition parse_unsigned (s : str) : option N :=
  match s with
  | 43 :: r => parse_digits r
  | _ => parse_digits s
  end.
Definition parse_signed (s : str) : option Z :=
  match s with
  | 43 :: r => option_map Z.of_N (parse_digits r)
  | 45 :: r => option_map (fun n => - Z.of_N n)%Z (parse_digits r)
  | _ => option_map Z.of_N (parse_digits s)
  end.
Definition ranged {A} (okb : A -> bool) (o : option A) : option A :=
  match o with Some a => if okb a then Some a else None | None => None end.
(** [bool::from_str] *)
Definition parse_bool (s : str) : option bool :=
  if bytes_eqb s (s2b "true"%string) then Some true
  else if bytes_eqb s (s2b "false"%string) then Some false else None.

Definition hex_digit (c : N) : option N :=
  if is_digit c then Some (c - 48)
  else if (97 <=? c) && (c <=? 102) then Some (c - 87)
  else if (65 <=? c) && (c <=? 70) then Some (c - 55)
  else None.
(** [u8::from_str_radix(_, 16)] of two bytes: a leading plus sign is allowed *)
Definition hex_byte (a b : N) : option N :=
  if a =? 43 then hex_digit b
  else match hex_digit a, hex_digit b with
       | Some x, Some y => Some (x * 16 + y)
       | _, _ => None
       end.
Definition is_octal (c : N) : bool := (48 <=? c) && (c <=? 55).
(** str::is_char_boundary at the start of [s]: not a continuation byte *)
Definition boundary (s : str) : bool :=
  match s with [] => true | c :: _ => negb ((128 <=? c) && (c <=? 191)) end.

(** [octal * 8 + d] on u8 *)
Definition oct_step (checked : bool) (a d : N) : option N :=
  let x := a * 8 in
  if checked && (256 <=? x) then None
  else let y := x mod 256 + d in
       if checked && (256 <=? y) then None else Some (y mod 256).
(** up to [n] octal digits *)
Fixpoint octal (checked : bool) (n : nat) (a : N) (s : str) : res (N * str) :=
  match n, s with
  | S n', c :: r =>
      if is_octal c then
        match oct_step checked a (c - 48) with
        | Some a' => octal checked n' a' r
        | None => Panic
        end
      else Ok (a, s)
  | _, _ => Ok (a, s)
  end.

(** the one-letter escapes (resolve.rs:813-856) *)
Definition simple_escape (c : N) : option N :=
  if c =? 97 then Some 7          (* a *)
  else if c =? 98 then Some 8     (* b *)
  else if c =? 102 then Some 12   (* f *)
  else if c =? 110 then Some 10   (* n *)
  else if c =? 114 then Some 13   (* r *)
  else if c =? 116 then Some 9    (* t *)
  else if c =? 118 then Some 11   (* v *)
  else if c =? 92 then Some 92    (* backslash *)
  else if c =? 63 then Some 63    (* ? *)
  else if c =? 39 then Some 39    (* single quote *)
  else if c =? 34 then Some 34    (* double quote *)
  else None.

(** unescape_c_escape_string (resolve.rs:796-884): [Ok None] is its error.
    [fuel] bounds the loop; the length of the string is enough. *)
Fixpoint unescape (checked : bool) (fuel : nat) (dst s : str) : res (option bytes) :=
  match fuel with
  | O => match s with [] => Ok (Some dst) | _ => Fuel end
  | S fuel' =>
      match s with
      | [] => Ok (Some dst)
      | c :: r =>
          if negb (c =? 92) then unescape checked fuel' (dst ++ [c]) r
          else
            match r with
            | [] => Ok None
            | e :: r2 =>
                match simple_escape e with
                | Some b => unescape checked fuel' (dst ++ [b]) r2
                | None =>
                    if is_octal e then
                      let! (o, r3) := octal checked 3 0 r in
                      unescape checked fuel' (dst ++ [o]) r3
                    else if (e =? 120) || (e =? 88) then
                      match r2 with
                      | h1 :: h2 :: r3 =>
                          if boundary r3 then
                            match hex_byte h1 h2 with
                            | Some b => unescape checked fuel' (dst ++ [b]) r3
                            | None => Ok None
                            end
                          else Panic
                      | _ => Ok None
                      end
                    else Ok None
                end
            end
      end
  end.
Definition unescape_c (checked : bool) (s : str) : res (option bytes) :=
  unescape checked (length s) [] s.

Section Build.
Context (X : externs).

(** parse_simple_value (resolve.rs:769-791); [Ok None] is its error *)
Definition parse_simple (k : kind) (s : str) : res (option value) :=
  match k with
  | KDouble => Ok (option_map VF64 (x_f64 X s))
  | KFloat => Ok (option_map VF32 (x_f32 X s))
  | KInt32 | KSint32 | KSfixed32 => Ok (option_map VI32 (ranged i32_ok (parse_signed s)))
  | KInt64 | KSint64 | KSfixed64 => Ok (option_map VI64 (ranged i64_ok (parse_signed s)))
  | KUint32 | KFixed32 => Ok (option_map VU32 (ranged u32_ok (parse_unsigned s)))
  | KUint64 | KFixed64 => Ok (option_map VU64 (ranged u64_ok (parse_unsigned s)))
  | KBool => Ok (option_map VBool (parse_bool s))
  | KString => Ok (Some (VString s))
  | KBytes => let! o := unescape_c (x_checked X) s in Ok (option_map VBytes o)
  | KEnum _ | KMessage _ | KGroup _ => Panic
  end.

(** parse_field_default_value (resolve.rs:627-699) *)
Definition parse_default (k : kind) (d : option str) (w : spot) (v : vst) : res (option value * vst) :=
  match d with
  | None => Ok (None, v)
  | Some s =>
      let bad := let! v' := push_err [fst w] (at_spot (inside_spot w [7%Z]) (ErrDefault s)) v in Ok (None, v') in
      match k with
      | KEnum e =>
          let! en := at_ (p_enums (v_pool v)) e in
          match find (fun x => bytes_eqb (id_name (ev_id x)) s) (e_values en) with
          | Some x => Ok (Some (VEnum (ev_number x)), v)
          | None => bad
          end
      | KMessage _ | KGroup _ => bad
      | _ =>
          let! o := parse_simple k s in
          match o with Some x => Ok (Some x, v) | None => bad end
      end
  end.

(** ** Phase 2: resolving names (build/resolve.rs) *)

(** HashSet::insert: the set and whether the element was new *)
Definition set_insert (x : nat) (l : list nat) : list nat * bool :=
  if existsb (Nat.eqb x) l then (l, false) else (l ++ [x], true).

(** is position [i] listed in public_dependency *)
Definition is_public (f : file) (i : nat) : bool := existsb (Z.eqb (Z.of_nat i)) (fl_public f).

(** resolve_public_dependencies (resolve.rs:418-430).  The recursion goes into
    a file that was *already* in the set; [fuel] bounds its depth, and [Fuel]
    is stack exhaustion. *)
Fixpoint resolve_public (fuel : nat) (p : pool) (deps : list nat) (index : nat) : res (list nat) :=
  match fuel with
  | O => Fuel
  | S fuel' =>
      let! fi := at_ (p_files p) index in
      (fix go (i : nat) (ds : list str) (deps : list nat) : res (list nat) :=
         match ds with
         | [] => Ok deps
         | d :: r =>
             match assoc_s d (p_file_names p) with
             | Some di =>
                 if is_public (fi_raw fi) i then
                   let (deps', fresh) := set_insert di deps in
                   if negb fresh then
                     let! deps'' := resolve_public fuel' p deps' di in go (S i) r deps''
                   else go (S i) r deps'
                 else go (S i) r deps
             | None => go (S i) r deps
             end
         end) O (fl_deps (fi_raw fi)) deps
  end.

Definition fi_push_dep (d : nat) (f : file_inner) : file_inner :=
  FileI (fi_syntax f) (fi_raw f) (fi_deps f ++ [d]) (fi_trans f).
Definition fi_set_trans (t : list nat) (f : file_inner) : file_inner :=
  FileI (fi_syntax f) (fi_raw f) (fi_deps f) t.

(** the loop over the imports (resolve.rs:57-76) *)
Fixpoint resolve_deps (fuel index i : nat) (ds : list str) (trans : list nat) (v : vst)
  : res (list nat * vst) :=
  match ds with
  | [] => Ok (trans, v)
  | d :: r =>
      match assoc_s d (p_file_names (v_pool v)) with
      | Some di =>
          let! _ := at_ (p_files (v_pool v)) index in
          let v := on_pool (fun p => set_files (p_file_names p)
                                      (upd index (fi_push_dep di) (p_files p)) p) v in
          let! trans := resolve_public fuel (v_pool v) (fst (set_insert di trans)) di in
          resolve_deps fuel index (S i) r trans v
      | None =>
          let! v := push_err [index] (at_spot (index, [3; Z.of_nat i]%Z) (ErrFileNotFound d)) v in
          resolve_deps fuel index (S i) r trans v
      end
  end.

(** public_dependency and weak_dependency must be positions of imports
    (resolve.rs:80-89) *)
Definition check_import_index (n : nat) (z : Z) (v : vst) : res vst :=
  if (0 <=? z)%Z && (Z.to_nat z <? n)%nat then Ok v else push_err [] (nowhere ErrImportIndex) v.

(** visit_file (resolve.rs:53-90) *)
Definition resolve_file (fuel : nat) (index : nat) (f : file) (v : vst) : res vst :=
  let! (trans, v) := resolve_deps fuel index 0 (fl_deps f) [index] v in
  let! _ := at_ (p_files (v_pool v)) index in
  let v := on_pool (fun p => set_files (p_file_names p)
                              (upd index (fi_set_trans trans) (p_files p)) p) v in
  let! v := fold_res (check_import_index (length (fl_deps f))) (fl_public f) v in
  fold_res (check_import_index (length (fl_deps f))) (fl_weak f) v.

(** find_message_proto, find_enum_proto (descriptor/mod.rs:420-449); [None] is
    a panic *)
Fixpoint find_msg (f : file) (cur : option dproto) (path : list Z) : option dproto :=
  match path with
  | [] => cur
  | tag :: i :: rest =>
      if (tag =? 4)%Z then
        match nth_error (fl_messages f) (Z.to_nat i) with
        | Some m => find_msg f (Some m) rest
        | None => None
        end
      else if (tag =? 3)%Z then
        match cur with
        | Some c =>
            match nth_error (dp_nested c) (Z.to_nat i) with
            | Some m => find_msg f (Some m) rest
            | None => None
            end
        | None => None
        end
      else None
  | _ => None
  end.
Definition find_message_proto (f : file) (path : list Z) : option dproto := find_msg f None path.
Definition find_enum_proto (f : file) (path : list Z) : option eproto :=
  match path with
  | [tag; i] => if (tag =? 5)%Z then nth_error (fl_enums f) (Z.to_nat i) else None
  | _ =>
      match find_message_proto f (firstn (length path - 2) path), skipn (length path - 2) path with
      | Some m, [tag; i] =>
          if (tag =? 4)%Z then nth_error (dp_enums m) (Z.to_nat i) else None
      | _, _ => None
      end
  end.

(** find_message_field_proto, find_file_field_proto_mut (resolve.rs:922-958) *)
Fixpoint find_message_field (m : dproto) (path : list Z) : option fproto :=
  match path with
  | tag :: i :: rest =>
      if (tag =? 2)%Z then
        match rest with [] => nth_error (dp_fields m) (Z.to_nat i) | _ => None end
      else if (tag =? 6)%Z then
        match rest with [] => nth_error (dp_exts m) (Z.to_nat i) | _ => None end
      else if (tag =? 3)%Z then
        match nth_error (dp_nested m) (Z.to_nat i) with
        | Some n => find_message_field n rest
        | None => None
        end
      else None
  | _ => None
  end.
Definition find_file_field (f : file) (path : list Z) : option fproto :=
  match path with
  | tag :: i :: rest =>
      if (tag =? 4)%Z then
        match nth_error (fl_messages f) (Z.to_nat i) with
        | Some m => find_message_field m rest
        | None => None
        end
      else if (tag =? 7)%Z then
        match rest with [] => nth_error (fl_exts f) (Z.to_nat i) | _ => None end
      else None
  | _ => None
  end.
(** the place set_type_name (resolve.rs:886-920) writes to *)
Definition type_name_place (f : file) (path : list Z) : option unit :=
  match path with
  | tag :: i :: rest =>
      if (tag =? 6)%Z then
        match nth_error (fl_services f) (Z.to_nat i), rest with
        | Some s, [t2; j] =>
            if (t2 =? 2)%Z then option_map (fun _ => tt) (nth_error (sp_methods s) (Z.to_nat j)) else None
        | _, _ => None
        end
      else option_map (fun _ => tt) (find_file_field f path)
  | _ => None
  end.
Definition need {A} (o : option A) : res A := match o with Some a => Ok a | None => Panic end.

Definition in_range (r : Z * Z) (z : Z) : bool := ((fst r <=? z) && (z <? snd r))%Z.
Definition in_range_incl (r : Z * Z) (z : Z) : bool := ((fst r <=? z) && (z <=? snd r))%Z.
(** VALID_MESSAGE_FIELD_NUMBERS, RESERVED_MESSAGE_FIELD_NUMBERS
    (descriptor/mod.rs:23-25): 1..536870912 and 19000..20000 *)
Definition legal_number (z : Z) : bool :=
  in_range (1, 536870912)%Z z && negb (in_range (19000, 20000)%Z z).

(** check_field_number (resolve.rs:432-520) *)
Definition check_field_number (message : nat) (fd : fproto) (w : spot) (v : vst) : res vst :=
  let z := fp_number fd in
  let f := fst w in
  let here := at_spot (inside_spot w [3%Z]) in
  let! v := if legal_number z then Ok v else push_err [f] (here ErrFieldNumber) v in
  let! m := at_ (p_messages (v_pool v)) message in
  let! fi := at_ (p_files (v_pool v)) (id_file (m_id m)) in
  let! mp := need (find_message_proto (fi_raw fi) (id_path (m_id m))) in
  let! v := fold_res (fun r v => if in_range r z then push_err [id_file (m_id m); f] (here ErrReserved) v else Ok v)
                     (dp_reserved mp) v in
  match fp_extendee fd, existsb (fun r => in_range r z) (dp_ext_ranges mp) with
  | None, false | Some _, true => Ok v
  | None, true => push_err [id_file (m_id m); f] (here ErrInExtRange) v
  | Some _, false => push_err [f] (here ErrNotInExtRange) v
  end.

(** check_enum_number (resolve.rs:522-553).  The path ends with the number of a
    *field* (3), not of an enum value (2), as in the source (line 548). *)
Definition check_enum_number (enum : nat) (z : Z) (w : spot) (v : vst) : res vst :=
  let! e := at_ (p_enums (v_pool v)) enum in
  let! fi := at_ (p_files (v_pool v)) (id_file (e_id e)) in
  let! ep := need (find_enum_proto (fi_raw fi) (id_path (e_id e))) in
  fold_res (fun r v => if in_range_incl r z
                       then push_err [id_file (e_id e); fst w] (at_spot (inside_spot w [3%Z]) ErrEnumReserved) v else Ok v)
           (ep_reserved ep) v.

(** to_json_name (build/mod.rs:298-314) *)
Fixpoint json_name_from (up : bool) (s : str) : str :=
  match s with
  | [] => []
  | c :: r =>
      if c =? underscore then json_name_from true r
      else if up then upper c :: json_name_from false r
      else c :: json_name_from false r
  end.
Definition to_json_name (s : str) : str := json_name_from false s.

(** resolve_field_json_name (resolve.rs:555-567) *)
Definition resolve_json (fd : fproto) (f : nat) (path : list Z) (v : vst) : res str :=
  match fp_json fd with
  | Some j => Ok j
  | None =>
      let! fi := at_ (p_files (v_pool v)) f in
      let! fd' := need (find_file_field (fi_raw fi) path) in
      Ok (to_json_name (fp_name fd'))
  end.

(** ResolveVisitor::resolve_name (resolve.rs:716-760) with into_result
    (build/mod.rs:232-295) *)
Definition resolve_ref (scope name : str) (f : nat) (path : list Z) (tag : Z) (r : rfilter) (v : vst)
  : res (option def * vst) :=
  let here := at_spot (f, path ++ [tag]) in
  let! fi := at_ (p_files (v_pool v)) f in
  match resolve_name (fi_trans fi) (p_names (v_pool v)) scope name r with
  | RFound _ d =>
      let! _ := need (type_name_place (fi_raw fi) path) in
      Ok (Some d, v)
  | RInvalidType n d => let! v := push_err [f; d_file d] (here (ErrInvalidType n)) v in Ok (None, v)
  | RNotImported n df => let! v := push_err [f; df] (here (ErrNotFound n)) v in Ok (None, v)
  | RNotFound => let! v := push_err [f] (here (ErrNotFound name)) v in Ok (None, v)
  | RShadowed n _ => let! v := push_err [f] (here (ErrShadowed n)) v in Ok (None, v)
  end.

(** find_message (resolve.rs:701-714) *)
Definition find_message (scope name : str) (f : nat) (path : list Z) (tag : Z) (v : vst)
  : res (option nat * vst) :=
  let! (o, v) := resolve_ref scope name f path tag FMessage v in
  match o with
  | None => Ok (None, v)
  | Some d => match d_kind d with DMessage i => Ok (Some i, v) | _ => Panic end
  end.

(** resolve_field_type (resolve.rs:569-625) *)
Definition resolve_type (ty : ptype) (name scope : str) (f : nat) (path : list Z) (v : vst)
  : res (option kind * vst) :=
  match name with
  | [] =>
      match ty with
      | TDouble => Ok (Some KDouble, v) | TFloat => Ok (Some KFloat, v)
      | TInt64 => Ok (Some KInt64, v) | TUint64 => Ok (Some KUint64, v)
      | TInt32 => Ok (Some KInt32, v) | TFixed64 => Ok (Some KFixed64, v)
      | TFixed32 => Ok (Some KFixed32, v) | TBool => Ok (Some KBool, v)
      | TString => Ok (Some KString, v) | TBytes => Ok (Some KBytes, v)
      | TUint32 => Ok (Some KUint32, v) | TSfixed32 => Ok (Some KSfixed32, v)
      | TSfixed64 => Ok (Some KSfixed64, v) | TSint32 => Ok (Some KSint32, v)
      | TSint64 => Ok (Some KSint64, v)
      | TGroup | TMessage | TEnum => let! v := push_err [f] (at_spot (f, path ++ [6%Z]) ErrMissingType) v in Ok (None, v)
      end
  | _ =>
      let! (o, v) := resolve_ref scope name f path 6%Z FFieldType v in
      match o with
      | None => Ok (None, v)
      | Some d =>
          match d_kind d with
          | DMessage i => Ok (Some (match ty with TGroup => KGroup i | _ => KMessage i end), v)
          | DEnum e => Ok (Some (KEnum e), v)
          | _ => Panic
          end
      end
  end.

(** is_packed (resolve.rs:120-124, 392-397); [packed()] of the generated
    FieldOptions is false when [packed] is absent *)
Definition packed_of (c : card) (k : option kind) (sy : syntax) (fd : fproto) : bool :=
  card_eqb c Repeated
  && match k with Some k => is_packable k | None => false end
  && match fp_options fd with
     | Some (Some b) => b
     | Some None => false
     | None => match sy with Proto3 => true | Proto2 => false end
     end.
(** KindIndex::is_message (descriptor/mod.rs:364-366) *)
Definition is_message_kind (k : kind) : bool :=
  match k with KMessage _ | KGroup _ => true | _ => false end.
(** supports_presence (resolve.rs:128-131) *)
Definition presence_of (c : card) (k : option kind) (sy : syntax) (fd : fproto) : bool :=
  fp_optional fd
  || match fp_oneof fd with Some _ => true | None => false end
  || (negb (card_eqb c Repeated)
      && (match k with Some k => is_message_kind k | None => false end
          || match sy with Proto2 => true | Proto3 => false end)).
Definition default_of (k : option kind) (fd : fproto) (w : spot) (v : vst) : res (option value * vst) :=
  match k with Some k => parse_default k (fp_default fd) w v | None => Ok (None, v) end.

(** [i32 as u32] *)
Definition as_u32 (z : Z) : N := Z.to_N (z mod 4294967296)%Z.
Definition or_double (k : option kind) : kind := match k with Some k => k | None => KDouble end.

Definition m_push_oneof_field (o i : nat) (m : message_inner) : message_inner :=
  MessageI (m_id m) (m_parent m) (m_exts m) (m_fields m) (m_numbers m) (m_names m) (m_jsons m)
           (upd o (fun x => OneofI (o_id x) (o_fields x ++ [i])) (m_oneofs m)) (m_map_entry m).
Definition m_push_field (fi : field_inner) (name : str) (i : nat) (m : message_inner) : message_inner :=
  MessageI (m_id m) (m_parent m) (m_exts m) (m_fields m ++ [fi])
           (bt_set (f_number fi) i (m_numbers m))
           (assoc_put name i (m_names m))
           (assoc_put (f_json fi) i (m_jsons m))
           (m_oneofs m) (m_map_entry m).
Definition on_message (i : nat) (g : message_inner -> message_inner) (v : vst) : vst :=
  on_pool (fun p => set_messages (upd i g (p_messages p)) p) v.

(** visit_field (resolve.rs:92-221) *)
Definition resolve_field path full f message index (fd : fproto) (v : vst) : res vst :=
  let! m := at_ (p_messages (v_pool v)) message in
  let! v := assert (length (m_fields m) =? index)%nat v in
  let! fi := at_ (p_files (v_pool v)) f in
  let sy := fi_syntax fi in
  let! v := check_field_number message fd (f, path) v in
  let c := fp_label fd in
  let! (k, v) := resolve_type (fp_type fd) (fp_type_name fd) full f path v in
  let! json := resolve_json fd f path v in
  let! (dflt, v) := default_of k fd (f, path) v in
  let! m := at_ (p_messages (v_pool v)) message in
  let! (oneof, v) :=
    match fp_oneof fd with
    | None => Ok (None, v)
    | Some z =>
        if (z <? 0)%Z || (length (m_oneofs m) <=? Z.to_nat z)%nat
        then let! v := push_err [] (nowhere ErrOneofIndex) v in Ok (None, v)
        else Ok (Some (Z.to_nat z), on_message message (m_push_oneof_field (Z.to_nat z) index) v)
    end in
  let fi := FieldI (mk_id f path full (fp_name fd)) (as_u32 (fp_number fd)) json (or_double k) oneof
                   (packed_of c k sy fd) (presence_of c k sy fd) c dflt in
  let v := on_message message (m_push_field fi (fp_name fd) index) v in
  let! v := match bt_get (as_u32 (fp_number fd)) (m_numbers m) with
            | Some _ => push_err [f; f] (at_spot (f, path ++ [3%Z]) ErrDupNumber) v | None => Ok v end in
  let! v := match assoc_s (fp_name fd) (m_names m) with
            | Some _ => push_err [f; f] (at_spot (f, path ++ [1%Z]) (ErrDupName full)) v | None => Ok v end in
  match assoc_s json (m_jsons m) with
  | Some _ => push_err [f; f] (at_spot (f, path ++ [1%Z]) ErrDupJson) v | None => Ok v end.

(** visit_service, visit_method (resolve.rs:223-279).  [no_index] stands for
    MessageIndex::MAX: it is stored only together with an error, so the pool
    holding it is rolled back before anything reads it. *)
Definition no_index : nat := 0.
Definition resolve_service path full f index (s : sproto) (v : vst) : res vst :=
  let! v := assert (length (p_services (v_pool v)) =? index)%nat v in
  Ok (on_pool (fun p => set_services (p_services p ++ [ServiceI (mk_id f path full (sp_name s)) []]) p) v).
Definition or_none (o : option nat) : nat := match o with Some i => i | None => no_index end.
Definition resolve_method path full f service index (m : mproto) (v : vst) : res vst :=
  let! s := at_ (p_services (v_pool v)) service in
  let! v := assert (length (s_methods s) =? index)%nat v in
  let! (i, v) := find_message full (mp_input m) f path 2%Z v in
  let! (o, v) := find_message full (mp_output m) f path 3%Z v in
  let me := MethodI (mk_id f path full (mp_name m)) (or_none i) (or_none o) in
  Ok (on_pool (fun p => set_services
        (upd service (fun s => ServiceI (s_id s) (s_methods s ++ [me])) (p_services p)) p) v).

(** Vec::insert *)
Definition insert_at {A} (i : nat) (a : A) (l : list A) : list A := firstn i l ++ a :: skipn i l.

(** visit_enum_value (resolve.rs:281-348) *)
Definition resolve_enum_value path full f enum index (x : str * Z) (v : vst) : res vst :=
  let! v := check_enum_number enum (snd x) (f, path) v in
  let! e := at_ (p_enums (v_pool v)) enum in
  let (pos, found) := x_search X (e_numbers e) (snd x) in
  let! v := if found && negb (e_alias e) then push_err [f; f] (at_spot (f, path ++ [2%Z]) ErrDupEnumNumber) v else Ok v in
  let v := on_pool (fun p => set_enums
             (upd enum (fun e => EnumI (e_id e) (e_parent e) (e_values e)
                                       (insert_at pos (snd x, index) (e_numbers e))
                                       (assoc_put (fst x) index (e_names e)) (e_alias e))
                  (p_enums p)) p) v in
  match assoc_s (fst x) (e_names e) with
  | Some _ => push_err [f; f] (at_spot (f, path ++ [1%Z]) (ErrDupName full)) v | None => Ok v end.

Definition m_push_ext (i : nat) (m : message_inner) : message_inner :=
  MessageI (m_id m) (m_parent m) (m_exts m ++ [i]) (m_fields m) (m_numbers m) (m_names m) (m_jsons m)
           (m_oneofs m) (m_map_entry m).
(** [format!("[{full_name}]")] *)
Definition bracketed (s : str) : str := 91 :: s ++ [93].

(** visit_extension (resolve.rs:350-414) *)
Definition resolve_ext path full f parent index (fd : fproto) (v : vst) : res vst :=
  let! v := assert (length (p_exts (v_pool v)) =? index)%nat v in
  let! (ext, v) := find_message full (match fp_extendee fd with Some e => e | None => [] end) f path 2%Z v in
  let! v := match ext with
            | Some e =>
                let! _ := at_ (p_messages (v_pool v)) e in
                check_field_number e fd (f, path) (on_message e (m_push_ext index) v)
            | None => Ok v
            end in
  let! fi := at_ (p_files (v_pool v)) f in
  let sy := fi_syntax fi in
  let c := fp_label fd in
  let! (k, v) := resolve_type (fp_type fd) (fp_type_name fd) full f path v in
  let! _ := resolve_json fd f path v in
  let! (dflt, v) := default_of k fd (f, path) v in
  let xi := ExtI (mk_id f path full (fp_name fd)) parent (as_u32 (fp_number fd)) (bracketed full)
                 (or_none ext) (or_double k) (packed_of c k sy fd) c dflt in
  Ok (on_pool (fun p => set_exts (p_exts p ++ [xi]) p) v).

(** ResolveVisitor (resolve.rs:52-415) *)
Definition resolve_step (fuel : nat) (e : event) (v : vst) : res vst :=
  match e with
  | EvFile _ index f => resolve_file fuel index f v
  | EvField path full f message index fd => resolve_field path full f message index fd v
  | EvService path full f index s => resolve_service path full f index s v
  | EvMethod path full f service index m => resolve_method path full f service index m v
  | EvEnumValue path full f enum index x => resolve_enum_value path full f enum index x v
  | EvExt path full f parent index fd => resolve_ext path full f parent index fd v
  | EvMessage _ _ _ _ _ _ | EvOneof _ _ _ _ _ _ | EvEnum _ _ _ _ _ _ => Ok v
  end.

(** ** Building (build/mod.rs:62-149) *)

(** DescriptorPoolOffsets::new (mod.rs:63-71) *)
Definition offsets_of (p : pool) : offsets :=
  Off (length (p_files p)) (length (p_messages p)) (length (p_enums p)) (length (p_services p))
      (length (p_exts p)).

Fixpoint starts_with (s pre : str) : bool :=
  match pre, s with
  | [], _ => true
  | a :: pre', b :: s' => (a =? b) && starts_with s' pre'
  | _, [] => false
  end.
(** is the package [name] still there (mod.rs:80-86) *)
Definition keeps_package (files : list file_inner) (name : str) : bool :=
  existsb (fun f => let pkg := fl_package (fi_raw f) in
                    starts_with pkg name
                    && match nth_error pkg (length name) with None => true | Some c => c =? dot end) files.
Definition keep_def (o : offsets) (files : list file_inner) (nd : str * def) : bool :=
  match d_kind (snd nd) with
  | DPackage => keeps_package files (fst nd)
  | DMessage i | DField i | DOneof i => (i <? of_msg o)%nat
  | DService i | DMethod i => (i <? of_service o)%nat
  | DEnum i | DEnumValue i => (i <? of_enum o)%nat
  | DExtension i => (i <? of_ext o)%nat
  end.
(** rollback (mod.rs:73-100).  The last loop compares *extension* indices with
    the *message* offset, as the source does. *)
Definition rollback (o : offsets) (p : pool) : pool :=
  let files := firstn (of_file o) (p_files p) in
  Pool (filter (keep_def o files) (p_names p))
       (filter (fun nf => (snd nf <? of_file o)%nat) (p_file_names p))
       files
       (map (fun m => MessageI (m_id m) (m_parent m)
                               (filter (fun x => (x <? of_msg o)%nat) (m_exts m))
                               (m_fields m) (m_numbers m) (m_names m) (m_jsons m) (m_oneofs m)
                               (m_map_entry m))
            (firstn (of_msg o) (p_messages p)))
       (firstn (of_enum o) (p_enums p))
       (firstn (of_ext o) (p_exts p))
       (firstn (of_service o) (p_services p)).

(** what an add call comes back with *)
Inductive outcome :=
| Built (p : pool)
| Rejected (p : pool) (es : list err)
| Crashed            (* panic *)
| Overflow.          (* stack exhausted *)

(** build_files_deduped, up to its result (mod.rs:124-148) *)
Definition build_deduped (fuel : nat) (p : pool) (fs : list file) : res vst :=
  let o := offsets_of p in
  let evs := visit o fs in
  let! v := fold_res names_step evs (V p []) in
  match v_errs v with
  | _ :: _ => Ok v
  | [] =>
      let! v := fold_res (resolve_step fuel) evs v in
      match v_errs v with
      | _ :: _ => Ok v
      | [] =>
          let! ok := x_options X (v_pool v) fs in
          if ok then Ok v else push_err [] (nowhere ErrOptions) v
      end
  end.

(** build_files (mod.rs:104-122): what every add/decode call comes down to *)
Definition build_files (fuel : nat) (p : pool) (files : list file) : outcome :=
  let fs := filter (fun f => match assoc_s (fl_name f) (p_file_names p) with
                             | Some _ => false | None => true end) files in
  match fs with
  | [] => Built p
  | _ =>
      match build_deduped fuel p fs with
      | Ok v =>
          match v_errs v with
          | [] => Built (v_pool v)
          | es => Rejected (rollback (offsets_of p) (v_pool v)) es
          end
      | Fuel => Overflow
      | _ => Crashed
      end
  end.
End Build.

(** ** Lookups (descriptor/api.rs:322-339, 429-530, 1459-1501) *)

(** DescriptorPoolInner::get_by_name (descriptor/mod.rs:410-413) *)
Definition get_by_name (p : pool) (name : str) : option def :=
  match name with
  | c :: r => if c =? dot then assoc_s r (p_names p) else assoc_s name (p_names p)
  | [] => assoc_s name (p_names p)
  end.
Definition get_message_by_name (p : pool) (name : str) : option nat :=
  match get_by_name p name with Some (Def _ _ (DMessage i)) => Some i | _ => None end.
Definition get_enum_by_name (p : pool) (name : str) : option nat :=
  match get_by_name p name with Some (Def _ _ (DEnum i)) => Some i | _ => None end.
Definition get_extension_by_name (p : pool) (name : str) : option nat :=
  match get_by_name p name with Some (Def _ _ (DExtension i)) => Some i | _ => None end.
Definition get_service_by_name (p : pool) (name : str) : option nat :=
  match get_by_name p name with Some (Def _ _ (DService i)) => Some i | _ => None end.
Definition get_file_by_name (p : pool) (name : str) : option nat := assoc_s name (p_file_names p).

(** EnumDescriptor::get_value, get_value_by_name, values: value positions *)
Definition get_value (X : externs) (e : enum_inner) (z : Z) : option nat :=
  let (pos, found) := x_search X (e_numbers e) z in
  if found then option_map snd (nth_error (e_numbers e) pos) else None.
Definition get_value_by_name (e : enum_inner) (name : str) : option nat := assoc_s name (e_names e).
Definition values (e : enum_inner) : list nat := map snd (e_numbers e).
