(** Files given back by a pool against the files it was given: the
    specification for C63. *)
From Verif Require Import Base Value Descr Proto Build DeclSpec.
From Coq Require Import List ZArith NArith.
Import ListNotations.
Local Open Scope list_scope.

(** ** A file without its references and JSON names *)

Definition blank_field (x : fproto) : fproto :=
  FP (fp_name x) None (fp_number x) (fp_label x) TDouble [] (fp_default x) (fp_oneof x) None (fp_options x) (fp_optional x).
Definition blank_method (m : mproto) : mproto := MP (mp_name m) [] [].
Fixpoint blank_message (m : dproto) : dproto :=
  let 'DP n fs xs ns es er os me rv := m in
  DP n (map blank_field fs) (map blank_field xs) (map blank_message ns) es er os me rv.
Definition blank_service (s : sproto) : sproto := SP (sp_name s) (map blank_method (sp_methods s)).
Definition blank_file (f : file) : file :=
  File (fl_name f) (fl_package f) (fl_deps f) (fl_public f) (fl_weak f) (map blank_message (fl_messages f)) (fl_enums f)
       (map blank_service (fl_services f)) (map blank_field (fl_exts f)) (fl_syntax f).

(** ** References in terms of what the pool shows *)

Definition message_named (p : pool) (i : nat) (n : str) : Prop :=
  exists mi, nth_error (p_messages p) i = Some mi /\ id_full (m_id mi) = n.
Definition enum_named (p : pool) (i : nat) (n : str) : Prop :=
  exists ei, nth_error (p_enums p) i = Some ei /\ id_full (e_id ei) = n.

(** The field [x] as given, [x'] as given back, with the kind the pool shows.
    A field without a type name is a scalar and keeps its type.  Otherwise the
    type name is that of the message or enum, with a leading dot, and the type
    says which of these it is, or that it is a group if this was said. *)
Definition type_given (p : pool) (k : kind) (x x' : fproto) : Prop :=
  (fp_type_name x = [] /\ fp_type_name x' = [] /\ fp_type x' = fp_type x) \/
  (fp_type_name x <> [] /\ exists n, fp_type_name x' = dot :: n /\
     ((exists i, k = KMessage i /\ message_named p i n /\ fp_type x <> TGroup /\ fp_type x' = TMessage) \/
      (exists i, k = KGroup i /\ message_named p i n /\ fp_type x = TGroup /\ fp_type x' = TGroup) \/
      (exists i, k = KEnum i /\ enum_named p i n /\
         ((fp_type x <> TGroup /\ fp_type x' = TEnum) \/ (fp_type x = TGroup /\ fp_type x' = TGroup))))).
(** the JSON name given, or the one made from the name *)
Definition json_given (x x' : fproto) : Prop :=
  fp_json x' = Some (match fp_json x with Some j => j | None => to_json_name (fp_name x) end).

(** [it] and [it'] are declared at [path] of file number [k], as given and as
    given back; [it'] says what the pool [p] shows *)
Definition shows_field (p : pool) (k : nat) (path : list Z) (x x' : fproto) : Prop :=
  exists i mi v, nth_error (p_messages p) i = Some mi /\ In v (m_fields mi) /\
    id_file (f_id v) = k /\ id_path (f_id v) = path /\
    type_given p (f_kind v) x x' /\ json_given x x' /\ fp_json x' = Some (f_json v) /\ fp_extendee x' = fp_extendee x.
Definition shows_ext (p : pool) (k : nat) (path : list Z) (x x' : fproto) : Prop :=
  exists i v, nth_error (p_exts p) i = Some v /\
    id_file (x_id v) = k /\ id_path (x_id v) = path /\
    type_given p (x_kind v) x x' /\ json_given x x' /\
    exists n, message_named p (x_extendee v) n /\ fp_extendee x' = Some (dot :: n).
Definition shows_method (p : pool) (k : nat) (path : list Z) (m m' : mproto) : Prop :=
  exists i si v, nth_error (p_services p) i = Some si /\ In v (s_methods si) /\
    id_file (me_id v) = k /\ id_path (me_id v) = path /\
    (exists n, message_named p (me_input v) n /\ mp_input m' = dot :: n) /\
    (exists n, message_named p (me_output v) n /\ mp_output m' = dot :: n).

(** File number [k] of the pool [p], as given and as given back. *)
Record file_given (p : pool) (k : nat) (f f' : file) : Prop := {
  fg_rest : blank_file f' = blank_file f;
  fg_fields : forall path n x, declares_name f path n (IField x) ->
    exists x', declares_name f' path n (IField x') /\ shows_field p k path x x';
  fg_exts : forall path n x, declares_name f path n (IExt x) ->
    exists x', declares_name f' path n (IExt x') /\ shows_ext p k path x x';
  fg_methods : forall path n m, declares_name f path n (IMethod m) ->
    exists m', declares_name f' path n (IMethod m') /\ shows_method p k path m m'
}.

(** ** Pools that differ in the files they were given only *)

Definition file_alike (g g' : file_inner) : Prop :=
  fi_syntax g = fi_syntax g' /\ fi_deps g = fi_deps g' /\ fi_trans g = fi_trans g' /\ blank_file (fi_raw g) = blank_file (fi_raw g').
Record pool_alike (p q : pool) : Prop := {
  pa_names : p_names p = p_names q;
  pa_fnames : p_file_names p = p_file_names q;
  pa_files : Forall2 file_alike (p_files p) (p_files q);
  pa_msgs : p_messages p = p_messages q;
  pa_enums : p_enums p = p_enums q;
  pa_exts : p_exts p = p_exts q;
  pa_svcs : p_services p = p_services q
}.
