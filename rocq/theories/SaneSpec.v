(** What the types of Rust, and what protoc, guarantee of a file descriptor and
    the crate's builder does not check. *)
From Verif Require Import Base Wire Value Descr Proto Build DeclSpec.

(** a Rust [String] *)
Definition a_string (s : str) : Prop := bytes_okb s = true /\ utf8_valid s = true.
Definition a_default (d : option str) : Prop := match d with Some s => a_string s | None => True end.

(** What the Rust types of FileDescriptorProto say: defaults are Strings, numbers
    of enum values are i32.  Every FileDescriptorProto meets this. *)
Record typed_file (f : file) : Prop := {
  ty_field : forall path scope fd, declares f path scope (IField fd) -> a_default (fp_default fd);
  ty_ext : forall path scope fd, declares f path scope (IExt fd) -> a_default (fp_default fd);
  ty_value : forall path scope v, declares f path scope (IValue v) -> (-2147483648 <= snd v < 2147483648)%Z
}.

(** types that may be map keys *)
Definition key_type (t : ptype) : Prop :=
  In t [TInt32; TInt64; TUint32; TUint64; TSint32; TSint64; TFixed32; TFixed64; TSfixed32; TSfixed64; TBool; TString].

(** What protoc guarantees: repeated fields are in no oneof and not proto3
    optional; only extensions have an extendee; a map entry has a singular key
    of a key type with number 1 and a singular value with number 2. *)
Record protoc_file (f : file) : Prop := {
  pf_repeated : forall path scope fd, declares f path scope (IField fd) ->
    fp_label fd = Repeated -> fp_oneof fd = None /\ fp_optional fd = false;
  pf_field : forall path scope fd, declares f path scope (IField fd) -> fp_extendee fd = None;
  pf_ext : forall path scope fd, declares f path scope (IExt fd) -> fp_extendee fd <> None;
  pf_entry : forall path scope m, declares f path scope (IMessage m) -> dp_map_entry m = true ->
    exists k v, In k (dp_fields m) /\ In v (dp_fields m) /\
      fp_number k = 1%Z /\ fp_label k <> Repeated /\ fp_type_name k = [] /\ key_type (fp_type k) /\
      fp_number v = 2%Z /\ fp_label v <> Repeated
}.

(** [str::parse] for floats yields the bits of a float *)
Definition floats_ok (X : externs) : Prop :=
  (forall s n, x_f32 X s = Some n -> n < 4294967296) /\ (forall s n, x_f64 X s = Some n -> n < 18446744073709551616).
