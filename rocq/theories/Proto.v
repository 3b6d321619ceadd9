(** The descriptor protos a pool is built from (prost-reflect/src/descriptor/types.rs:11-140)
    and the walk over them (descriptor/build/visit.rs). *)
From Verif Require Import Base Value Descr.

(** ** FileDescriptorProto and friends

    Only the members that building reads are kept.  A string member stands for
    what its accessor returns (the empty string when absent); members whose
    presence matters are options.  Of the options messages, only [packed],
    [map_entry] and [allow_alias] are read by the modelled code. *)

(** field_descriptor_proto::Type *)
Inductive ptype :=
| TDouble | TFloat | TInt64 | TUint64 | TInt32 | TFixed64 | TFixed32 | TBool | TString | TGroup
| TMessage | TBytes | TUint32 | TEnum | TSfixed32 | TSfixed64 | TSint32 | TSint64.

(** FieldDescriptorProto (types.rs:75-98) *)
Record fproto := FP {
  fp_name : str;
  fp_extendee : option str;
  fp_number : Z;
  fp_label : card;
  fp_type : ptype;
  fp_type_name : str;
  fp_default : option str;
  fp_oneof : option Z;
  fp_json : option str;
  fp_options : option (option bool);   (* options, with their member [packed] *)
  fp_optional : bool             (* proto3_optional() *)
}.

(** UninterpretedOption (types.rs): its name parts (part, is_extension) and
    identifier_value *)
Record uninterp := UI { ui_name : list (str * bool); ui_ident : option str }.

(** EnumDescriptorProto (types.rs:108-118), with values (name, number),
    inclusive reserved ranges and options (allow_alias(), uninterpreted_option) *)
Record eproto := EP {
  ep_name : str;
  ep_values : list (str * Z);
  ep_reserved : list (Z * Z);
  ep_options : option (bool * list uninterp)
}.

(** MethodDescriptorProto, ServiceDescriptorProto (types.rs:120-140) *)
Record mproto := MP { mp_name : str; mp_input : str; mp_output : str }.
Record sproto := SP { sp_name : str; sp_methods : list mproto }.

(** DescriptorProto (types.rs:40-62); ranges are start (inclusive), end
    (exclusive); oneofs by name *)
Inductive dproto := DP
  (name : str) (fields exts : list fproto) (nested : list dproto) (enums : list eproto)
  (ext_ranges : list (Z * Z)) (oneofs : list str) (map_entry : bool) (reserved : list (Z * Z)).
Definition dp_name (d : dproto) := let 'DP n _ _ _ _ _ _ _ _ := d in n.
Definition dp_fields (d : dproto) := let 'DP _ f _ _ _ _ _ _ _ := d in f.
Definition dp_exts (d : dproto) := let 'DP _ _ x _ _ _ _ _ _ := d in x.
Definition dp_nested (d : dproto) := let 'DP _ _ _ n _ _ _ _ _ := d in n.
Definition dp_enums (d : dproto) := let 'DP _ _ _ _ e _ _ _ _ := d in e.
Definition dp_ext_ranges (d : dproto) := let 'DP _ _ _ _ _ r _ _ _ := d in r.
Definition dp_oneofs (d : dproto) := let 'DP _ _ _ _ _ _ o _ _ := d in o.
Definition dp_map_entry (d : dproto) := let 'DP _ _ _ _ _ _ _ e _ := d in e.
Definition dp_reserved (d : dproto) := let 'DP _ _ _ _ _ _ _ _ r := d in r.

(** FileDescriptorProto (types.rs:17-38) *)
Record file := File {
  fl_name : str;
  fl_package : str;
  fl_deps : list str;
  fl_public : list Z;
  fl_weak : list Z;
  fl_messages : list dproto;
  fl_enums : list eproto;
  fl_services : list sproto;
  fl_exts : list fproto;
  fl_syntax : option str
}.

(** ** The walk *)

(** the calls on the Visitor (visit.rs:12-98), in order, with their arguments *)
Inductive event :=
| EvFile (path : list Z) (index : nat) (f : file)
| EvMessage (path : list Z) (full : str) (file : nat) (parent : option nat) (index : nat) (m : dproto)
| EvField (path : list Z) (full : str) (file message index : nat) (f : fproto)
| EvOneof (path : list Z) (full : str) (file message index : nat) (name : str)
| EvService (path : list Z) (full : str) (file index : nat) (s : sproto)
| EvMethod (path : list Z) (full : str) (file service index : nat) (m : mproto)
| EvEnum (path : list Z) (full : str) (file : nat) (parent : option nat) (index : nat) (e : eproto)
| EvEnumValue (path : list Z) (full : str) (file enum index : nat) (v : str * Z)
| EvExt (path : list Z) (full : str) (file : nat) (parent : option nat) (index : nat) (x : fproto).

(** DescriptorPoolOffsets (build/mod.rs:25-32) *)
Record offsets := Off { of_file : nat; of_msg : nat; of_enum : nat; of_service : nat; of_ext : nat }.

(** Context (visit.rs:115-119); the events emitted so far ride along *)
Record ctx := Ctx { c_path : list Z; c_scope : str; c_off : offsets; c_evs : list event }.

Definition dot : N := 46.
(** push_path, pop_path (visit.rs:343-349); pop of an empty path panics, which
    never happens (each pop follows its push) *)
Definition push_path (p : Z) (c : ctx) : ctx := Ctx (c_path c ++ [p]) (c_scope c) (c_off c) (c_evs c).
Definition pop_path (c : ctx) : ctx := Ctx (removelast (c_path c)) (c_scope c) (c_off c) (c_evs c).
(** push_scope, pop_scope (visit.rs:351-363) *)
Definition join_scope (scope name : str) : str :=
  match scope with [] => name | _ => scope ++ dot :: name end.
Definition push_scope (s : str) (c : ctx) : ctx :=
  Ctx (c_path c) (join_scope (c_scope c) s) (c_off c) (c_evs c).
Definition pop_scope (s : str) (c : ctx) : ctx :=
  Ctx (c_path c) (firstn (length (c_scope c) - length s - 1) (c_scope c)) (c_off c) (c_evs c).
Definition emit (e : event) (c : ctx) : ctx := Ctx (c_path c) (c_scope c) (c_off c) (c_evs c ++ [e]).

(** post_inc (visit.rs:366-370); the u32 indices do not overflow (fewer than
    2^32 definitions) *)
Definition inc_file (c : ctx) := let o := c_off c in
  Ctx (c_path c) (c_scope c) (Off (S (of_file o)) (of_msg o) (of_enum o) (of_service o) (of_ext o)) (c_evs c).
Definition inc_msg (c : ctx) := let o := c_off c in
  Ctx (c_path c) (c_scope c) (Off (of_file o) (S (of_msg o)) (of_enum o) (of_service o) (of_ext o)) (c_evs c).
Definition inc_enum (c : ctx) := let o := c_off c in
  Ctx (c_path c) (c_scope c) (Off (of_file o) (of_msg o) (S (of_enum o)) (of_service o) (of_ext o)) (c_evs c).
Definition inc_service (c : ctx) := let o := c_off c in
  Ctx (c_path c) (c_scope c) (Off (of_file o) (of_msg o) (of_enum o) (S (of_service o)) (of_ext o)) (c_evs c).
Definition inc_ext (c : ctx) := let o := c_off c in
  Ctx (c_path c) (c_scope c) (Off (of_file o) (of_msg o) (of_enum o) (of_service o) (S (of_ext o))) (c_evs c).

(** [for (i, x) in xs.iter().enumerate() { push_path(i); visit(x); pop_path(); }] *)
Section Each.
  Context {A : Type} (visit : nat -> A -> ctx -> ctx).
  Fixpoint each (i : nat) (xs : list A) (c : ctx) : ctx :=
    match xs with
    | [] => c
    | x :: r => each (S i) r (pop_path (visit i x (push_path (Z.of_nat i) c)))
    end.
End Each.
(** the same under a tag *)
Definition under {A} (tag : Z) (visit : nat -> A -> ctx -> ctx) (xs : list A) (c : ctx) : ctx :=
  pop_path (each visit 0 xs (push_path tag c)).

(** visit_field, visit_oneof, visit_method, visit_enum_value (visit.rs:234-257,
    284-294, 316-326) *)
Definition visit_field (file message i : nat) (f : fproto) (c : ctx) : ctx :=
  let c := push_scope (fp_name f) c in
  pop_scope (fp_name f) (emit (EvField (c_path c) (c_scope c) file message i f) c).
Definition visit_oneof (file message i : nat) (o : str) (c : ctx) : ctx :=
  let c := push_scope o c in
  pop_scope o (emit (EvOneof (c_path c) (c_scope c) file message i o) c).
Definition visit_method (file service i : nat) (m : mproto) (c : ctx) : ctx :=
  let c := push_scope (mp_name m) c in
  pop_scope (mp_name m) (emit (EvMethod (c_path c) (c_scope c) file service i m) c).
Definition visit_enum_value (file enum i : nat) (v : str * Z) (c : ctx) : ctx :=
  let c := push_scope (fst v) c in
  pop_scope (fst v) (emit (EvEnumValue (c_path c) (c_scope c) file enum i v) c).

(** visit_service (visit.rs:259-282) *)
Definition visit_service (file : nat) (s : sproto) (c : ctx) : ctx :=
  let c := push_scope (sp_name s) c in
  let index := of_service (c_off c) in
  let c := emit (EvService (c_path c) (c_scope c) file index s) (inc_service c) in
  let c := under 2 (visit_method file index) (sp_methods s) c in
  pop_scope (sp_name s) c.

(** visit_enum (visit.rs:296-314): the values are visited outside the enum's
    own scope *)
Definition visit_enum (file : nat) (parent : option nat) (e : eproto) (c : ctx) : ctx :=
  let c := push_scope (ep_name e) c in
  let index := of_enum (c_off c) in
  let c := emit (EvEnum (c_path c) (c_scope c) file parent index e) (inc_enum c) in
  let c := pop_scope (ep_name e) c in
  under 2 (visit_enum_value file index) (ep_values e) c.

(** visit_extension (visit.rs:328-341) *)
Definition visit_ext (file : nat) (parent : option nat) (x : fproto) (c : ctx) : ctx :=
  let c := push_scope (fp_name x) c in
  let index := of_ext (c_off c) in
  pop_scope (fp_name x) (emit (EvExt (c_path c) (c_scope c) file parent index x) (inc_ext c)).

(** visit_message (visit.rs:171-232) *)
Fixpoint visit_message (file : nat) (parent : option nat) (m : dproto) (c : ctx) : ctx :=
  match m with
  | DP name fields exts nested enums _ oneofs _ _ =>
      let c := push_scope name c in
      let index := of_msg (c_off c) in
      let c := emit (EvMessage (c_path c) (c_scope c) file parent index m) (inc_msg c) in
      let c := under 8 (visit_oneof file index) oneofs c in
      let c := under 2 (visit_field file index) fields c in
      let c := under 3 (fun _ => visit_message file (Some index)) nested c in
      let c := under 4 (fun _ => visit_enum file (Some index)) enums c in
      let c := under 6 (fun _ => visit_ext file (Some index)) exts c in
      pop_scope name c
  end.

(** visit_file (visit.rs:121-169) *)
Definition visit_file (f : file) (c : ctx) : ctx :=
  let pkg := fl_package f in
  let c := match pkg with [] => c | _ => push_scope pkg c end in
  let index := of_file (c_off c) in
  let c := emit (EvFile (c_path c) index f) (inc_file c) in
  let c := under 4 (fun _ => visit_message index None) (fl_messages f) c in
  let c := under 5 (fun _ => visit_enum index None) (fl_enums f) c in
  let c := under 6 (fun _ => visit_service index) (fl_services f) c in
  let c := under 7 (fun _ => visit_ext index None) (fl_exts f) c in
  match pkg with [] => c | _ => pop_scope pkg c end.

(** visit (visit.rs:100-113) *)
Definition visit (o : offsets) (files : list file) : list event :=
  c_evs (fold_left (fun c f => visit_file f c) files (Ctx [] [] o [])).
