(** The descriptors a pool gives back: what resolving writes into its copy of
    each file (prost-reflect/src/descriptor/build/resolve.rs).

    The files [Build.v] keeps are as they were given.  The source keeps a copy
    of each new file, [raw], and while it resolves the names in the file it
    writes the results into that copy; after success the copy replaces the file
    (build/mod.rs:144), so it is what FileDescriptor::file_descriptor_proto,
    encode_file_descriptor_proto, DescriptorPool::file_descriptor_protos and
    the other accessors of descriptor protos show.  The walk itself goes over
    the files as given (build/mod.rs:137-141). *)
From Verif Require Import Base Value Descr Proto Build.
From Coq Require Import List ZArith NArith.
Import ListNotations.
Local Open Scope list_scope.

(** ** The places written to *)

(** find_message_field_proto, find_file_field_proto_mut (resolve.rs:922-958),
    with what is done to the field found; nothing is done when there is none
    (the source panics, as does [resolve_ref] in [Build.v]) *)
Fixpoint on_message_field (g : fproto -> fproto) (path : list Z) (m : dproto) : dproto :=
  match path with
  | tag :: i :: rest =>
      let 'DP n fs xs ns es er os me rv := m in
      if (tag =? 2)%Z then
        match rest with [] => DP n (upd (Z.to_nat i) g fs) xs ns es er os me rv | _ => m end
      else if (tag =? 6)%Z then
        match rest with [] => DP n fs (upd (Z.to_nat i) g xs) ns es er os me rv | _ => m end
      else if (tag =? 3)%Z then
        DP n fs xs (upd (Z.to_nat i) (on_message_field g rest) ns) es er os me rv
      else m
  | _ => m
  end.
Definition on_file_field (g : fproto -> fproto) (path : list Z) (f : file) : file :=
  match path with
  | tag :: i :: rest =>
      let 'File nm pk ds pb wk ms es ss xs sy := f in
      if (tag =? 4)%Z then File nm pk ds pb wk (upd (Z.to_nat i) (on_message_field g rest) ms) es ss xs sy
      else if (tag =? 7)%Z then
        match rest with [] => File nm pk ds pb wk ms es ss (upd (Z.to_nat i) g xs) sy | _ => f end
      else f
  | _ => f
  end.
(** the methods (set_type_name, resolve.rs:889-902) *)
Definition on_file_method (g : mproto -> mproto) (path : list Z) (f : file) : file :=
  match path with
  | tag :: i :: rest =>
      let 'File nm pk ds pb wk ms es ss xs sy := f in
      if (tag =? 6)%Z then
        match rest with
        | [t2; j] =>
            if (t2 =? 2)%Z
            then File nm pk ds pb wk ms es
                      (upd (Z.to_nat i) (fun s => SP (sp_name s) (upd (Z.to_nat j) g (sp_methods s))) ss) xs sy
            else f
        | _ => f
        end
      else f
  | _ => f
  end.

(** ** What is written *)

(** [format!(".{type_name}")] (resolve.rs:734) *)
Definition absolute (n : str) : str := dot :: n.
(** the type of a field that refers to [d] (resolve.rs:727-731) *)
Definition type_of_def (d : def) : ptype :=
  match d_kind d with DMessage _ => TMessage | _ => TEnum end.
(** set_type_name, the tag of a field's type name (resolve.rs:904-909): a group
    stays a group *)
Definition set_type (n : str) (d : def) (x : fproto) : fproto :=
  FP (fp_name x) (fp_extendee x) (fp_number x) (fp_label x)
     (match fp_type x with TGroup => TGroup | _ => type_of_def d end) (absolute n)
     (fp_default x) (fp_oneof x) (fp_json x) (fp_options x) (fp_optional x).
(** the tag of an extendee (resolve.rs:910-912) *)
Definition set_extendee (n : str) (x : fproto) : fproto :=
  FP (fp_name x) (Some (absolute n)) (fp_number x) (fp_label x) (fp_type x) (fp_type_name x)
     (fp_default x) (fp_oneof x) (fp_json x) (fp_options x) (fp_optional x).
(** resolve_field_json_name (resolve.rs:555-567): the name made up is put into
    the field where there is none *)
Definition set_json (x : fproto) : fproto :=
  FP (fp_name x) (fp_extendee x) (fp_number x) (fp_label x) (fp_type x) (fp_type_name x)
     (fp_default x) (fp_oneof x) (Some (to_json_name (fp_name x))) (fp_options x) (fp_optional x).
(** the tags of a method's types (resolve.rs:893-901) *)
Definition set_input (n : str) (m : mproto) : mproto := MP (mp_name m) (absolute n) (mp_output m).
Definition set_output (n : str) (m : mproto) : mproto := MP (mp_name m) (mp_input m) (absolute n).

(** resolve_name (resolve.rs:716-760): what the reference stands for is written
    when it stands for something *)
Definition write_ref (p : pool) (f : nat) (scope name : str) (r : rfilter)
    (w : str -> def -> file -> file) (raw : file) : file :=
  match nth_error (p_files p) f with
  | Some fi =>
      match resolve_name (fi_trans fi) (p_names p) scope name r with
      | RFound n d => w n d raw
      | _ => raw
      end
  | None => raw
  end.
(** resolve_field_type (resolve.rs:569-625): only a type name is resolved *)
Definition write_type (p : pool) (f : nat) (path : list Z) (full : str) (x : fproto) (raw : file) : file :=
  match fp_type_name x with
  | [] => raw
  | _ => write_ref p f full (fp_type_name x) FFieldType (fun n d => on_file_field (set_type n d) path) raw
  end.
Definition write_json (path : list Z) (x : fproto) (raw : file) : file :=
  match fp_json x with
  | Some _ => raw
  | None => on_file_field set_json path raw
  end.

(** visit_field, visit_method, visit_extension (resolve.rs:92-221, 241-279,
    350-414).  [p] is the pool when the visitor is called; the names and what
    the file sees do not change during the call. *)
Definition write_step (p : pool) (e : event) (raw : file) : file :=
  match e with
  | EvField path full f _ _ x => write_json path x (write_type p f path full x raw)
  | EvMethod path full f _ _ m =>
      write_ref p f full (mp_output m) FMessage (fun n _ => on_file_method (set_output n) path)
        (write_ref p f full (mp_input m) FMessage (fun n _ => on_file_method (set_input n) path) raw)
  | EvExt path full f _ _ x =>
      write_json path x (write_type p f path full x
        (write_ref p f full (match fp_extendee x with Some e => e | None => [] end) FMessage
           (fun n _ => on_file_field (set_extendee n) path) raw))
  | _ => raw
  end.
(** the number of the file of an event *)
Definition file_of_event (e : event) : nat :=
  match e with
  | EvFile _ f _ | EvMessage _ _ f _ _ _ | EvField _ _ f _ _ _ | EvOneof _ _ f _ _ _ | EvService _ _ f _ _
  | EvMethod _ _ f _ _ _ | EvEnum _ _ f _ _ _ | EvEnumValue _ _ f _ _ _ | EvExt _ _ f _ _ _ => f
  end.

(** ** The copies along the resolve phase

    [raws] are the copies of the new files; the first of them is file number
    [base] of the pool. *)
Section Give.
Context (X : externs).
Fixpoint resolve_raws (fuel base : nat) (evs : list event) (v : vst) (raws : list file) : res (list file) :=
  match evs with
  | [] => Ok raws
  | e :: r =>
      let! v' := resolve_step X fuel e v in
      resolve_raws fuel base r v' (upd (file_of_event e - base) (write_step (v_pool v) e) raws)
  end.
(** build_files_deduped (build/mod.rs:124-148): the copies of the new files [fs]
    after the resolve phase *)
Definition given_back (fuel : nat) (p : pool) (fs : list file) : res (list file) :=
  let evs := visit (offsets_of p) fs in
  let! v := fold_res names_step evs (V p []) in
  resolve_raws fuel (length (p_files p)) evs v fs.
End Give.
