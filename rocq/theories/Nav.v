(** Going from one descriptor to another, and from a descriptor to the
    descriptor proto it comes from (descriptor/api.rs). *)
From Verif Require Import Base Value Descr Proto Build.
From Coq Require Import List ZArith NArith.
Import ListNotations.
Local Open Scope list_scope.

(** join_name (api.rs:1944-1950) *)
Definition join_name (namespace name : str) : str :=
  match namespace with [] => name | _ => namespace ++ dot :: name end.

(** what an iterator gives when it is run to its end: it panics when one of
    its steps does *)
Fixpoint collect {A B} (g : A -> res B) (l : list A) : res (list B) :=
  match l with
  | [] => Ok []
  | a :: l => let! b := g a in let! bs := collect g l in Ok (b :: bs)
  end.

(** The functions below read the [prost] copies of the files of the pool
    (FileDescriptorInner::prost): [raws], by file number.  See [Raw.v] for what
    is in them. *)

(** [self.pool.inner.files[id.file].prost] (e.g. api.rs:751-753) *)
Definition file_proto (raws : list file) (k : nat) : res file := need (nth_error raws k).
(** MessageDescriptor::descriptor_proto (api.rs:756-758);
    find_message_proto_prost (api.rs:1968-1987) is find_message_proto of
    descriptor/mod.rs for the other copy *)
Definition descriptor_proto (raws : list file) (m : message_inner) : res dproto :=
  let! f := file_proto raws (id_file (m_id m)) in
  need (find_message_proto f (id_path (m_id m))).
(** [l[i as usize]]; the numbers in paths are not negative *)
Definition index {A} (l : list A) (i : Z) : res A := need (nth_error l (Z.to_nat i)).
(** the last number of a path, [*path.last().unwrap()] *)
Definition path_end (path : list Z) : res Z :=
  match rev path with i :: _ => Ok i | [] => Panic end.
(** the body shared by EnumDescriptor::enum_descriptor_proto (api.rs:1434-1447)
    and ExtensionDescriptor::field_descriptor_proto (api.rs:1226-1239), with
    their debug assertions: an element of the file or of a message, by the
    last two numbers of its path *)
Definition element {A} (top inner : Z) (of_file : file -> list A) (of_message : dproto -> list A)
    (f : file) (path : list Z) : res A :=
  match path with
  | [t; i] => if (t =? top)%Z then index (of_file f) i else Panic
  | _ =>
      match rev path with
      | i :: t :: _ =>
          let! m := need (find_message_proto f (firstn (length path - 2) path)) in
          if (t =? inner)%Z then index (of_message m) i else Panic
      | _ => Panic
      end
  end.
Definition enum_descriptor_proto (raws : list file) (e : enum_inner) : res eproto :=
  let! f := file_proto raws (id_file (e_id e)) in
  element 5 4 fl_enums dp_enums f (id_path (e_id e)).
Definition ext_descriptor_proto (raws : list file) (x : ext_inner) : res fproto :=
  let! f := file_proto raws (id_file (x_id x)) in
  element 7 6 fl_exts dp_exts f (id_path (x_id x)).
(** FieldDescriptor::field_descriptor_proto (api.rs:1021-1023) *)
Definition field_descriptor_proto (raws : list file) (m : message_inner) (x : field_inner) : res fproto :=
  let! d := descriptor_proto raws m in
  let! i := path_end (id_path (f_id x)) in index (dp_fields d) i.
(** OneofDescriptor::oneof_descriptor_proto (api.rs:1645-1647); [i] is the
    index in the descriptor.  A oneof is its name. *)
Definition oneof_descriptor_proto (raws : list file) (m : message_inner) (i : nat) : res str :=
  let! d := descriptor_proto raws m in need (nth_error (dp_oneofs d) i).
(** EnumValueDescriptor::enum_value_descriptor_proto (api.rs:1574-1576) *)
Definition enum_value_descriptor_proto (raws : list file) (e : enum_inner) (i : nat) : res (str * Z) :=
  let! d := enum_descriptor_proto raws e in need (nth_error (ep_values d) i).
(** ServiceDescriptor::service_descriptor_proto (api.rs:1757-1761) *)
Definition service_descriptor_proto (raws : list file) (s : service_inner) : res sproto :=
  let! i := path_end (id_path (s_id s)) in
  let! f := file_proto raws (id_file (s_id s)) in index (fl_services f) i.
(** MethodDescriptor::method_descriptor_proto (api.rs:1858-1860) *)
Definition method_descriptor_proto (raws : list file) (s : service_inner) (i : nat) : res mproto :=
  let! d := service_descriptor_proto raws s in need (nth_error (sp_methods d) i).

(** MessageDescriptor::child_messages, child_enums, child_extensions
    (api.rs:802-836): the numbers of the definitions in the pool *)
Definition child_messages (p : pool) (raws : list file) (m : message_inner) : res (list nat) :=
  let! d := descriptor_proto raws m in
  collect (fun n => need (get_message_by_name p (join_name (id_full (m_id m)) (dp_name n)))) (dp_nested d).
Definition child_enums (p : pool) (raws : list file) (m : message_inner) : res (list nat) :=
  let! d := descriptor_proto raws m in
  collect (fun e => need (get_enum_by_name p (join_name (id_full (m_id m)) (ep_name e)))) (dp_enums d).
Definition child_extensions (p : pool) (raws : list file) (m : message_inner) : res (list nat) :=
  let! d := descriptor_proto raws m in
  collect (fun x => need (get_extension_by_name p (join_name (id_full (m_id m)) (fp_name x)))) (dp_exts d).

(** FileDescriptor::messages, enums, extensions, services (api.rs:611-654) *)
Definition file_messages (p : pool) (raws : list file) (k : nat) : res (list nat) :=
  let! f := file_proto raws k in
  collect (fun n => need (get_message_by_name p (join_name (fl_package f) (dp_name n)))) (fl_messages f).
Definition file_enums (p : pool) (raws : list file) (k : nat) : res (list nat) :=
  let! f := file_proto raws k in
  collect (fun e => need (get_enum_by_name p (join_name (fl_package f) (ep_name e)))) (fl_enums f).
Definition file_extensions (p : pool) (raws : list file) (k : nat) : res (list nat) :=
  let! f := file_proto raws k in
  collect (fun x => need (get_extension_by_name p (join_name (fl_package f) (fp_name x)))) (fl_exts f).
Definition file_services (p : pool) (raws : list file) (k : nat) : res (list nat) :=
  let! f := file_proto raws k in
  collect (fun s => need (get_service_by_name p (join_name (fl_package f) (sp_name s)))) (fl_services f).

(** FileDescriptor::dependencies, public_dependencies (api.rs:588-606): the
    numbers of the files in the pool.  [index as usize] of a negative number is
    past the end of every list. *)
Definition dependencies (p : pool) (raws : list file) (k : nat) : res (list nat) :=
  let! f := file_proto raws k in
  collect (fun n => need (get_file_by_name p n)) (fl_deps f).
Definition public_dependencies (p : pool) (raws : list file) (k : nat) : res (list nat) :=
  let! f := file_proto raws k in
  collect (fun i => let! n := if (i <? 0)%Z then Panic else index (fl_deps f) i in need (get_file_by_name p n)) (fl_public f).

(** MessageDescriptor::raw (api.rs:968-970) *)
Definition raw_message (p : pool) (m : message_inner) : res dproto :=
  let! fi := need (nth_error (p_files p) (id_file (m_id m))) in
  need (find_message_proto (fi_raw fi) (id_path (m_id m))).
(** MessageDescriptor::reserved_ranges, extension_ranges (api.rs:928-946) *)
Definition as_ranges (l : list (Z * Z)) : list (N * N) := map (fun r => (as_u32 (fst r), as_u32 (snd r))) l.
Definition reserved_ranges (p : pool) (m : message_inner) : res (list (N * N)) :=
  let! d := raw_message p m in Ok (as_ranges (dp_reserved d)).
Definition extension_ranges (p : pool) (m : message_inner) : res (list (N * N)) :=
  let! d := raw_message p m in Ok (as_ranges (dp_ext_ranges d)).

(** EnumDescriptor::raw and reserved_ranges (api.rs:1504-1509, 1520-1526); the
    bounds are shown unchanged, and the end is part of the range *)
Definition raw_enum (p : pool) (e : enum_inner) : res eproto :=
  let! fi := need (nth_error (p_files p) (id_file (e_id e))) in
  need (find_enum_proto (fi_raw fi) (id_path (e_id e))).
Definition enum_reserved_ranges (p : pool) (e : enum_inner) : res (list (Z * Z)) :=
  let! d := raw_enum p e in Ok (map (fun r => (fst r, snd r)) (ep_reserved d)).

(** package_name of messages, extensions, enums and services
    (api.rs:739-741, 1209-1211, 1417-1419, 1740-1742) and the raw_file they use *)
Definition package_name (p : pool) (i : ident) : res str :=
  let! fi := need (nth_error (p_files p) (id_file i)) in Ok (fl_package (fi_raw fi)).

(** OneofDescriptor::fields and FieldDescriptor::containing_oneof
    (api.rs:1659-1664, 1107-1112) are the stored [o_fields] and [f_oneof].
    OneofDescriptor::is_synthetic (api.rs:1669-1674); [all] stops at the first
    field that is not optional *)
Fixpoint all_optional (raws : list file) (m : message_inner) (fields : list nat) : res bool :=
  match fields with
  | [] => Ok true
  | i :: l =>
      let! x := need (nth_error (m_fields m) i) in
      let! d := field_descriptor_proto raws m x in
      if fp_optional d then all_optional raws m l else Ok false
  end.
Definition is_synthetic (raws : list file) (m : message_inner) (k : nat) : res bool :=
  let! o := need (nth_error (m_oneofs m) k) in
  if (length (o_fields o) =? 1)%nat then all_optional raws m (o_fields o) else Ok false.

(** parent_message of messages, enums and extensions (api.rs:719-724,
    1187-1192, 1397-1402) is the stored [m_parent], [e_parent], [x_parent], and
    parent_file (api.rs:711-716, 1176-1181, 1389-1394, 1720-1725) the [id_file]
    of the identity. *)
