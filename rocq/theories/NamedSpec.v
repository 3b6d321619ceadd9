(** What protoc guarantees of the names in a file descriptor, of its defaults
    and of its groups, and the crate's builder does not check. *)
From Coq Require Import String.
From Verif Require Import Base Wire Value Descr Proto Build DeclSpec.
From Coq Require Import List ZArith NArith.
Import ListNotations.
Local Open Scope list_scope.
Local Open Scope N_scope.

(** [letter]: A to Z, a to z and the underscore *)
Definition letter (c : N) : Prop := 65 <= c <= 90 \/ 97 <= c <= 122 \/ c = 95.
Definition digit (c : N) : Prop := 48 <= c <= 57.
Definition identifier (s : str) : Prop :=
  exists c r, s = c :: r /\ letter c /\ Forall (fun x => letter x \/ digit x) r.
(** identifiers with dots between them *)
Inductive dotted_name : str -> Prop :=
| dn_one n : identifier n -> dotted_name n
| dn_more s n : dotted_name s -> identifier n -> dotted_name (s ++ [46] ++ n).

(** letters A to Z made small *)
Definition small (c : N) : N := if (65 <=? c) && (c <=? 90) then c + 32 else c.
Definition small_letters (s : str) : str := map small s.

(** the JSON name of a field: what the file says, or else the name in camel case *)
Definition json_name_of (x : fproto) : str :=
  match fp_json x with Some j => j | None => to_json_name (fp_name x) end.

(** - The package and all names are identifiers, the package with dots.
    - The type of a group is declared in the message that has the group, and the
      field is named like it in small letters.
    - Repeated fields, and all fields in proto3, declare no default.
    - The fields of a map entry are named key and value and are in no
      oneof, and the value is no group.
    - No JSON name is of the form that stands for an extension, [...]. *)
Record named_file (f : file) : Prop := {
  nf_package : fl_package f = [] \/ dotted_name (fl_package f);
  nf_name : forall path scope it, declares f path scope it -> identifier (item_name it);
  nf_group : forall path scope m x, message_at f path scope m -> In x (dp_fields m) -> fp_type x = TGroup ->
    exists n, fp_type_name x = 46 :: dotted (dotted scope (dp_name m)) n /\ fp_name x = small_letters n;
  nf_default : forall path scope m x, message_at f path scope m -> In x (dp_fields m) ->
    fp_label x = Repeated \/ fl_syntax f = Some b_proto3 -> fp_default x = None;
  nf_entry : forall path scope m x, message_at f path scope m -> dp_map_entry m = true -> In x (dp_fields m) ->
    (fp_number x = 1%Z -> fp_name x = s2b "key"%string /\ fp_oneof x = None) /\
    (fp_number x = 2%Z -> fp_name x = s2b "value"%string /\ fp_oneof x = None /\ fp_type x <> TGroup);
  nf_json : forall path scope m x, message_at f path scope m -> In x (dp_fields m) ->
    forall j, fp_json x = Some j -> ~ exists s, j = 91 :: s ++ [93]
}.

(** No field has the name of another as its JSON name.  This protoc does not
    guarantee. *)
Definition names_apart (f : file) : Prop :=
  forall path scope m x y, message_at f path scope m -> In x (dp_fields m) -> In y (dp_fields m) ->
    json_name_of y = fp_name x -> x = y.
