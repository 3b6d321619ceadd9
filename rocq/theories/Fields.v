(** The field set of a dynamic message (prost-reflect/src/dynamic/fields.rs)
    and the DynamicMessage API on top of it (dynamic/mod.rs:110-583). *)
From Verif Require Import Base Wire Unknown Value Descr.

(** ** DynamicMessageFieldSet *)

(** get_value (fields.rs:60-65) *)
Definition fs_get_value {V} (fs : list (N * slot V)) (num : N) : option V :=
  match bt_get num fs with
  | Some (SVal v) => Some v
  | _ => None
  end.

(** has (fields.rs:67-71) *)
Definition fs_has (t : tables) (f : fdl) (fs : fieldset) : bool :=
  match fs_get_value fs (fd_number f) with
  | Some v => fd_has t f v
  | None => false
  end.

(** get (fields.rs:73-78) *)
Definition fs_get (t : tables) (f : fdl) (fs : fieldset) : value :=
  match fs_get_value fs (fd_number f) with
  | Some v => v
  | None => fd_default_value t f
  end.

(** clear (fields.rs:135-137) *)
Definition fs_clear (f : fdl) (fs : fieldset) : fieldset := bt_remove (fd_number f) fs.

(** clear_oneof_fields (fields.rs:107-115) *)
Definition fs_clear_oneof (f : fdl) (fs : fieldset) : fieldset :=
  match fd_oneof f with
  | None => fs
  | Some nums =>
      fold_left (fun acc n => if n =? fd_number f then acc else bt_remove n acc) nums fs
  end.

(** get_mut (fields.rs:80-95): the set after the call; the returned reference
    points at the value stored under the number, read by [fs_get] and written
    back by [fs_put]. *)
Definition fs_get_mut (t : tables) (f : fdl) (fs : fieldset) : fieldset :=
  let fs1 := fs_clear_oneof f fs in
  match bt_get (fd_number f) fs1 with
  | Some (SVal _) => fs1
  | _ => bt_set (fd_number f) (SVal (fd_default_value t f)) fs1
  end.
(** writing through the reference returned by get_mut *)
Definition fs_put (f : fdl) (v : value) (fs : fieldset) : fieldset :=
  bt_set (fd_number f) (SVal v) fs.

(** set (fields.rs:97-106); the validity check is only a debug assertion *)
Definition fs_set (f : fdl) (v : value) (fs : fieldset) : fieldset :=
  bt_set (fd_number f) (SVal v) (fs_clear_oneof f fs).

(** add_unknown (fields.rs:117-133) *)
Definition fs_add_unknown (num : N) (u : ufield) (fs : fieldset) : res fieldset :=
  match bt_get num fs with
  | Some (SVal _) => Panic
  | Some Taken | None => Ok (bt_set num (SUnk [u]) fs)
  | Some (SUnk us) => Ok (bt_set num (SUnk (us ++ [u])) fs)
  end.

(** take (fields.rs:139-144) *)
Definition fs_take (t : tables) (f : fdl) (fs : fieldset) : option value * fieldset :=
  (match bt_get (fd_number f) fs with
   | Some (SVal v) => if fd_has t f v then Some v else None
   | _ => None
   end, bt_remove (fd_number f) fs).

(** ** Iteration *)

(** ValueAndDescriptor (fields.rs:53-57) *)
Inductive item (V : Type) :=
| IField (f : fdl) (v : V)
| IExt (f : fdl) (v : V)
| IUnk (us : list ufield).
Arguments IField {V} f v.
Arguments IExt {V} f v.
Arguments IUnk {V} us.

(** The declared-fields half of iter (fields.rs:157-172): fields that are set,
    and with [include_default] also unset fields without presence, in the
    order of [descs].  Generic in the stored type ([val] gives the value,
    [dflt] the default) so that encoders can carry closures along. *)
Definition iter_declared {V} (t : tables) (val : V -> value) (dflt : fdl -> V)
  (include_default : bool) (descs : list fdl) (fs : list (N * slot V)) : list (item V) :=
  flat_map (fun f =>
    match fs_get_value fs (fd_number f) with
    | Some v =>
        if (if include_default then negb (fd_presence f) || fd_has t f (val v)
            else fd_has t f (val v))
        then [IField f v] else []
    | None => if include_default && negb (fd_presence f) then [IField f (dflt f)] else []
    end) descs.

(** The extensions and unknown fields half (fields.rs:174-196), by number. *)
Definition iter_rest {V} (t : tables) (val : V -> value) (d : nat)
  (fs : list (N * slot V)) : list (item V) :=
  flat_map (fun kv =>
    match snd kv with
    | SVal v =>
        match get_ext t d (fst kv) with
        | Some x => if fd_has t x (val v) then [IExt x v] else []
        | None => []
        end
    | SUnk us => [IUnk us]
    | Taken => []
    end) fs.

(** iter (fields.rs:150-199) *)
Definition fs_iter_gen {V} (t : tables) (val : V -> value) (dflt : fdl -> V) (d : nat)
  (include_default index_order : bool) (fs : list (N * slot V)) : list (item V) :=
  iter_declared t val dflt include_default
    (if index_order then msg_fields_index t d else msg_fields t d) fs
  ++ iter_rest t val d fs.
Definition fs_iter (t : tables) (d : nat) (include_default index_order : bool) (fs : fieldset)
  : list (item value) :=
  fs_iter_gen t (fun v => v) (fd_default_value t) d include_default index_order fs.

(** iter_fields, iter_fields_mut (fields.rs:201-219, 246-264) *)
Definition fs_iter_fields (t : tables) (d : nat) (fs : fieldset) : list (fdl * value) :=
  flat_map (fun kv =>
    match snd kv with
    | SVal v =>
        match get_field t d (fst kv) with
        | Some f => if fd_has t f v then [(f, v)] else []
        | None => []
        end
    | _ => []
    end) fs.

(** iter_extensions, iter_extensions_mut (fields.rs:221-239, 266-284) *)
Definition fs_iter_extensions (t : tables) (d : nat) (fs : fieldset) : list (fdl * value) :=
  flat_map (fun kv =>
    match snd kv with
    | SVal v =>
        match get_ext t d (fst kv) with
        | Some f => if fd_has t f v then [(f, v)] else []
        | None => []
        end
    | _ => []
    end) fs.

(** iter_unknown (fields.rs:241-246) *)
Definition fs_iter_unknown {V} (fs : list (N * slot V)) : list ufield :=
  flat_map (fun kv => match snd kv with SUnk us => us | _ => [] end) fs.

(** Writing through iter_fields_mut: [g] is applied to every yielded value. *)
Definition fs_fields_mut (t : tables) (d : nat) (g : fdl -> value -> value) (fs : fieldset)
  : fieldset :=
  map (fun kv =>
    match snd kv with
    | SVal v =>
        match get_field t d (fst kv) with
        | Some f => if fd_has t f v then (fst kv, SVal (g f v)) else kv
        | None => kv
        end
    | _ => kv
    end) fs.

(** Writing through iter_extensions_mut. *)
Definition fs_extensions_mut (t : tables) (d : nat) (g : fdl -> value -> value) (fs : fieldset)
  : fieldset :=
  map (fun kv =>
    match snd kv with
    | SVal v =>
        match get_ext t d (fst kv) with
        | Some f => if fd_has t f v then (fst kv, SVal (g f v)) else kv
        | None => kv
        end
    | _ => kv
    end) fs.

(** take_fields (fields.rs:286-310) drained to the end: the items are those of
    iter_fields and each yielded slot becomes Taken. *)
Definition fs_take_fields (t : tables) (d : nat) (fs : fieldset)
  : list (fdl * value) * fieldset :=
  (fs_iter_fields t d fs,
   map (fun kv =>
     match snd kv with
     | SVal v =>
         match get_field t d (fst kv) with
         | Some f => if fd_has t f v then (fst kv, Taken) else kv
         | None => kv
         end
     | _ => kv
     end) fs).

(** take_extensions (fields.rs:312-336) *)
Definition fs_take_extensions (t : tables) (d : nat) (fs : fieldset)
  : list (fdl * value) * fieldset :=
  (fs_iter_extensions t d fs,
   map (fun kv =>
     match snd kv with
     | SVal v =>
         match get_ext t d (fst kv) with
         | Some f => if fd_has t f v then (fst kv, Taken) else kv
         | None => kv
         end
     | _ => kv
     end) fs).

(** take_unknown (fields.rs:338-348) *)
Definition fs_take_unknown (fs : fieldset) : list ufield * fieldset :=
  (fs_iter_unknown fs,
   map (fun kv => match snd kv with SUnk _ => (fst kv, Taken) | _ => kv end) fs).

(** ** DynamicMessage *)

(** with_fields: replaces the field set *)
Definition with_fields (m : dynmsg) (fs : fieldset) : dynmsg := DM (dm_desc m) fs.

Definition has_field (t : tables) (m : dynmsg) (f : fdl) : bool := fs_has t f (dm_fields m).
Definition get_field_value (t : tables) (m : dynmsg) (f : fdl) : value := fs_get t f (dm_fields m).
(** get_field_mut followed by the write [g] through the reference *)
Definition field_mut (t : tables) (m : dynmsg) (f : fdl) (g : value -> value) : dynmsg :=
  let fs := fs_get_mut t f (dm_fields m) in
  with_fields m (fs_put f (g (fs_get t f fs)) fs).
Definition clear_field (m : dynmsg) (f : fdl) : dynmsg := with_fields m (fs_clear f (dm_fields m)).
Definition take_field (t : tables) (m : dynmsg) (f : fdl) : option value * dynmsg :=
  let (o, fs) := fs_take t f (dm_fields m) in (o, with_fields m fs).

(** SetFieldError (dynamic/mod.rs:97-107) *)
Inductive set_err := NotFound | InvalidType (f : fdl) (v : value).

(** try_set_field (dynamic/mod.rs:184-199): (error, message afterwards) *)
Definition try_set_field (t : tables) (m : dynmsg) (f : fdl) (v : value)
  : option set_err * dynmsg :=
  if is_valid_for t f v then (None, with_fields m (fs_set f v (dm_fields m)))
  else (Some (InvalidType f v), m).

(** set_field (dynamic/mod.rs:175-177): unwraps; [None] is the panic *)
Definition set_field (t : tables) (m : dynmsg) (f : fdl) (v : value) : option dynmsg :=
  match try_set_field t m f v with (None, m') => Some m' | (Some _, _) => None end.

(** by number (dynamic/mod.rs:209-278) *)
Definition has_field_by_number (t : tables) (m : dynmsg) (n : N) : bool :=
  match get_field t (dm_desc m) n with Some f => has_field t m f | None => false end.
Definition get_field_by_number (t : tables) (m : dynmsg) (n : N) : option value :=
  option_map (get_field_value t m) (get_field t (dm_desc m) n).
Definition field_by_number_mut (t : tables) (m : dynmsg) (n : N) (g : value -> value)
  : option dynmsg :=
  option_map (fun f => field_mut t m f g) (get_field t (dm_desc m) n).
Definition set_field_by_number (t : tables) (m : dynmsg) (n : N) (v : value) : option dynmsg :=
  match get_field t (dm_desc m) n with Some f => set_field t m f v | None => Some m end.
Definition try_set_field_by_number (t : tables) (m : dynmsg) (n : N) (v : value)
  : option set_err * dynmsg :=
  match get_field t (dm_desc m) n with
  | Some f => try_set_field t m f v
  | None => (Some NotFound, m)
  end.
Definition clear_field_by_number (t : tables) (m : dynmsg) (n : N) : dynmsg :=
  match get_field t (dm_desc m) n with Some f => clear_field m f | None => m end.
Definition take_field_by_number (t : tables) (m : dynmsg) (n : N) : option value * dynmsg :=
  match get_field t (dm_desc m) n with Some f => take_field t m f | None => (None, m) end.

(** by name (dynamic/mod.rs:280-396) *)
Definition has_field_by_name (t : tables) (m : dynmsg) (n : str) : bool :=
  match get_field_by_name t (dm_desc m) n with Some f => has_field t m f | None => false end.
Definition get_field_value_by_name (t : tables) (m : dynmsg) (n : str) : option value :=
  option_map (get_field_value t m) (get_field_by_name t (dm_desc m) n).
Definition field_by_name_mut (t : tables) (m : dynmsg) (n : str) (g : value -> value)
  : option dynmsg :=
  option_map (fun f => field_mut t m f g) (get_field_by_name t (dm_desc m) n).
Definition set_field_by_name (t : tables) (m : dynmsg) (n : str) (v : value) : option dynmsg :=
  match get_field_by_name t (dm_desc m) n with Some f => set_field t m f v | None => Some m end.
Definition try_set_field_by_name (t : tables) (m : dynmsg) (n : str) (v : value)
  : option set_err * dynmsg :=
  match get_field_by_name t (dm_desc m) n with
  | Some f => try_set_field t m f v
  | None => (Some NotFound, m)
  end.
Definition clear_field_by_name (t : tables) (m : dynmsg) (n : str) : dynmsg :=
  match get_field_by_name t (dm_desc m) n with Some f => clear_field m f | None => m end.
Definition take_field_by_name (t : tables) (m : dynmsg) (n : str) : option value * dynmsg :=
  match get_field_by_name t (dm_desc m) n with Some f => take_field t m f | None => (None, m) end.

(** set_extension (dynamic/mod.rs:425-427): no run-time validity check in
    release builds *)
Definition set_extension (m : dynmsg) (f : fdl) (v : value) : dynmsg :=
  with_fields m (fs_set f v (dm_fields m)).

(** fields, extensions, unknown_fields and the draining variants
    (dynamic/mod.rs:440-520) *)
Definition msg_iter_fields (t : tables) (m : dynmsg) := fs_iter_fields t (dm_desc m) (dm_fields m).
Definition msg_iter_extensions (t : tables) (m : dynmsg) :=
  fs_iter_extensions t (dm_desc m) (dm_fields m).
Definition msg_unknown_fields (m : dynmsg) : list ufield := fs_iter_unknown (dm_fields m).
Definition msg_take_fields (t : tables) (m : dynmsg) :=
  let (l, fs) := fs_take_fields t (dm_desc m) (dm_fields m) in (l, with_fields m fs).
Definition msg_take_extensions (t : tables) (m : dynmsg) :=
  let (l, fs) := fs_take_extensions t (dm_desc m) (dm_fields m) in (l, with_fields m fs).
Definition msg_take_unknown_fields (m : dynmsg) :=
  let (l, fs) := fs_take_unknown (dm_fields m) in (l, with_fields m fs).
(** writing [g] through every item of fields_mut and extensions_mut
    (dynamic/mod.rs:505-507, 528-530) *)
Definition msg_fields_mut (t : tables) (m : dynmsg) (g : fdl -> value -> value) : dynmsg :=
  with_fields m (fs_fields_mut t (dm_desc m) g (dm_fields m)).
Definition msg_extensions_mut (t : tables) (m : dynmsg) (g : fdl -> value -> value) : dynmsg :=
  with_fields m (fs_extensions_mut t (dm_desc m) g (dm_fields m)).
(** Message::clear (dynamic/message.rs:78-80) *)
Definition msg_clear (m : dynmsg) : dynmsg := with_fields m [].
