(** C13, C14, C15, C17: reading and writing fields. *)
From Coq Require Import String.
From Verif Require Import Base BaseProofs Wire Unknown Value Descr Fields Codec DescrOk DescrProofs
  FieldsProofs ExampleSchema.
Open Scope string_scope.
Open Scope N_scope.

(** Reminder of the vocabulary (FieldsProofs.v):
    [sibling f k]: [k] is the number of another member of f's oneof.
    [untouched t f m m']: m and m' have the same type, store the same thing
    under every number other than f's and its siblings', and [has]/[get] agree
    on all fields other than f and its siblings. *)

(** ** C13 *)

(** get after a successful set returns the value set; [has] is true unless the
    field has no presence and the value is the default; oneof siblings are
    cleared; nothing else changes. *)
Theorem C13_set t m f v m' :
  try_set_field t m f v = (None, m') ->
  get_field_value t m' f = v /\
  (has_field t m' f = true <-> fd_presence f = true \/ is_default_for t f v = false) /\
  (forall g, sibling f (fd_number g) ->
     has_field t m' g = false /\ get_field_value t m' g = fd_default_value t g) /\
  untouched t f m m'.
Proof. exact (set_laws t m f v m'). Qed.
Print Assumptions C13_set.

(** The same for set_extension, which does not check the value. *)
Theorem C13_set_extension t m f v :
  let m' := set_extension m f v in
  get_field_value t m' f = v /\
  (has_field t m' f = true <-> fd_presence f = true \/ is_default_for t f v = false) /\
  (forall g, sibling f (fd_number g) ->
     has_field t m' g = false /\ get_field_value t m' g = fd_default_value t g) /\
  untouched t f m m'.
Proof. exact (set_ext_laws t m f v _ eq_refl). Qed.
Print Assumptions C13_set_extension.

(** clear: afterwards nothing is set, every field reads as its default, and
    there are no unknown fields. *)
Theorem C13_clear_all t m :
  dm_desc (msg_clear m) = dm_desc m /\ msg_unknown_fields (msg_clear m) = [] /\
  forall f, has_field t (msg_clear m) f = false /\
            get_field_value t (msg_clear m) f = fd_default_value t f.
Proof. repeat split. Qed.
Print Assumptions C13_clear_all.

Theorem C13_clear t m f :
  has_field t (clear_field m f) f = false /\
  get_field_value t (clear_field m f) f = fd_default_value t f /\
  dm_desc (clear_field m f) = dm_desc m /\
  (forall k, k <> fd_number f ->
     bt_get k (dm_fields (clear_field m f)) = bt_get k (dm_fields m)) /\
  (forall g, fd_number g <> fd_number f ->
     has_field t (clear_field m f) g = has_field t m g /\
     get_field_value t (clear_field m f) g = get_field_value t m g).
Proof. exact (clear_laws t m f). Qed.
Print Assumptions C13_clear.

(** take = (value if has, else nothing), and the field is cleared *)
Theorem C13_take t m f o m' :
  take_field t m f = (o, m') ->
  m' = clear_field m f /\
  o = (if has_field t m f then Some (get_field_value t m f) else None).
Proof. exact (take_laws t m f o m'). Qed.
Print Assumptions C13_take.

(** get_mut then write [g]: the reference initially holds what get returned
    (the default if unset). *)
Theorem C13_get_mut t m f g :
  let m' := field_mut t m f g in
  get_field_value t m' f = g (get_field_value t m f) /\
  (has_field t m' f = fd_has t f (g (get_field_value t m f))) /\
  (forall h, sibling f (fd_number h) -> has_field t m' h = false) /\
  untouched t f m m'.
Proof. exact (field_mut_laws t m f g). Qed.
Print Assumptions C13_get_mut.

(** a concrete set that clears a oneof sibling *)
Example C13_example :
  exists m', try_set_field ex ex_m (ex_f 6) (VString (s2b "new")) = (None, m') /\
    has_field ex ex_m (ex_f 5) = true /\ has_field ex m' (ex_f 5) = false /\
    sibling (ex_f 6) 5 /\ has_field ex m' (ex_f 6) = true.
Proof.
  eexists. split; [vm_compute; reflexivity|]. split; [vm_compute; reflexivity|].
  split; [vm_compute; reflexivity|]. split; [|vm_compute; reflexivity].
  exists [5; 6]. vm_compute. intuition discriminate.
Qed.

(** ** C14 *)

(** fields(): exactly the declared fields for which has is true, with the value
    get returns, in increasing number order (hence each once). *)
Theorem C14_fields t m f v :
  tables_ok t -> bt_sorted (dm_fields m) ->
  In (f, v) (msg_iter_fields t m) <->
  get_field t (dm_desc m) (fd_number f) = Some f /\ has_field t m f = true
  /\ get_field_value t m f = v.
Proof. exact (iter_fields_In t (dm_desc m) (dm_fields m) f v). Qed.
Print Assumptions C14_fields.

Theorem C14_fields_order t m :
  tables_ok t -> bt_sorted (dm_fields m) ->
  increasing (map (fun fv => fd_number (fst fv)) (msg_iter_fields t m)).
Proof. exact (iter_fields_increasing t (dm_desc m) (dm_fields m)). Qed.
Print Assumptions C14_fields_order.

Theorem C14_extensions t m f v :
  tables_ok t -> bt_sorted (dm_fields m) ->
  In (f, v) (msg_iter_extensions t m) <->
  get_ext t (dm_desc m) (fd_number f) = Some f /\ has_field t m f = true
  /\ get_field_value t m f = v.
Proof. exact (iter_ext_In t (dm_desc m) (dm_fields m) f v). Qed.
Print Assumptions C14_extensions.

Theorem C14_extensions_order t m :
  tables_ok t -> bt_sorted (dm_fields m) ->
  increasing (map (fun fv => fd_number (fst fv)) (msg_iter_extensions t m)).
Proof. exact (iter_ext_increasing t (dm_desc m) (dm_fields m)). Qed.
Print Assumptions C14_extensions_order.

Theorem C14_take_fields t m l m' :
  wf t -> bt_sorted (dm_fields m) -> msg_take_fields t m = (l, m') ->
  l = msg_iter_fields t m /\ msg_iter_fields t m' = [] /\
  (forall n f, get_field t (dm_desc m) n = Some f -> has_field t m' f = false) /\
  (forall n f, get_ext t (dm_desc m) n = Some f ->
     has_field t m' f = has_field t m f /\ get_field_value t m' f = get_field_value t m f) /\
  msg_iter_extensions t m' = msg_iter_extensions t m /\
  msg_unknown_fields m' = msg_unknown_fields m.
Proof. exact (take_fields_laws t m l m'). Qed.
Print Assumptions C14_take_fields.

Theorem C14_take_extensions t m l m' :
  wf t -> bt_sorted (dm_fields m) -> msg_take_extensions t m = (l, m') ->
  l = msg_iter_extensions t m /\ msg_iter_extensions t m' = [] /\
  (forall n f, get_ext t (dm_desc m) n = Some f -> has_field t m' f = false) /\
  (forall n f, get_field t (dm_desc m) n = Some f ->
     has_field t m' f = has_field t m f /\ get_field_value t m' f = get_field_value t m f) /\
  msg_iter_fields t m' = msg_iter_fields t m /\
  msg_unknown_fields m' = msg_unknown_fields m.
Proof. exact (take_extensions_laws t m l m'). Qed.
Print Assumptions C14_take_extensions.

Theorem C14_take_unknown t m l m' :
  msg_take_unknown_fields m = (l, m') ->
  l = msg_unknown_fields m /\ msg_unknown_fields m' = [] /\
  (forall f, has_field t m' f = has_field t m f /\ get_field_value t m' f = get_field_value t m f) /\
  msg_iter_fields t m' = msg_iter_fields t m /\ msg_iter_extensions t m' = msg_iter_extensions t m.
Proof. exact (take_unknown_laws t m l m'). Qed.
Print Assumptions C14_take_unknown.

(** Writing through fields_mut: every set field is written once, with what its
    value becomes, and neither unset fields nor extensions nor unknown fields
    change. *)
Theorem C14_fields_mut t m g :
  wf t ->
  let m' := msg_fields_mut t m g in
  dm_desc m' = dm_desc m /\
  (forall n f, get_field t (dm_desc m) n = Some f ->
     get_field_value t m' f = if has_field t m f then g f (get_field_value t m f) else get_field_value t m f) /\
  (forall n f, get_ext t (dm_desc m) n = Some f ->
     has_field t m' f = has_field t m f /\ get_field_value t m' f = get_field_value t m f) /\
  msg_unknown_fields m' = msg_unknown_fields m.
Proof. intros Hw. exact (fields_mut_laws t m g Hw). Qed.
Print Assumptions C14_fields_mut.

Theorem C14_extensions_mut t m g :
  wf t ->
  let m' := msg_extensions_mut t m g in
  dm_desc m' = dm_desc m /\
  (forall n f, get_ext t (dm_desc m) n = Some f ->
     get_field_value t m' f = if has_field t m f then g f (get_field_value t m f) else get_field_value t m f) /\
  (forall n f, get_field t (dm_desc m) n = Some f ->
     has_field t m' f = has_field t m f /\ get_field_value t m' f = get_field_value t m f) /\
  msg_unknown_fields m' = msg_unknown_fields m.
Proof. intros Hw. exact (extensions_mut_laws t m g Hw). Qed.
Print Assumptions C14_extensions_mut.

Example C14_example :
  bt_sorted (dm_fields ex_m) /\
  map (fun fv => fd_number (fst fv)) (msg_iter_fields ex ex_m) = [1;2;3;4;5;7;8;9;10;11;12;13] /\
  map (fun fv => fd_number (fst fv)) (msg_iter_extensions ex ex_m) = [100; 101] /\
  msg_unknown_fields ex_m = [UVarint 50 7; UGroup 50 [ULen 1 [1; 2; 3]]].
Proof.
  split; [apply bt_sortedb_ok; vm_compute; reflexivity|].
  repeat split; vm_compute; reflexivity.
Qed.

(** ** C15 *)

(** On a declared field, the variants by its number and by its name do what
    the descriptor variant does. *)
Theorem C15_declared t m f v :
  tables_ok t -> get_field t (dm_desc m) (fd_number f) = Some f ->
  (has_field_by_number t m (fd_number f) = has_field t m f /\
   has_field_by_name t m (fd_name f) = has_field t m f) /\
  (get_field_by_number t m (fd_number f) = Some (get_field_value t m f) /\
   get_field_value_by_name t m (fd_name f) = Some (get_field_value t m f)) /\
  (try_set_field_by_number t m (fd_number f) v = try_set_field t m f v /\
   try_set_field_by_name t m (fd_name f) v = try_set_field t m f v) /\
  (set_field_by_number t m (fd_number f) v = set_field t m f v /\
   set_field_by_name t m (fd_name f) v = set_field t m f v) /\
  (clear_field_by_number t m (fd_number f) = clear_field m f /\
   clear_field_by_name t m (fd_name f) = clear_field m f) /\
  (take_field_by_number t m (fd_number f) = take_field t m f /\
   take_field_by_name t m (fd_name f) = take_field t m f) /\
  (forall g, field_by_number_mut t m (fd_number f) g = Some (field_mut t m f g) /\
             field_by_name_mut t m (fd_name f) g = Some (field_mut t m f g)).
Proof.
  intros Ht Hf. pose proof (get_field_number_name _ _ _ _ Ht Hf) as Hn.
  unfold has_field_by_number, has_field_by_name, get_field_by_number, get_field_value_by_name,
    try_set_field_by_number, try_set_field_by_name, set_field_by_number, set_field_by_name,
    clear_field_by_number, clear_field_by_name, take_field_by_number, take_field_by_name,
    field_by_number_mut, field_by_name_mut.
  rewrite Hf, Hn. repeat split.
Qed.
Print Assumptions C15_declared.

(** An unknown number or name: nothing is found, nothing changes. *)
Theorem C15_unknown_number t m n v :
  (forall f, get_field t (dm_desc m) (fd_number f) = Some f -> fd_number f <> n) ->
  tables_ok t ->
  has_field_by_number t m n = false /\ get_field_by_number t m n = None /\
  try_set_field_by_number t m n v = (Some NotFound, m) /\ set_field_by_number t m n v = Some m /\
  clear_field_by_number t m n = m /\ take_field_by_number t m n = (None, m) /\
  (forall g, field_by_number_mut t m n g = None).
Proof.
  intros H Ht.
  assert (E : get_field t (dm_desc m) n = None).
  { destruct (get_field t (dm_desc m) n) as [f|] eqn:E; [|reflexivity].
    pose proof (get_field_number _ _ _ _ Ht E) as En. exfalso. apply (H f); [now rewrite En|exact En]. }
  unfold has_field_by_number, get_field_by_number, try_set_field_by_number, set_field_by_number,
    clear_field_by_number, take_field_by_number, field_by_number_mut. rewrite E. repeat split.
Qed.
Print Assumptions C15_unknown_number.

Theorem C15_unknown_name t m n v :
  (forall f, get_field t (dm_desc m) (fd_number f) = Some f -> fd_name f <> n) ->
  tables_ok t ->
  has_field_by_name t m n = false /\ get_field_value_by_name t m n = None /\
  try_set_field_by_name t m n v = (Some NotFound, m) /\ set_field_by_name t m n v = Some m /\
  clear_field_by_name t m n = m /\ take_field_by_name t m n = (None, m) /\
  (forall g, field_by_name_mut t m n g = None).
Proof.
  intros H Ht.
  assert (E : get_field_by_name t (dm_desc m) n = None).
  { destruct (get_field_by_name t (dm_desc m) n) as [f|] eqn:E; [|reflexivity].
    destruct (get_field_by_name_number _ _ _ _ Ht E) as [En Eg]. exfalso. now apply (H f). }
  unfold has_field_by_name, get_field_value_by_name, try_set_field_by_name, set_field_by_name,
    clear_field_by_name, take_field_by_name, field_by_name_mut. rewrite E. repeat split.
Qed.
Print Assumptions C15_unknown_name.

Example C15_example :
  tables_ok ex /\ get_field ex (dm_desc ex_m) (fd_number (ex_f 7)) = Some (ex_f 7) /\
  fd_name (ex_f 7) = s2b "child" /\
  (forall f, get_field ex (dm_desc ex_m) (fd_number f) = Some f -> fd_number f <> 50).
Proof.
  split; [vm_compute; reflexivity|]. split; [vm_compute; reflexivity|].
  split; [vm_compute; reflexivity|]. intros f H E. rewrite E in H. vm_compute in H. discriminate.
Qed.

(** ** C17 *)

(** The default of an unset field, read off the field's shape: [] for lists and
    maps, else the declared default, else the zero of the kind. *)
Definition zero_of (t : tables) (k : kind) (v : value) : Prop :=
  match k with
  | KMessage i | KGroup i => v = VMessage (DM i [])
  | KEnum e => exists en d rest, nth_error (t_enums t) e = Some en /\ e_values en = d :: rest
                                 /\ v = VEnum (ev_number d)
  | KDouble => v = VF64 0 | KFloat => v = VF32 0
  | KInt32 | KSint32 | KSfixed32 => v = VI32 0
  | KInt64 | KSint64 | KSfixed64 => v = VI64 0
  | KUint32 | KFixed32 => v = VU32 0
  | KUint64 | KFixed64 => v = VU64 0
  | KBool => v = VBool false
  | KString => v = VString []
  | KBytes => v = VBytes []
  end.
Theorem C17_default t m f :
  wf t -> find_desc t (dm_desc m) (fd_number f) = Some f ->
  (forall v, bt_get (fd_number f) (dm_fields m) <> Some (SVal v)) ->
  let v := get_field_value t m f in
  has_field t m f = false /\
  (if fd_is_list f then v = VList []
   else if fd_is_map f then v = VMap []
   else match fd_default f with Some d => v = d | None => zero_of t (fd_kind f) v end) /\
  is_valid_for t f v = true.
Proof.
  intros Hwf Hf Hu v.
  pose proof (find_desc_ok _ _ _ _ (proj1 Hwf) Hf) as Ho.
  pose proof (find_desc_shape _ _ _ _ Hwf Hf) as Hs.
  assert (E : v = fd_default_value t f).
  { unfold v, get_field_value, fs_get, fs_get_value.
    destruct (bt_get (fd_number f) (dm_fields m)) as [[|w|us]|] eqn:E; try reflexivity.
    exfalso. now apply (Hu w). }
  split; [|split].
  - unfold has_field, fs_has, fs_get_value.
    destruct (bt_get (fd_number f) (dm_fields m)) as [[|w|us]|] eqn:E'; try reflexivity.
    exfalso. now apply (Hu w).
  - rewrite E. unfold fd_default_value. destruct (fd_is_list f); [reflexivity|].
    destruct (fd_is_map f); [reflexivity|]. destruct (fd_default f); [reflexivity|].
    pose proof (fo_kind _ _ Ho) as Hk.
    destruct (fd_kind f); cbn in *; try reflexivity.
    unfold enum_default. destruct (nth_error (t_enums t) i) as [en|]; [|discriminate].
    destruct (e_values en) as [|d r] eqn:Ev; [discriminate|].
    exists en, d, r. auto.
  - rewrite E. now apply default_valid.
Qed.
Print Assumptions C17_default.

Example C17_example :
  find_desc ex 0 11 = Some (ex_f 11) /\
  get_field_value ex (new_msg 0) (ex_f 11) = VEnum 0 /\
  get_field_value ex (new_msg 0) (ex_f 4) = VMap [] /\
  get_field_value ex (new_msg 0) (ex_f 7) = VMessage (DM 0 []).
Proof. repeat split; vm_compute; reflexivity. Qed.
