(** C11 and C16: what holds of every message a history of API calls can reach. *)
From Coq Require Import String.
From Verif Require Import Base BaseProofs Wire Unknown Value Descr Fields Codec DescrOk DescrProofs
  FieldsProofs MergeProofs History ExampleSchema.
Open Scope N_scope.

(** ** C11 *)

(** any value may be passed in and written *)
Definition anything {A B} (_ : A) (_ : B) : Prop := True.
Definition any_write {A B C} (_ : A) (_ : B) (_ : C) : Prop := True.

(** However a message was produced (any calls, any values, failed calls and
    failed merges of arbitrary bytes included), two different members of one
    oneof are never both set. *)
Theorem C11_oneof_exclusive t d m f g nums :
  wf t -> history t anything any_write d m ->
  get_field t d (fd_number f) = Some f -> get_field t d (fd_number g) = Some g ->
  fd_oneof f = Some nums -> In (fd_number g) nums -> fd_number f <> fd_number g ->
  has_field t m f = true -> has_field t m g = false.
Proof.
  intros Hwf H Hf Hg Ho Hin Hne Hh. destruct (history_top t Hwf _ _ _ _ H) as (Hd & _ & Hone).
  unfold has_field, fs_has, fs_get_value in *.
  destruct (bt_get (fd_number f) (dm_fields m)) as [[|v|us]|] eqn:E; try discriminate.
  destruct (bt_get (fd_number g) (dm_fields m)) as [[|w|us]|] eqn:E2; try reflexivity.
  exfalso. apply not_eq_sym in Hne. exact (Hone _ _ _ _ _ w E Hf Ho Hin Hne E2).
Qed.
Print Assumptions C11_oneof_exclusive.

(** The same inside: when the values passed in are themselves well formed,
    every message stored anywhere inside (in fields, lists and maps, to any
    depth) also has at most one value per oneof ([ok_msg] checks
    [oneofs_okb] at every level). *)
Theorem C11_nested t d m :
  wf t -> (d < Datatypes.length (t_messages t))%nat -> history t (vok t) (wok t) d m -> ok_msg t m = true.
Proof. intros Hwf Hd H. exact (history_ok t Hwf d m Hd H). Qed.
Print Assumptions C11_nested.

(** a history that sets x, then y through a get_mut, then merges "x = 9" *)
Definition h1 : dynmsg := with_fields (new_msg 0) (fs_set (ex_f 5) (VU32 3) []).
Definition h2 : dynmsg := field_mut ex h1 (ex_f 6) (fun _ => VString (s2b "q")).
Definition h3 : dynmsg := DM 0 [(5, SVal (VU32 9))].
Example C11_history : history ex anything any_write 0 h3.
Proof.
  apply (h_call _ _ _ _ h2).
  - apply (h_call _ _ _ _ h1).
    + apply (h_call _ _ _ _ (new_msg 0)); [constructor|].
      apply (c_set _ _ _ _ (ex_f 5) (VU32 3) None); [vm_compute; reflexivity|exact I|vm_compute; reflexivity].
    + apply c_mut; [vm_compute; reflexivity|exact I].
  - apply (c_merge _ _ _ _ [40; 9] _ []); [repeat constructor|vm_compute; reflexivity].
Qed.
Example C11_members :
  has_field ex h2 (ex_f 6) = true /\ has_field ex h2 (ex_f 5) = false /\
  has_field ex h3 (ex_f 5) = true /\ has_field ex h3 (ex_f 6) = false /\
  fd_oneof (ex_f 5) = Some [5; 6].
Proof. repeat split; vm_compute; reflexivity. Qed.
(** a failed merge also clears the sibling: y is set, "x" is truncated *)
Example C11_failed_merge :
  msg_merge ex h2 [40] = DErr EVarint (DM 0 [(5, SVal (VU32 0))]) /\
  call ex anything any_write h2 (DM 0 [(5, SVal (VU32 0))]).
Proof.
  assert (E : msg_merge ex h2 [40] = DErr EVarint (DM 0 [(5, SVal (VU32 0))])) by (vm_compute; reflexivity).
  split; [exact E|]. apply (c_merge_failed _ _ _ _ [40] EVarint); [repeat constructor|exact E].
Qed.

(** ** C16 *)

(** Which Rust value variant goes with which protobuf scalar type. *)
Inductive fits_kind : value -> kind -> Prop :=
| fk_bool b : fits_kind (VBool b) KBool
| fk_int32 x : fits_kind (VI32 x) KInt32
| fk_sint32 x : fits_kind (VI32 x) KSint32
| fk_sfixed32 x : fits_kind (VI32 x) KSfixed32
| fk_int64 x : fits_kind (VI64 x) KInt64
| fk_sint64 x : fits_kind (VI64 x) KSint64
| fk_sfixed64 x : fits_kind (VI64 x) KSfixed64
| fk_uint32 x : fits_kind (VU32 x) KUint32
| fk_fixed32 x : fits_kind (VU32 x) KFixed32
| fk_uint64 x : fits_kind (VU64 x) KUint64
| fk_fixed64 x : fits_kind (VU64 x) KFixed64
| fk_float x : fits_kind (VF32 x) KFloat
| fk_double x : fits_kind (VF64 x) KDouble
| fk_string s : fits_kind (VString s) KString
| fk_bytes s : fits_kind (VBytes s) KBytes
| fk_enum x e : fits_kind (VEnum x) (KEnum e)
| fk_message m d : fits_kind (VMessage m) (KMessage d)
| fk_group m d : fits_kind (VMessage m) (KGroup d).

(** What a field accepts: lists of fitting elements for a repeated field, maps
    of fitting keys and values for a map field, or a single fitting value. *)
Inductive fits (t : tables) : fdl -> value -> Prop :=
| fits_list f vs : fd_is_list f = true -> Forall (fun v => fits_kind v (fd_kind f)) vs -> fits t f (VList vs)
| fits_map f e kf vf kvs :
    fd_is_map f = true -> kind_msg (fd_kind f) = Some e ->
    get_field t e 1 = Some kf -> get_field t e 2 = Some vf ->
    Forall (fun kv => fits_kind (mk_value (fst kv)) (fd_kind kf) /\ fits t vf (snd kv)) kvs ->
    fits t f (VMap kvs)
| fits_one f v : fits_kind v (fd_kind f) -> fits t f v.

Lemma fits_kind_ok v k : fits_kind v k <-> is_valid v k = true.
Proof.
  split.
  - intros []; reflexivity.
  - destruct v; destruct k; cbn; try discriminate; intros _; constructor.
Qed.
Lemma fits_key_ok key k : fits_kind (mk_value key) k <-> mk_valid key k = true.
Proof.
  rewrite fits_kind_ok. destruct key; destruct k; cbn; split; congruence.
Qed.

Fixpoint fits_ok t f v {struct v} : fits t f v <-> is_valid_for t f v = true.
Proof.
  destruct v as [| | | | | | | | | | |vs|kvs];
    try (cbn [is_valid_for]; rewrite <- fits_kind_ok; split; [inversion 1; subst; assumption|apply fits_one]).
  - cbn [is_valid_for]. split.
    + inversion 1; subst.
      * rewrite H1. apply forallb_forall. intros x Hx. apply fits_kind_ok.
        revert x Hx. apply Forall_forall. exact H3.
      * inversion H0.
    + destruct (fd_is_list f) eqn:E.
      * intros H. apply fits_list; [exact E|]. apply Forall_forall. intros x Hx. apply fits_kind_ok.
        rewrite forallb_forall in H. exact (H x Hx).
      * intros H. apply fits_one, fits_kind_ok, H.
  - assert (IH : forall vf kf,
      Forall (fun kv => fits_kind (mk_value (fst kv)) (fd_kind kf) /\ fits t vf (snd kv)) kvs <->
      forallb (fun kv => mk_valid (fst kv) (fd_kind kf) && is_valid_for t vf (snd kv)) kvs = true).
    { intros vf kf. induction kvs as [|[k v] r IHr]; cbn [forallb fst snd].
      - split; [reflexivity|constructor].
      - rewrite !andb_true_iff. split.
        + inversion 1; subst. destruct H2 as [Ha Hb]. cbn [fst snd] in *.
          split; [split; [apply fits_key_ok, Ha|apply (fits_ok t vf v), Hb]|apply IHr, H3].
        + intros [[Ha Hb] Hc]. constructor; [split; [apply fits_key_ok, Ha|apply (fits_ok t vf v), Hb]|apply IHr, Hc]. }
    cbn [is_valid_for]. unfold entry_key, entry_value, MAP_KEY_NUMBER, MAP_VALUE_NUMBER. split.
    + inversion 1; subst.
      * rewrite H2, H1, H3, H4. apply IH. exact H6.
      * inversion H0.
    + destruct (kind_msg (fd_kind f)) as [e|] eqn:Ek.
      * destruct (fd_is_map f) eqn:Em.
        -- destruct (get_field t e 1) as [kf|] eqn:E1; [|discriminate].
           destruct (get_field t e 2) as [vf|] eqn:E2; [|discriminate].
           intros H. eapply fits_map; [exact Em|exact Ek|exact E1|exact E2|]. apply IH, H.
        -- intros H. apply fits_one, fits_kind_ok, H.
      * intros H. apply fits_one, fits_kind_ok, H.
Qed.

(** try_set_field succeeds exactly when the value fits, and then stores
    exactly that value; otherwise the error names the field and the value and
    the message is unchanged. *)
Theorem C16_try_set t m f v :
  (fits t f v ->
     exists m', try_set_field t m f v = (None, m') /\ get_field_value t m' f = v) /\
  (~ fits t f v -> try_set_field t m f v = (Some (InvalidType f v), m)).
Proof.
  rewrite fits_ok. split.
  - intros H. assert (exists m', try_set_field t m f v = (None, m')) as [m' E].
    { unfold try_set_field. rewrite H. eexists; reflexivity. }
    exists m'. split; [exact E|]. exact (proj1 (set_laws t m f v m' E)).
  - intros H. unfold try_set_field. destruct (is_valid_for t f v); [destruct (H eq_refl)|reflexivity].
Qed.
Print Assumptions C16_try_set.

(** the same through the number and name entry points; an unknown number or
    name is the NotFound error, again without effect *)
Theorem C16_try_set_by_number t m n v e m' :
  try_set_field_by_number t m n v = (e, m') ->
  match get_field t (dm_desc m) n with
  | None => e = Some NotFound /\ m' = m
  | Some f => (e = None /\ fits t f v /\ get_field_value t m' f = v)
              \/ (e = Some (InvalidType f v) /\ ~ fits t f v /\ m' = m)
  end.
Proof.
  unfold try_set_field_by_number. destruct (get_field t (dm_desc m) n) as [f|].
  - intros E. rewrite fits_ok. destruct (is_valid_for t f v) eqn:Ev.
    + left. assert (e = None) as -> by (unfold try_set_field in E; rewrite Ev in E; congruence).
      split; [reflexivity|]. split; [reflexivity|]. exact (proj1 (set_laws t m f v m' E)).
    + right. unfold try_set_field in E. rewrite Ev in E. injection E as <- <-. repeat split; discriminate.
  - intros [= <- <-]. split; reflexivity.
Qed.
Print Assumptions C16_try_set_by_number.
Theorem C16_try_set_by_name t m s v e m' :
  try_set_field_by_name t m s v = (e, m') ->
  match get_field_by_name t (dm_desc m) s with
  | None => e = Some NotFound /\ m' = m
  | Some f => (e = None /\ fits t f v /\ get_field_value t m' f = v)
              \/ (e = Some (InvalidType f v) /\ ~ fits t f v /\ m' = m)
  end.
Proof.
  unfold try_set_field_by_name. destruct (get_field_by_name t (dm_desc m) s) as [f|].
  - intros E. rewrite fits_ok. destruct (is_valid_for t f v) eqn:Ev.
    + left. assert (e = None) as -> by (unfold try_set_field in E; rewrite Ev in E; congruence).
      split; [reflexivity|]. split; [reflexivity|]. exact (proj1 (set_laws t m f v m' E)).
    + right. unfold try_set_field in E. rewrite Ev in E. injection E as <- <-. repeat split; discriminate.
  - intros [= <- <-]. split; reflexivity.
Qed.
Print Assumptions C16_try_set_by_name.

(** set_field panics exactly when try_set_field errs *)
Theorem C16_set_panics t m f v : set_field t m f v = None <-> ~ fits t f v.
Proof.
  rewrite fits_ok. unfold set_field, try_set_field. destruct (is_valid_for t f v); split; try congruence.
Qed.
Print Assumptions C16_set_panics.

Lemma ok_elem_valid t v k : ok_elem t v k = true -> is_valid v k = true.
Proof.
  destruct v; try apply (sc_okb_valid k); try (cbn; discriminate).
  rewrite ok_elem_msg. destruct k; cbn; congruence.
Qed.
Lemma elem_valid_for t f v : ok_elem t v (fd_kind f) = true -> is_valid_for t f v = true.
Proof.
  intros H. pose proof (ok_elem_valid _ _ _ H). pose proof (ok_elem_plain _ _ _ H).
  destruct v; cbn [is_valid_for plain] in *; congruence.
Qed.
Lemma ok_field_valid t f v : ok_field t f v = true -> is_valid_for t f v = true.
Proof.
  destruct v as [| | | | | | | | | | |vs|kvs];
    try (cbn [ok_field]; rewrite !andb_true_iff; intros [_ H]; exact (elem_valid_for _ _ _ H)).
  - cbn [ok_field is_valid_for]. destruct (fd_is_list f); [|discriminate]. cbn [andb].
    rewrite !forallb_forall. intros H x Hx. exact (ok_elem_valid _ _ _ (H x Hx)).
  - cbn [ok_field is_valid_for]. destruct (kind_msg (fd_kind f)); [|discriminate].
    destruct (fd_is_map f); [|discriminate]. destruct (entry_key t n); [|discriminate].
    destruct (entry_value t n); [|discriminate]. rewrite andb_true_iff, !forallb_forall.
    intros [_ H] x Hx. specialize (H x Hx). apply andb_true_iff in H. destruct H as [Ha Hb].
    apply andb_true_iff. split; [|exact (elem_valid_for _ _ _ Hb)].
    apply fits_key_ok, fits_kind_ok. rewrite mk_value_ok in Ha. exact (sc_okb_valid _ _ Ha).
Qed.

(** The reading of "fit" a user would expect: a list for a repeated field, a
    map for a map field, a single value for any other field, and a message of
    the field's own type ([ok_field], DescrOk.v).  As long as the caller passes
    in and writes only such values, every stored value fits: [ok_msg] says so
    for every stored value, to any depth, and merging arbitrary bytes, failed
    merges included, keeps it so. *)
Theorem C16_reachable_fit t d m f v :
  wf t -> (d < Datatypes.length (t_messages t))%nat -> history t (vok t) (wok t) d m ->
  find_desc t d (fd_number f) = Some f -> bt_get (fd_number f) (dm_fields m) = Some (SVal v) ->
  fits t f v /\
  (fd_is_list f = true <-> exists vs, v = VList vs) /\
  (fd_is_map f = true <-> exists kvs, v = VMap kvs) /\
  (forall m', v = VMessage m' -> kind_msg (fd_kind f) = Some (dm_desc m') /\ ok_msg t m' = true).
Proof.
  intros Hwf Hd H Hf Hv. pose proof (history_ok t Hwf d m Hd H) as Hok.
  destruct (history_top t Hwf _ _ _ _ H) as (Hdm & _).
  apply ok_msg_iff in Hok. pose proof (mo_slots _ _ Hok _ _ Hv) as Hs. unfold ok_slot in Hs. cbn [fst snd] in Hs.
  rewrite Hdm, Hf in Hs. split; [apply fits_ok, ok_field_valid, Hs|]. clear Hv.
  assert (Hml : fd_is_map f = true -> fd_is_list f = false) by (unfold fd_is_list; intros ->; apply andb_false_r).
  split; [|split].
  - split.
    + intros Hl. destruct v; cbn [ok_field] in Hs; rewrite ?Hl in Hs; cbn in Hs; try discriminate; eauto.
      destruct (fd_is_map f) eqn:Em; [rewrite (Hml eq_refl) in Hl; discriminate|].
      destruct (kind_msg (fd_kind f)); discriminate.
    + intros [vs ->]. cbn [ok_field] in Hs. now apply andb_true_iff in Hs.
  - split.
    + intros Hl. destruct v; cbn [ok_field] in Hs; rewrite ?Hl, ?andb_false_r in Hs; cbn in Hs; try discriminate; eauto.
      rewrite (Hml Hl) in Hs. discriminate.
    + intros [kvs ->]. cbn [ok_field] in Hs. destruct (kind_msg (fd_kind f)); [|discriminate].
      destruct (fd_is_map f); congruence.
  - intros m' ->. cbn [ok_field] in Hs. apply andb_true_iff in Hs. destruct Hs as [_ Hs].
    rewrite ok_elem_msg in Hs. destruct (kind_msg (fd_kind f)); [|discriminate].
    apply andb_true_iff in Hs. destruct Hs as [H1 H2]. apply Nat.eqb_eq in H1. subst. split; [reflexivity|exact H2].
Qed.
Print Assumptions C16_reachable_fit.

(** a well-typed history: set p, overwrite it through a reference, then merge
    bytes that fail half way *)
Definition w1 : dynmsg := with_fields (new_msg 0) (fs_set (ex_f 3) (VList [VI32 1]) []).
Definition w2 : dynmsg := field_mut ex w1 (ex_f 3) (fun _ => VList [VI32 4; VI32 5]).
Example C16_history :
  history ex (vok ex) (wok ex) 0 (DM 0 [(1, SVal (VI32 7)); (3, SVal (VList [VI32 4; VI32 5; VI32 (-1)]))]).
Proof.
  apply (h_call _ _ _ _ w2).
  - apply (h_call _ _ _ _ w1).
    + apply (h_call _ _ _ _ (new_msg 0)); [constructor|].
      apply (c_set _ _ _ _ (ex_f 3) (VList [VI32 1]) None); [vm_compute; reflexivity|vm_compute; reflexivity|vm_compute; reflexivity].
    + apply c_mut; [vm_compute; reflexivity|intros _; vm_compute; reflexivity].
  - apply (c_merge_failed _ _ _ _ [8; 7; 26; 2; 1; 128] EVarint); [repeat constructor|vm_compute; reflexivity].
Qed.
(** a rejected value *)
Example C16_rejected :
  ~ fits ex (ex_f 1) (VString []) /\
  try_set_field ex ex_m (ex_f 1) (VString []) = (Some (InvalidType (ex_f 1) (VString [])), ex_m) /\
  fits ex (ex_f 4) (VMap [(MKString [], VMessage ex_m)]).
Proof.
  split; [|split].
  - rewrite fits_ok. vm_compute. discriminate.
  - vm_compute. reflexivity.
  - apply fits_ok. vm_compute. reflexivity.
Qed.

(** ** What does not hold of the code *)

(** The check ignores the cardinality: a repeated field accepts a single
    scalar, a map field accepts a single message (dynamic/mod.rs:639-650). *)
Theorem C16_repeated_accepts_scalar_refuted :
  exists t f v m', wf t /\ find_desc t 0 (fd_number f) = Some f /\ fd_is_list f = true /\
    (forall vs, v <> VList vs) /\ try_set_field t (new_msg 0) f v = (None, m').
Proof.
  exists ex, (ex_f 3), (VI32 5). eexists. split; [exact ex_wf|]. split; [vm_compute; reflexivity|].
  split; [vm_compute; reflexivity|]. split; [discriminate|]. vm_compute. reflexivity.
Qed.
Print Assumptions C16_repeated_accepts_scalar_refuted.

(** The check ignores which message type is wanted (dynamic/mod.rs:688). *)
Theorem C16_message_type_unchecked_refuted :
  exists t f m0 m', wf t /\ find_desc t 0 (fd_number f) = Some f /\ fd_kind f = KMessage 0 /\
    dm_desc m0 <> 0%nat /\ try_set_field t (new_msg 0) f (VMessage m0) = (None, m').
Proof.
  exists ex, (ex_f 7), (new_msg 2). eexists. split; [exact ex_wf|]. split; [vm_compute; reflexivity|].
  split; [vm_compute; reflexivity|]. split; [discriminate|]. vm_compute. reflexivity.
Qed.
Print Assumptions C16_message_type_unchecked_refuted.

(** A value of the wrong type can be written through get_field_mut, so without
    the discipline of [wok] a reachable message may store a non-fitting value. *)
Theorem C16_get_mut_unchecked_refuted :
  exists t m f v, wf t /\ history t anything any_write 0 m /\
    find_desc t 0 (fd_number f) = Some f /\
    bt_get (fd_number f) (dm_fields m) = Some (SVal v) /\ ~ fits t f v.
Proof.
  exists ex, (field_mut ex (new_msg 0) (ex_f 1) (fun _ => VString [])), (ex_f 1), (VString []).
  split; [exact ex_wf|]. split; [|split; [vm_compute; reflexivity|split; [vm_compute; reflexivity|]]].
  - eapply h_call; [apply h_new|]. apply c_mut; [vm_compute; reflexivity|exact I].
  - rewrite fits_ok. vm_compute. discriminate.
Qed.
Print Assumptions C16_get_mut_unchecked_refuted.
