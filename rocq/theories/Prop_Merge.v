(** C06-C10, C12, C19: what decoding records does to a message. *)
From Verif Require Import Base BaseProofs Wire WireProofs LoopProofs Unknown UnknownProofs Value Descr
  Fields Codec DescrOk DescrProofs FieldsProofs LenProofs MergeProofs DepthProofs ExtendProofs RestrictProofs
  RecordProofs MergeRules UnkMerge RoundSpec RoundProofs RoundMain RoundSame EntryProofs EntryAny PresenceProofs
  ExampleSchema.
Open Scope N_scope.

(** ** C07 *)

(** After a successful merge of [a], merging [b] gives exactly what merging
    the concatenation gives: the same message and rest, or the same error
    (with the same partially merged message). *)
Theorem C07_concatenation_is_merging t m a b m1 r :
  wf t -> ok_msg t m = true -> bytes_ok a -> bytes_ok b ->
  msg_merge t m a = DOk m1 r ->
  msg_merge t m (a ++ b) = msg_merge t m1 b.
Proof.
  intros Hwf Hm Ha Hb H. rewrite (merge_at_100 t m a Hwf Hm Ha) in H.
  destruct (merge_at_ok t Hwf 100 m a m1 r (Nat.le_refl _) Hm Ha H) as [Hm1 _].
  rewrite (merge_at_100 t m (a ++ b) Hwf Hm (proj2 (bytes_ok_app a b) (conj Ha Hb))).
  rewrite (merge_at_100 t m1 b Hwf Hm1 Hb). eapply merge_at_concat; exact H.
Qed.
Print Assumptions C07_concatenation_is_merging.

Theorem C07_decode_concatenation t d a b m1 :
  wf t -> (d < length (t_messages t))%nat -> bytes_ok a -> bytes_ok b -> msg_decode t d a = Ok m1 ->
  msg_decode t d (a ++ b) =
    match msg_merge t m1 b with DOk m _ => Ok m | DErr e _ => Err e | DPanic => Panic | DFuel => Fuel end.
Proof.
  intros Hwf Hd Ha Hb H. unfold msg_decode in *.
  destruct (msg_merge t (new_msg d) a) as [m r|? ?| |] eqn:E; try discriminate H. injection H as ->.
  rewrite (C07_concatenation_is_merging t (new_msg d) a b m1 r Hwf); auto.
  apply ok_msg_iff, new_msg_ok, Hd.
Qed.
Print Assumptions C07_decode_concatenation.

Example C07_example :
  exists m1, msg_decode ex 0 [8; 5; 40; 1] = Ok m1 /\
    msg_decode ex 0 ([8; 5; 40; 1] ++ [50; 1; 97]) = Ok (DM 0 [(1, SVal (VI32 5)); (6, SVal (VString [97]))]).
Proof. eexists. split; [vm_compute; reflexivity|]. vm_compute; reflexivity. Qed.

Lemma eats_merge t m b m' :
  wf t -> ok_msg t m = true -> bytes_ok b -> eats (merge_field 100 t) m b m' -> msg_merge t m b = DOk m' [].
Proof.
  intros Hwf Hm Hb He. rewrite (merge_at_100 t m b Hwf Hm Hb). unfold merge_at.
  exact (stream_loop_eats (merge_field 100 t) m b m' He (length b) (Nat.le_refl _)).
Qed.
Lemma one_record_merge t m n w p m' :
  wf t -> ok_msg t m = true -> tag_ok n -> bytes_ok p ->
  merge_field 100 t m n w p = DOk m' [] -> msg_merge t m (encode_key n w ++ p) = DOk m' [].
Proof.
  intros Hwf Hm Hn Hp H. rewrite (merge_at_100 t m _ Hwf Hm).
  - eapply merge_at_record; [apply decode_encode_key; exact Hn|exact H].
  - apply bytes_ok_app. split; [apply encode_key_ok|exact Hp].
Qed.
Lemma tag_of t d n f : wf t -> find_desc t d n = Some f -> tag_ok n.
Proof.
  intros Hwf Hf. rewrite <- (find_desc_number _ _ _ _ (proj1 Hwf) Hf). apply (fo_tag t).
  eapply find_desc_ok; [apply Hwf|exact Hf].
Qed.

(** ** C06 *)

(** [records t ctx m cs m']: the byte strings [cs] are complete records which,
    merged one after the other, take [m] to [m'].  [ctx] is the remaining
    nesting budget: 100 for a top-level message. *)
Inductive records (t : tables) (ctx : nat) : dynmsg -> list bytes -> dynmsg -> Prop :=
| records_nil m : records t ctx m [] m
| records_cons m c n w p m1 cs m2 :
    decode_key c = Ok (n, w, p) -> merge_field ctx t m n w p = DOk m1 [] -> records t ctx m1 cs m2 ->
    records t ctx m (c :: cs) m2.
Lemma records_runs t ctx m cs m' : records t ctx m cs m' <-> runs (merge_field ctx t) m cs m'.
Proof.
  split; intros H; induction H.
  - constructor.
  - exact (runs_cons _ _ _ _ _ _ _ _ _ H H0 IHrecords).
  - constructor.
  - exact (records_cons _ _ _ _ _ _ _ _ _ _ H H0 IHruns).
Qed.

(** Every successful merge splits the input into records. *)
Theorem C06_merge_is_records t m b m' r :
  wf t -> ok_msg t m = true -> bytes_ok b ->
  (msg_merge t m b = DOk m' r <-> r = [] /\ exists cs, b = concat cs /\ records t 100 m cs m').
Proof.
  intros Hwf Hm Hb. rewrite (merge_at_100 t m b Hwf Hm Hb), merge_at_runs.
  split; intros (Hr & cs & E & H); (split; [exact Hr|]); exists cs; (split; [exact E|]); apply records_runs; exact H.
Qed.
Print Assumptions C06_merge_is_records.

(** the records of [cs] which carry number [n], parsed without a schema *)
Definition raw_records (n : N) (cs : list bytes) : list (res (ufield * bytes)) :=
  flat_map (fun c => match decode_key c with
    | Ok (n', _, _) => if n' =? n then [uf_decode 100 c] else []
    | _ => [] end) cs.

Lemma raw_at ctx t d n cs :
  find_desc t d n = None ->
  (forall c n w p, In c cs -> decode_key c = Ok (n, w, p) -> find_desc t d n = None ->
     exists u, uf_decode ctx c = Ok (u, []) /\ uf_number u = n) ->
  flat_map (fun c => match decode_key c with
    | Ok (n', _, _) => if n' =? n then [uf_decode ctx c] else []
    | _ => [] end) cs = map (fun u => Ok (u, [])) (with_number n (unknown_records t d ctx cs)).
Proof.
  intros Hn. unfold unknown_records, with_number. induction cs as [|c cs IH]; intros H; [reflexivity|].
  cbn [flat_map]. rewrite filter_app, map_app. rewrite IH by (intros c' ? ? ? Hin; apply H; right; exact Hin). f_equal.
  destruct (decode_key c) as [[[n' w] p]| | |] eqn:E; try reflexivity.
  destruct (n' =? n) eqn:En.
  - apply N.eqb_eq in En. subst n'. rewrite Hn. destruct (H c n w p (or_introl eq_refl) E Hn) as (u & Hu & Eu).
    rewrite Hu. cbn [filter]. rewrite Eu, N.eqb_refl. reflexivity.
  - destruct (find_desc t d n') eqn:Ed; [reflexivity|].
    destruct (H c n' w p (or_introl eq_refl) E Ed) as (u & Hu & Eu). rewrite Hu. cbn [filter]. rewrite Eu, En. reflexivity.
Qed.

(** For every number that is neither a field nor an extension, unknown_fields()
    after the merge holds what it held before followed by exactly the records
    with that number, in input order; each was parsed completely. *)
Theorem C06_unknown_fields_kept t m cs m' :
  wf t -> ok_msg t m = true -> bytes_ok (concat cs) -> records t 100 m cs m' ->
  forall n, find_desc t (dm_desc m) n = None ->
    map (fun u => Ok (u, [])) (with_number n (msg_unknown_fields m')) =
    map (fun u => Ok (u, [])) (with_number n (msg_unknown_fields m)) ++ raw_records n cs.
Proof.
  intros Hwf Hm Hb R n Hn. apply records_runs in R.
  destruct (runs_unknown t Hwf 100 m cs m' (Nat.le_refl _) R Hm Hb) as (_ & Hm' & Hall & Hu).
  rewrite (unknown_with_number t m' n Hm'), (unknown_with_number t m n Hm), Hu, map_app. f_equal.
  symmetry. apply (raw_at 100 t (dm_desc m)); assumption.
Qed.
Print Assumptions C06_unknown_fields_kept.

(** ... and nothing else: a number that is a field or an extension never shows
    up there, and numbers are listed in increasing order. *)
Theorem C06_only_unknown_numbers t m u :
  wf t -> ok_msg t m = true -> In u (msg_unknown_fields m) -> find_desc t (dm_desc m) (uf_number u) = None.
Proof.
  intros Hwf Hm Hin. destruct (find_desc t (dm_desc m) (uf_number u)) as [f|] eqn:Hf; [|reflexivity]. exfalso.
  pose proof (known_not_unk t m _ f Hm Hf) as E.
  rewrite <- (unknown_with_number t m (uf_number u) Hm) in E.
  assert (In u (with_number (uf_number u) (msg_unknown_fields m))) as Hu.
  { apply filter_In. split; [exact Hin|apply N.eqb_refl]. }
  rewrite E in Hu. contradiction.
Qed.
Print Assumptions C06_only_unknown_numbers.
Theorem C06_listed_by_number t m i j u v :
  wf t -> ok_msg t m = true -> (i < j)%nat ->
  nth_error (msg_unknown_fields m) i = Some u -> nth_error (msg_unknown_fields m) j = Some v ->
  uf_number u <= uf_number v.
Proof.
  intros Hwf Hm. apply unknown_sorted; [apply (mo_sorted t), ok_msg_iff, Hm|].
  intros k us x. apply (ok_unk_numbers t m k us x Hm).
Qed.
Print Assumptions C06_listed_by_number.

(** The same inside a sub-message, at any nesting depth. *)
Theorem C06_nested_unknown_fields_kept t ctx m n w p f i sub m' :
  wf t -> (S ctx <= 100)%nat -> ok_msg t m = true -> bytes_ok p -> find_desc t (dm_desc m) n = Some f ->
  fd_kind f = KMessage i -> fd_is_list f = false -> fd_is_map f = false ->
  get_field_value t m f = VMessage sub -> merge_field (S ctx) t m n w p = DOk m' [] ->
  exists body cs sub', read_delimited p = Ok (body, []) /\ body = concat cs /\
    get_field_value t m' f = VMessage sub' /\ records t ctx sub cs sub' /\
    forall k, find_desc t i k = None ->
      map (fun u => Ok (u, [])) (with_number k (msg_unknown_fields sub')) =
      map (fun u => Ok (u, [])) (with_number k (msg_unknown_fields sub)) ++
      flat_map (fun c => match decode_key c with
        | Ok (k', _, _) => if k' =? k then [uf_decode ctx c] else []
        | _ => [] end) cs.
Proof.
  intros Hwf Hc Hm Hb Hf Hk HL HM Hg H.
  pose proof (stored_value t Hwf m n f Hm Hf) as Hok. rewrite Hg in Hok.
  destruct (message_value t f (VMessage sub) i) as (s0 & E0 & Ed & Hsub); auto; [rewrite Hk; reflexivity|].
  injection E0 as <-.
  assert (exists sub', get_field_value t m' f = VMessage sub') as [sub' Hg'].
  { destruct (merge_field_ok t Hwf (S ctx) m n w p m' [] Hc Hm) as [Hm' Hd']; auto.
    - eapply tag_of; eassumption.
    - assert (Hf' : find_desc t (dm_desc m') n = Some f) by (rewrite Hd'; exact Hf).
      destruct (message_value t f (get_field_value t m' f) i) as (s & -> & _); eauto; [rewrite Hk; reflexivity|].
      eapply stored_value; eassumption. }
  pose proof (proj1 (message_rule t Hwf ctx m n w p f i sub Hc Hm Hb Hf Hk HL HM Hg sub')
                (ex_intro _ m' (conj H Hg'))) as (_ & s & Hrd & Hma).
  pose proof (proj1 (merge_at_runs t ctx sub s sub' []) Hma) as (_ & cs & -> & R).
  assert (Hbs : bytes_ok (concat cs)) by (eapply read_delimited_ok; eassumption).
  exists (concat cs), cs, sub'. split; [exact Hrd|]. split; [reflexivity|]. split; [exact Hg'|].
  split; [apply records_runs; exact R|]. intros k Hkn.
  destruct (runs_unknown t Hwf ctx sub cs sub' ltac:(lia) R Hsub Hbs) as (_ & Hm'' & Hall & Hu).
  rewrite (unknown_with_number t sub' k Hm''), (unknown_with_number t sub k Hsub), Hu, map_app. f_equal.
  symmetry. rewrite Ed in *. apply (raw_at ctx t i); assumption.
Qed.
Print Assumptions C06_nested_unknown_fields_kept.

(** Re-encoding writes them back: the bytes are a sequence of records [us] in
    which the records with an unknown number are those of unknown_fields(), in
    order; and decoding those bytes gives the same unknown_fields(). *)
Theorem C06_re_encoded t m b :
  wf t -> ok_msg t m = true -> enc_msg t m = Ok b -> N.of_nat (length b) < 2 ^ 64 ->
  (exists us, b = ufs_encode us /\ Forall uf_ok us /\
     forall n, find_desc t (dm_desc m) n = None -> with_number n us = with_number n (msg_unknown_fields m)) /\
  ((msg_depth m <= 100)%nat ->
     exists m', msg_decode t (dm_desc m) b = Ok m' /\ msg_unknown_fields m' = msg_unknown_fields m).
Proof.
  intros Hwf Hm He HL. split.
  - destruct (enc_msg_records t Hwf m b Hm He HL) as (us & -> & Hus & _ & Hu). exists us. auto.
  - intros Hd. exists (norm_msg t m). split; [apply decode_encode_norm; assumption|apply flat_unknown].
Qed.
Print Assumptions C06_re_encoded.

Example C06_example :
  let b := [144; 3; 7; 8; 5; 147; 3; 8; 1; 148; 3; 152; 3; 1] in
  exists m, msg_decode ex 0 b = Ok m /\
    msg_unknown_fields m = [UVarint 50 7; UGroup 50 [UVarint 1 1]; UVarint 51 1] /\
    enc_msg ex m = Ok [8; 5; 144; 3; 7; 147; 3; 8; 1; 148; 3; 152; 3; 1].
Proof. eexists. split; [vm_compute; reflexivity|]. split; vm_compute; reflexivity. Qed.

(** ** C08: one more record for a field *)

(** a scalar: the new value depends only on the record (last one wins) *)
Theorem C08_scalar_replaced t m0 m n w p f m' :
  wf t -> ok_msg t m = true -> ok_msg t m0 = true -> dm_desc m0 = dm_desc m ->
  find_desc t (dm_desc m) n = Some f -> is_msg_kind (fd_kind f) = false -> fd_is_list f = false ->
  merge_field 100 t m n w p = DOk m' [] ->
  exists m0', merge_field 100 t m0 n w p = DOk m0' [] /\ get_field_value t m0' f = get_field_value t m' f.
Proof.
  intros Hwf Hm Hm0 Hd Hf Hk HL H. exact (scalar_rule t Hwf 100 m n w p f m' Hm Hf Hk HL H m0 Hm0 Hd).
Qed.
Print Assumptions C08_scalar_replaced.

(** ... namely the value that was encoded *)
Theorem C08_scalar_value t m n f v w bs :
  wf t -> ok_msg t m = true -> find_desc t (dm_desc m) n = Some f ->
  is_msg_kind (fd_kind f) = false -> fd_is_list f = false ->
  sc_okb (fd_kind f) v = true -> enc_scalar (fd_kind f) v = Some (w, bs) -> N.of_nat (length bs) < 2 ^ 64 ->
  exists m', msg_merge t m (encode_key n w ++ bs) = DOk m' [] /\ get_field_value t m' f = v /\ untouched t f m m'.
Proof.
  intros Hwf Hm Hf Hk HL Hv He Hlen. pose proof (tag_of _ _ _ _ Hwf Hf) as Hn.
  assert (H : merge_field 100 t m n w bs = DOk (with_fields m (fs_put f v (fs_get_mut t f (dm_fields m)))) []).
  { unfold merge_field, merge_msg_field. rewrite Hf. unfold merge_into. rewrite get_mut_get_self.
    fold (get_field_value t m f).
    pose proof (scalar_value t f _ Hk HL (stored_value t Hwf m n f Hm Hf)) as Hs.
    pose proof (scalar_merge t 201 100 f _ w bs Hs) as E. change (S 201) with 202%nat in E. rewrite E. clear E.
    destruct (scalar_round _ _ _ _ _ [] Hv Hs He Hlen) as [_ E]. rewrite app_nil_r in E. rewrite E. reflexivity. }
  eexists. split; [|split].
  - exact (one_record_merge t m n w bs _ Hwf Hm Hn (enc_scalar_bytes_ok _ _ _ _ Hv He) H).
  - unfold get_field_value, fs_get, fs_get_value. cbn [dm_fields with_fields]. unfold fs_put.
    rewrite bt_get_set_same. reflexivity.
  - exact (proj1 (record_frame t 100 m n w bs f _ Hf H)).
Qed.
Print Assumptions C08_scalar_value.

(** a list: elements are appended, and depend only on the record *)
Theorem C08_list_appended t m n w p f m' :
  wf t -> ok_msg t m = true -> find_desc t (dm_desc m) n = Some f -> fd_is_list f = true ->
  merge_field 100 t m n w p = DOk m' [] ->
  exists xs, forall m0 old, ok_msg t m0 = true -> dm_desc m0 = dm_desc m -> get_field_value t m0 f = VList old ->
    exists m0', merge_field 100 t m0 n w p = DOk m0' [] /\ get_field_value t m0' f = VList (old ++ xs).
Proof. intros Hwf Hm Hf HL H. exact (list_rule t Hwf 100 m n w p f m' Hm Hf HL H). Qed.
Print Assumptions C08_list_appended.

(** a map: one entry is added or replaced, and depends only on the record *)
Theorem C08_map_entry t m n w p f m' :
  wf t -> ok_msg t m = true -> find_desc t (dm_desc m) n = Some f -> fd_is_map f = true ->
  merge_field 100 t m n w p = DOk m' [] ->
  exists k v, forall m0 old, ok_msg t m0 = true -> dm_desc m0 = dm_desc m -> get_field_value t m0 f = VMap old ->
    exists m0' new, merge_field 100 t m0 n w p = DOk m0' [] /\ get_field_value t m0' f = VMap new /\
      forall k', map_get k' new = if mk_eqb k' k then Some v else map_get k' old.
Proof. intros Hwf Hm Hf HL H. exact (map_rule t Hwf 100 m n w p f m' Hm Hf HL H). Qed.
Print Assumptions C08_map_entry.

(** a singular message: the payload is merged into the present value
    ([merge_at ctx] is merging with [ctx] nesting levels left; [merge_at 100]
    is [msg_merge]) *)
Theorem C08_message_merged t ctx m n w p f i sub sub' :
  wf t -> (S ctx <= 100)%nat -> ok_msg t m = true -> bytes_ok p -> find_desc t (dm_desc m) n = Some f ->
  fd_kind f = KMessage i -> fd_is_list f = false -> fd_is_map f = false ->
  get_field_value t m f = VMessage sub ->
  (exists m', merge_field (S ctx) t m n w p = DOk m' [] /\ get_field_value t m' f = VMessage sub') <->
  (w = WLen /\ exists s, read_delimited p = Ok (s, []) /\ merge_at ctx t sub s = DOk sub' []).
Proof. intros Hwf H1 H2 H3 H4 H5 H6 H7 H8. exact (message_rule t Hwf ctx m n w p f i sub H1 H2 H3 H4 H5 H6 H7 H8 sub'). Qed.
Print Assumptions C08_message_merged.
Theorem C08_merge_at_top t m b :
  wf t -> ok_msg t m = true -> bytes_ok b -> merge_at 100 t m b = msg_merge t m b.
Proof. intros. symmetry. apply merge_at_100; assumption. Qed.
Print Assumptions C08_merge_at_top.

(** a group: its records are merged into the present value *)
Theorem C08_group_merged t ctx m n w p f i sub sub' :
  wf t -> (S ctx <= 100)%nat -> ok_msg t m = true -> bytes_ok p -> find_desc t (dm_desc m) n = Some f ->
  fd_kind f = KGroup i -> fd_is_list f = false -> fd_is_map f = false ->
  get_field_value t m f = VMessage sub ->
  (exists m', merge_field (S ctx) t m n w p = DOk m' [] /\ get_field_value t m' f = VMessage sub') <->
  (w = WStart /\ exists cs e, p = concat cs ++ e /\ decode_key e = Ok (n, WEnd, []) /\
     Forall (key_is (fun _ w => w <> WEnd)) cs /\ records t ctx sub cs sub').
Proof.
  intros Hwf Hc Hm Hb Hf Hk HL HM Hg. rewrite (group_rule t Hwf ctx m n w p f i sub Hc Hm Hb Hf Hk HL HM Hg sub').
  split; intros (Hw & cs & e & Hp & He & Ha & H); (split; [exact Hw|]).
  - exists cs, e. do 3 (split; [assumption|]). apply records_runs, H.
  - exists cs, e. do 3 (split; [assumption|]). apply records_runs, H.
Qed.
Print Assumptions C08_group_merged.

(** everything else stays, except that the other members of the field's oneof
    are cleared *)
Theorem C08_others_untouched t m n w p f m' :
  wf t -> find_desc t (dm_desc m) n = Some f -> merge_field 100 t m n w p = DOk m' [] ->
  untouched t f m m' /\ (forall g, sibling f (fd_number g) -> has_field t m' g = false).
Proof. intros Hwf Hf H. exact (record_frame t 100 m n w p f m' Hf H). Qed.
Print Assumptions C08_others_untouched.

Example C08_example :
  (* a = 1, child { a = 1 }, p += [1], then a = 2, child { s = "x" }, p += [-1; 1] *)
  exists m, msg_decode ex 0 ([8; 1; 58; 2; 8; 1; 24; 2] ++ [8; 2; 58; 3; 18; 1; 120; 26; 2; 1; 2]) = Ok m /\
    m = DM 0 [(1, SVal (VI32 2)); (3, SVal (VList [VI32 1; VI32 (-1); VI32 1]));
              (7, SVal (VMessage (DM 0 [(1, SVal (VI32 1)); (2, SVal (VString [120]))])))].
Proof. eexists. split; [vm_compute; reflexivity|]. vm_compute; reflexivity. Qed.

(** ** C09 *)

(** Elements arriving in any mixture of packed and single records are appended
    in order; the descriptor's packed flag plays no role. *)
Theorem C09_packed_unpacked t m n f cs old :
  wf t -> ok_msg t m = true -> find_desc t (dm_desc m) n = Some f ->
  fd_is_list f = true -> is_packable (fd_kind f) = true -> get_field_value t m f = VList old ->
  (forall x, In x (flat_map chunk_elems cs) -> sc_okb (fd_kind f) x = true) ->
  N.of_nat (length (flat_map (chunk_bytes n (fd_kind f)) cs)) < 2 ^ 64 ->
  exists m', msg_merge t m (flat_map (chunk_bytes n (fd_kind f)) cs) = DOk m' [] /\
    get_field_value t m' f = VList (old ++ flat_map chunk_elems cs).
Proof.
  intros Hwf Hm Hf HL Hp Hg Hx Hlen.
  destruct (chunks_eats t Hwf n f cs m old Hf HL Hp Hg Hx Hlen) as (m' & He & Hg').
  exists m'. split; [|exact Hg']. apply eats_merge; auto. apply chunks_bytes_ok; exact Hx.
Qed.
Print Assumptions C09_packed_unpacked.

(** Two chunkings of the same elements cannot be told apart afterwards. *)
Theorem C09_same_list t m n f cs cs' old :
  wf t -> ok_msg t m = true -> find_desc t (dm_desc m) n = Some f ->
  fd_is_list f = true -> is_packable (fd_kind f) = true -> get_field_value t m f = VList old ->
  (forall x, In x (flat_map chunk_elems cs) -> sc_okb (fd_kind f) x = true) ->
  flat_map chunk_elems cs = flat_map chunk_elems cs' ->
  N.of_nat (length (flat_map (chunk_bytes n (fd_kind f)) cs)) < 2 ^ 64 ->
  N.of_nat (length (flat_map (chunk_bytes n (fd_kind f)) cs')) < 2 ^ 64 ->
  exists m1 m2, msg_merge t m (flat_map (chunk_bytes n (fd_kind f)) cs) = DOk m1 [] /\
    msg_merge t m (flat_map (chunk_bytes n (fd_kind f)) cs') = DOk m2 [] /\
    get_field_value t m1 f = get_field_value t m2 f.
Proof.
  intros Hwf Hm Hf HL Hp Hg Hx E H1 H2.
  destruct (C09_packed_unpacked t m n f cs old Hwf Hm Hf HL Hp Hg Hx H1) as (m1 & M1 & G1).
  rewrite E in Hx.
  destruct (C09_packed_unpacked t m n f cs' old Hwf Hm Hf HL Hp Hg Hx H2) as (m2 & M2 & G2).
  exists m1, m2. split; [exact M1|]. split; [exact M2|]. rewrite G1, G2, E. reflexivity.
Qed.
Print Assumptions C09_same_list.

Example C09_example :
  let cs := [Packed [VI32 1; VI32 (-1)]; Single (VI32 300); Packed []; Single (VI32 0)] in
  flat_map (chunk_bytes 3 KSint32) cs = [26; 2; 2; 1; 24; 216; 4; 26; 0; 24; 0] /\
  is_packable (fd_kind (ex_f 3)) = true /\
  msg_decode ex 0 (flat_map (chunk_bytes 3 KSint32) cs) =
    Ok (DM 0 [(3, SVal (VList [VI32 1; VI32 (-1); VI32 300; VI32 0]))]).
Proof. cbv zeta. split; [vm_compute; reflexivity|]. split; vm_compute; reflexivity. Qed.

(** ** C10 *)

(** the key and the (scalar) value of an entry made of the records [its]:
    the last one given, or the default *)
Definition entry_key_value (t : tables) (kf vf : fdl) (k0 : mapkey) (its : list eitem) : mapkey * value :=
  (last (entry_keys its) k0, last (entry_vals its) (fd_default_value t vf)).
Definition entry_bytes (n : N) (kf vf : fdl) (its : list eitem) : bytes :=
  encode_key n WLen ++ write_delimited (flat_map (item_bytes kf vf) its).
(** [map_update old k v]: same map, except that [k] maps to [v] *)
Definition is_update (old : list (mapkey * value)) (k : mapkey) (v : value) (new : list (mapkey * value)) : Prop :=
  keys_nodupb new = true /\
  forall k', map_get k' new = if mk_eqb k' k then Some v else map_get k' old.

Record map_field (t : tables) (d : nat) (n : N) (f : fdl) (e : nat) (kf vf : fdl) (k0 : mapkey) : Prop := {
  mf_desc : find_desc t d n = Some f;
  mf_map : fd_is_map f = true;
  mf_kind : kind_msg (fd_kind f) = Some e;
  mf_key : entry_key t e = Some kf;
  mf_value : entry_value t e = Some vf;
  mf_default : mk_default (fd_kind kf) = Some k0
}.

Lemma map_get_nodup t m f n kvs :
  wf t -> ok_msg t m = true -> find_desc t (dm_desc m) n = Some f -> get_field_value t m f = VMap kvs ->
  keys_nodupb kvs = true.
Proof.
  intros Hwf Hm Hf Hg. pose proof (stored_value t Hwf m n f Hm Hf) as H. rewrite Hg in H. cbn [ok_field] in H.
  destruct (kind_msg (fd_kind f)); [|discriminate]. destruct (fd_is_map f); [|discriminate].
  destruct (entry_key t n0); [|discriminate]. destruct (entry_value t n0); [|discriminate].
  apply andb_true_iff in H. apply H.
Qed.

Lemma entry_shape t d n f e kf vf k0 :
  wf t -> map_field t d n f e kf vf k0 ->
  fdl_ok t vf /\ is_repeated vf = false /\ mk_okb (fd_kind kf) k0 = true /\
  ok_elem t (fd_default_value t vf) (fd_kind vf) = true.
Proof.
  intros Hwf [Hd HM Hk Ek Ev E0].
  destruct (fs_map _ _ (find_desc_shape _ _ _ _ Hwf Hd) HM) as (e' & kf' & vf' & k0' & Hk' & Ek' & Ev' & _ & _ & Hr).
  assert (vf' = vf) by congruence. subst vf'.
  pose proof (get_field_ok _ _ _ _ (proj1 Hwf) Ev) as Hfo.
  split; [exact Hfo|]. split; [exact Hr|]. split; [apply mk_default_ok; exact E0|].
  assert (Hsh : fdl_shape t vf).
  { eapply find_desc_shape; [exact Hwf|]. unfold find_desc. unfold entry_value in Ev. rewrite Ev. reflexivity. }
  pose proof (default_ok t vf Hfo Hsh) as D.
  assert (HL : fd_is_list vf = false).
  { unfold fd_is_list. unfold is_repeated in Hr. rewrite Hr. reflexivity. }
  assert (HM' : fd_is_map vf = false) by (eapply get_field_map; [apply Hwf|exact Ev|exact Hr]).
  destruct (fd_default_value t vf) eqn:E;
    try (rewrite ok_field_plain in D by reflexivity; rewrite !andb_true_iff in D; apply D).
  - cbn [ok_field] in D. rewrite HL in D. discriminate.
  - cbn [ok_field] in D. rewrite HM' in D. destruct (kind_msg (fd_kind vf)); discriminate.
Qed.

Lemma entry_merge t m n f e kf vf k0 old w body k v :
  wf t -> ok_msg t m = true -> map_field t (dm_desc m) n f e kf vf k0 -> get_field_value t m f = VMap old ->
  bytes_ok body -> N.of_nat (length body) < two64 ->
  eats (entry_step t 201 kf vf 100) (k0, fd_default_value t vf) body (k, v) ->
  exists m' new, msg_merge t m (encode_key n w ++ write_delimited body) = DOk m' [] /\ get_field_value t m' f = VMap new /\
    is_update old k v new.
Proof.
  intros Hwf Hm MF Hg Hb HL He. pose proof (tag_of _ _ _ _ Hwf (mf_desc _ _ _ _ _ _ _ _ MF)) as Hn.
  pose proof (map_get_nodup _ _ _ _ _ Hwf Hm (mf_desc _ _ _ _ _ _ _ _ MF) Hg) as Hnd. destruct MF as [Hd HM Hk Ek Ev E0].
  pose proof (merge_loop_eats _ _ _ _ [] He HL) as ML. rewrite app_nil_r in ML.
  destruct (field_result_conv t 100 m n w (write_delimited body) f (VMap (map_insert k v old)) Hd) as (m' & H & Hg').
  { rewrite Hg, mv202. cbn [merge_body]. rewrite Hk, HM, Ek, Ev, E0.
    change (merge_loop _ (k0, fd_default_value t vf) (write_delimited body))
      with (merge_loop (keyed_step (entry_step t 201 kf vf 100)) (k0, fd_default_value t vf) (write_delimited body)).
    rewrite ML. reflexivity. }
  exists m', (map_insert k v old). split; [|split; [exact Hg'|split]].
  - apply one_record_merge; auto. apply write_delimited_ok; exact Hb.
  - apply map_insert_nodup, Hnd.
  - intros k'. apply map_get_insert.
Qed.

Lemma items_bytes_ok kf vf its : Forall (item_ok kf vf) its -> bytes_ok (flat_map (item_bytes kf vf) its).
Proof.
  induction 1 as [|it its Hit Hits IH]; [constructor|]. cbn [flat_map]. apply bytes_ok_app. split; [|exact IH].
  destruct it as [k|v|s|u]; cbn [item_ok item_bytes] in *.
  - rewrite mk_value_ok in Hit. rewrite mk_enc_value.
    destruct (sc_enc _ _ Hit) as (w & bs & E). rewrite E. apply bytes_ok_app. split; [apply encode_key_ok|].
    eapply enc_scalar_bytes_ok; eassumption.
  - destruct (sc_enc _ _ Hit) as (w & bs & E). rewrite E. apply bytes_ok_app. split; [apply encode_key_ok|].
    eapply enc_scalar_bytes_ok; eassumption.
  - apply bytes_ok_app. split; [apply encode_key_ok|]. apply write_delimited_ok, Hit.
  - apply uf_encode_ok, Hit.
Qed.

Lemma message_default t d n f e kf vf k0 i :
  wf t -> map_field t d n f e kf vf k0 -> fd_kind vf = KMessage i -> fd_default_value t vf = VMessage (new_msg i).
Proof.
  intros Hwf MF Hk. destruct (entry_shape _ _ _ _ _ _ _ _ Hwf MF) as (Hfo & Hr & _ & _).
  unfold fd_default_value. rewrite (is_list_repeated _ Hr).
  rewrite (get_field_map t Hwf _ _ _ (mf_value _ _ _ _ _ _ _ _ MF) Hr).
  destruct (fd_default vf) as [v|] eqn:E; [|rewrite Hk; reflexivity].
  pose proof (fo_default _ _ Hfo v E) as H. rewrite Hk in H. destruct v; discriminate H.
Qed.

(** Any entry with a scalar value type, its records in any order, repeated or
    missing, with foreign records in between. *)
Theorem C10_entry t m n f e kf vf k0 its old :
  wf t -> ok_msg t m = true -> map_field t (dm_desc m) n f e kf vf k0 ->
  is_msg_kind (fd_kind vf) = false -> get_field_value t m f = VMap old ->
  Forall (item_ok kf vf) its -> N.of_nat (length (entry_bytes n kf vf its)) < 2 ^ 64 ->
  exists m' new, msg_merge t m (entry_bytes n kf vf its) = DOk m' [] /\ get_field_value t m' f = VMap new /\
    is_update old (fst (entry_key_value t kf vf k0 its)) (snd (entry_key_value t kf vf k0 its)) new.
Proof.
  intros Hwf Hm MF Hk Hg Hits HL. destruct (entry_shape _ _ _ _ _ _ _ _ Hwf MF) as (_ & Hr & Hk0 & Hd).
  unfold entry_bytes in *. unfold write_delimited in HL. rewrite !app_length in HL. change (2 ^ 64) with two64 in HL.
  eapply entry_merge; try eassumption; [apply items_bytes_ok; exact Hits|lia|].
  apply (proj1 (items_eats t Hwf e kf vf its _ _ (mf_key _ _ _ _ _ _ _ _ MF) (mf_value _ _ _ _ _ _ _ _ MF) Hr Hk0 Hd Hits ltac:(lia)) Hk).
Qed.
Print Assumptions C10_entry.

(** A message value is built by merging the value payloads into an empty message. *)
Theorem C10_entry_message t m n f e kf vf k0 i its old sub :
  wf t -> ok_msg t m = true -> map_field t (dm_desc m) n f e kf vf k0 ->
  fd_kind vf = KMessage i -> get_field_value t m f = VMap old ->
  Forall (item_ok kf vf) its -> N.of_nat (length (entry_bytes n kf vf its)) < 2 ^ 64 ->
  merge_each 99 t (new_msg i) (entry_subs its) = Some sub ->
  exists m' new, msg_merge t m (entry_bytes n kf vf its) = DOk m' [] /\ get_field_value t m' f = VMap new /\
    is_update old (last (entry_keys its) k0) (VMessage sub) new.
Proof.
  intros Hwf Hm MF Hk Hg Hits HL Hs. destruct (entry_shape _ _ _ _ _ _ _ _ Hwf MF) as (_ & Hr & Hk0 & Hd).
  unfold entry_bytes in *. unfold write_delimited in HL. rewrite !app_length in HL. change (2 ^ 64) with two64 in HL.
  pose proof (message_default _ _ _ _ _ _ _ _ _ Hwf MF Hk) as E.
  eapply entry_merge; try eassumption; [apply items_bytes_ok; exact Hits|lia|].
  apply (proj2 (items_eats t Hwf e kf vf its _ _ (mf_key _ _ _ _ _ _ _ _ MF) (mf_value _ _ _ _ _ _ _ _ MF) Hr Hk0 Hd Hits ltac:(lia)) _ _ E Hs).
Qed.
Print Assumptions C10_entry_message.

(** Conversely every accepted map record, whatever its bytes, is one entry: its
    payload splits into records; the key is that of the last key record, or the
    default; the value is that of the last value record, or the default (for a
    message: the merge of all value payloads into an empty message). *)
Theorem C10_any_payload t m n f e kf vf k0 w p old m' :
  wf t -> ok_msg t m = true -> bytes_ok p -> map_field t (dm_desc m) n f e kf vf k0 ->
  get_field_value t m f = VMap old -> merge_field 100 t m n w p = DOk m' [] ->
  exists cs v new, read_delimited p = Ok (concat cs, []) /\
    get_field_value t m' f = VMap new /\ is_update old (last (keys_of (fd_kind kf) k0 cs) k0) v new /\
    (is_msg_kind (fd_kind vf) = false ->
       v = last (vals_of (fd_kind vf) (fd_default_value t vf) cs) (fd_default_value t vf)) /\
    (forall i, fd_kind vf = KMessage i ->
       exists sub, merge_each 99 t (new_msg i) (subs_of cs) = Some sub /\ v = VMessage sub).
Proof.
  intros Hwf Hm Hb MF Hg H. destruct (entry_shape _ _ _ _ _ _ _ _ Hwf MF) as (Hfo & Hr & Hk0 & Hd).
  pose proof MF as [Hf HM Hkm Ek Ev E0].
  pose proof (map_get_nodup _ _ _ _ _ Hwf Hm Hf Hg) as Hnd.
  destruct (merge_field_ok t Hwf 100 m n w p m' [] (Nat.le_refl _) Hm (tag_of _ _ _ _ Hwf Hf) Hb H) as [Hm' Hd'].
  assert (exists new, get_field_value t m' f = VMap new) as [new Hnew].
  { apply (map_value t f _ HM). eapply stored_value; [exact Hwf|exact Hm'|]. rewrite Hd'. exact Hf. }
  pose proof (proj1 (map_record t 100 m n w p f e kf vf k0 old Hf HM Hkm Ek Ev E0 Hg new)
                (ex_intro _ m' (conj H Hnew))) as (cs & k & v & Hrd & R & ->).
  pose proof (read_delimited_ok _ _ _ Hb Hrd) as Hbc.
  exists cs, v, (map_insert k v old). split; [exact Hrd|]. split; [exact Hnew|].
  assert (Hup : is_update old k v (map_insert k v old)).
  { split; [apply map_insert_nodup, Hnd|]. intros k'. apply map_get_insert. }
  assert (Hinv : entry_inv t kf vf (k0, fd_default_value t vf)) by (split; assumption).
  pose proof (entry_last_key t Hwf 100 e kf vf _ cs (k, v) (Nat.le_refl _) Ev Hbc Hinv R k0 Hk0) as Hlast.
  cbn [fst] in Hlast.
  destruct (is_msg_kind (fd_kind vf)) eqn:Em.
  - rewrite <- Hlast. split; [exact Hup|]. split; [discriminate|]. intros i Hi.
    pose proof (message_default _ _ _ _ _ _ _ _ _ Hwf MF Hi) as E. rewrite E in R, Hd.
    rewrite ok_elem_msg, Hi in Hd. cbn [kind_msg] in Hd. apply andb_true_iff in Hd. destruct Hd as [_ Hok].
    destruct (entry_messages t Hwf 99 e kf vf i k0 (new_msg i) cs k v ltac:(lia) Ev Hi Hbc Hk0 eq_refl Hok R k0 Hk0)
      as (_ & sub & Hs & ->). exists sub. split; [exact Hs|reflexivity].
  - pose proof (ok_elem_scalar t _ _ Em Hd) as Hsd.
    pose proof (entry_scalars t Hwf 100 e kf vf k0 (fd_default_value t vf) cs (k, v) (Nat.le_refl _) Ev Em Hbc Hk0 Hsd R
                  k0 _ Hk0 Hsd) as E. injection E as -> ->.
    split; [exact Hup|]. split; [reflexivity|]. intros i Hi. rewrite Hi in Em. discriminate.
Qed.
Print Assumptions C10_any_payload.

(** Several entries: each key gets the value of the last entry that names it. *)
Fixpoint apply_entries (l : list (mapkey * value)) (k : mapkey) (before : option value) : option value :=
  match l with
  | [] => before
  | (k1, v1) :: r => apply_entries r k (if mk_eqb k k1 then Some v1 else before)
  end.
Theorem C10_last_wins t n f e kf vf k0 ess : forall m old,
  wf t -> ok_msg t m = true -> map_field t (dm_desc m) n f e kf vf k0 ->
  is_msg_kind (fd_kind vf) = false -> get_field_value t m f = VMap old ->
  Forall (Forall (item_ok kf vf)) ess ->
  Forall (fun its => N.of_nat (length (entry_bytes n kf vf its)) < 2 ^ 64) ess ->
  exists m' new, msg_merge t m (flat_map (entry_bytes n kf vf) ess) = DOk m' [] /\
    get_field_value t m' f = VMap new /\ keys_nodupb new = true /\
    forall k, map_get k new = apply_entries (map (entry_key_value t kf vf k0) ess) k (map_get k old).
Proof.
  induction ess as [|its ess IH]; intros m old Hwf Hm MF Hk Hg Hits HL.
  - exists m, old. cbn [flat_map map apply_entries]. split; [|split; [exact Hg|split; [|reflexivity]]].
    + unfold msg_merge, msg_merge_fuel. reflexivity.
    + exact (map_get_nodup _ _ _ _ _ Hwf Hm (mf_desc _ _ _ _ _ _ _ _ MF) Hg).
  - inversion_clear Hits as [|? ? Hi Hits']. inversion_clear HL as [|? ? Hl HL'].
    destruct (C10_entry t m n f e kf vf k0 its old Hwf Hm MF Hk Hg Hi Hl) as (m1 & new1 & M1 & G1 & _ & U1).
    assert (B : forall its, Forall (item_ok kf vf) its -> bytes_ok (entry_bytes n kf vf its)).
    { intros l Hl'. unfold entry_bytes. apply bytes_ok_app. split; [apply encode_key_ok|].
      apply write_delimited_ok, items_bytes_ok, Hl'. }
    assert (Hm1 : ok_msg t m1 = true /\ dm_desc m1 = dm_desc m).
    { rewrite (merge_at_100 t m _ Hwf Hm (B _ Hi)) in M1.
      exact (merge_at_ok t Hwf 100 m _ m1 [] (Nat.le_refl _) Hm (B _ Hi) M1). }
    destruct Hm1 as [Hm1 D1].
    destruct (IH m1 new1 Hwf Hm1) as (m2 & new2 & M2 & G2 & N2 & U2); auto; [rewrite D1; exact MF|].
    exists m2, new2. cbn [flat_map]. split; [|split; [exact G2|split; [exact N2|]]].
    + rewrite (C07_concatenation_is_merging t m _ _ m1 [] Hwf Hm (B _ Hi)); [exact M2| |exact M1].
      clear - Hits' B. induction Hits'; [constructor|]. cbn [flat_map]. apply bytes_ok_app. auto.
    + intros k. rewrite U2, U1. cbn [map apply_entries]. destruct (entry_key_value t kf vf k0 its). reflexivity.
Qed.
Print Assumptions C10_last_wins.

(** map<string, M> of the example schema: value before key, a repeated value
    (merged), an unknown record, then the same key again *)
Example C10_example :
  (exists kf vf, map_field ex 0 4 (ex_f 4) 1 kf vf (MKString [])) /\
  msg_decode ex 0 ([34; 11; 18; 2; 8; 1; 10; 1; 107; 18; 2; 40; 2] ++ [34; 2; 56; 9] ++ [34; 3; 10; 1; 107]) =
    Ok (DM 0 [(4, SVal (VMap [(MKString [107], VMessage (new_msg 0)); (MKString [], VMessage (new_msg 0))]))]) /\
  msg_decode ex 0 [34; 11; 18; 2; 8; 1; 10; 1; 107; 18; 2; 40; 2] =
    Ok (DM 0 [(4, SVal (VMap [(MKString [107], VMessage (DM 0 [(1, SVal (VI32 1)); (5, SVal (VU32 2))]))]))]).
Proof.
  split; [|split; vm_compute; reflexivity].
  do 2 eexists. constructor; vm_compute; reflexivity.
Qed.

(** ** C12 *)

(** The encoding is a sequence of records, and a field's number occurs in it
    exactly when has_field is true. *)
Theorem C12_has_field_iff_encoded t m b :
  wf t -> ok_msg t m = true -> enc_msg t m = Ok b -> N.of_nat (length b) < 2 ^ 64 ->
  exists us, b = ufs_encode us /\ Forall uf_ok us /\
    forall n f, find_desc t (dm_desc m) n = Some f -> (has_field t m f = true <-> In n (map uf_number us)).
Proof.
  intros Hwf Hm He HL. destruct (enc_msg_records t Hwf m b Hm He HL) as (us & -> & Hus & Hh & _). exists us. auto.
Qed.
Print Assumptions C12_has_field_iff_encoded.

(** Setting a field with explicit presence, to its default or anything else
    that fits, makes has_field true, hence the field encoded. *)
Theorem C12_explicit_presence t m f v m' :
  fd_presence f = true -> try_set_field t m f v = (None, m') -> has_field t m' f = true.
Proof.
  intros Hp H. unfold try_set_field in H. destruct (is_valid_for t f v); [|discriminate]. injection H as <-.
  unfold has_field, fs_has, fs_get_value, fs_set. cbn [with_fields dm_fields]. rewrite bt_get_set_same.
  unfold fd_has. rewrite Hp. reflexivity.
Qed.
Print Assumptions C12_explicit_presence.

Example C12_example :
  (* s is set to its default and encoded; a is set to its default and not *)
  let m := DM 0 [(1, SVal (VI32 0)); (2, SVal (VString []))] in
  ok_msg ex m = true /\ has_field ex m (ex_f 1) = false /\ has_field ex m (ex_f 2) = true /\
  enc_msg ex m = Ok [18; 0].
Proof. cbv zeta. do 3 (split; [vm_compute; reflexivity|]). vm_compute; reflexivity. Qed.

(** ** C19 *)

(** The wire types a field accepts: the one of its type, and length-delimited
    for a list of packable elements. *)
Definition accepts (f : fdl) (w : wt) : Prop :=
  w = natural_wt (fd_kind f) \/ (w = WLen /\ fd_is_list f = true /\ is_packable (fd_kind f) = true).

(** A record of a known non-map field with any other wire type makes the merge
    fail, after any prefix [a] that was accepted and whatever follows. *)
Theorem C19_wrong_wire_type_rejected t m a m1 r c n w p f :
  wf t -> ok_msg t m = true -> bytes_ok a -> bytes_ok c ->
  msg_merge t m a = DOk m1 r -> decode_key c = Ok (n, w, p) ->
  find_desc t (dm_desc m) n = Some f -> fd_is_map f = false -> ~ accepts f w ->
  exists m', msg_merge t m (a ++ c) = DErr EWireType m'.
Proof.
  intros Hwf Hm Ha Hc H Hk Hf HM Hn.
  destruct (merge_at_ok t Hwf 100 m a m1 r (Nat.le_refl _) Hm Ha) as [Hm1 Hd].
  { rewrite <- (merge_at_100 t m a Hwf Hm Ha). exact H. }
  rewrite (C07_concatenation_is_merging t m a c m1 r Hwf Hm Ha Hc H), (merge_at_100 t m1 c Hwf Hm1 Hc).
  rewrite <- Hd in Hf.
  destruct (field_wrong t Hwf 100 m1 n w p f Hm1 Hf HM) as (m' & E).
  - intros E. apply Hn. left. symmetry. exact E.
  - intros E. apply Hn. right. exact E.
  - exists m'. unfold merge_at. destruct c as [|x c]; [discriminate Hk|]. cbn [length]. rewrite stream_loop_unfold by discriminate.
    rewrite Hk. unfold merge_field in E. rewrite E. reflexivity.
Qed.
Print Assumptions C19_wrong_wire_type_rejected.

(** Inside an accepted map entry the key and value records have the wire types
    of their kinds. *)
Theorem C19_map_entry_wire_types t m n f e kf vf k0 w p m' :
  wf t -> ok_msg t m = true -> bytes_ok p -> map_field t (dm_desc m) n f e kf vf k0 ->
  merge_field 100 t m n w p = DOk m' [] ->
  exists cs, read_delimited p = Ok (concat cs, []) /\
    Forall (fun c => exists n w p, decode_key c = Ok (n, w, p) /\
      (n = 1 -> w = natural_wt (fd_kind kf)) /\ (n = 2 -> w = natural_wt (fd_kind vf))) cs.
Proof.
  intros Hwf Hm Hb MF H. destruct (entry_shape _ _ _ _ _ _ _ _ Hwf MF) as (Hfo & Hr & Hk0 & Hd).
  pose proof MF as [Hf HM Hkm Ek Ev E0].
  destruct (map_value t f _ HM (stored_value t Hwf m n f Hm Hf)) as (old & Hg).
  destruct (merge_field_ok t Hwf 100 m n w p m' [] (Nat.le_refl _) Hm (tag_of _ _ _ _ Hwf Hf) Hb H) as [Hm' Hd'].
  assert (exists new, get_field_value t m' f = VMap new) as [new Hnew].
  { apply (map_value t f _ HM). eapply stored_value; [exact Hwf|exact Hm'|]. rewrite Hd'. exact Hf. }
  pose proof (proj1 (map_record t 100 m n w p f e kf vf k0 old Hf HM Hkm Ek Ev E0 Hg new)
                (ex_intro _ m' (conj H Hnew))) as (cs & k & v & Hrd & R & ->).
  exists cs. split; [exact Hrd|].
  exact (proj2 (entry_types t Hwf 100 e kf vf (k0, fd_default_value t vf) cs (k, v) (Nat.le_refl _) Ev (read_delimited_ok _ _ _ Hb Hrd)
                  (conj Hk0 Hd) R)).
Qed.
Print Assumptions C19_map_entry_wire_types.

(** The wire type of a map field's own record is not checked: a varint (or
    fixed or end-group) record is read as if it were length-delimited. *)
Theorem C19_map_field_wire_type_refuted :
  fd_is_map (ex_f 4) = true /\
  Forall (fun b => exists m, msg_decode ex 0 b = Ok m /\ has_field ex m (ex_f 4) = true)
    [[32; 0]; [33; 0]; [36; 0]; [37; 0]].
Proof.
  split; [vm_compute; reflexivity|].
  repeat (apply Forall_cons; [eexists; (split; [vm_compute; reflexivity|]); vm_compute; reflexivity|]). constructor.
Qed.
Print Assumptions C19_map_field_wire_type_refuted.

Example C19_example : exists m', msg_merge ex (new_msg 0) ([8; 1] ++ [9; 1; 2; 3; 4; 5; 6; 7; 8]) = DErr EWireType m'.
Proof. eexists. vm_compute. reflexivity. Qed.
