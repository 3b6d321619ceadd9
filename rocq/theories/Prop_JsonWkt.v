(** C43, C47: field masks, timestamps and durations in JSON, at the level of
    messages. *)
From Coq Require Import String.
From Verif Require Import Base BaseProofs Wire WireProofs Unknown UnknownProofs Value Descr Fields
  Codec DescrOk DescrProofs FieldsProofs LenProofs EncBytes MergeProofs RoundSpec RoundProofs RoundMain RoundSame
  CompatSpec Compat Prop_Transcode Float TextFormat Json JsonSer JsonDe JsonMask JsonWkt Prop_JsonScalars.
Open Scope list_scope.
Open Scope N_scope.

(** ** The pool used in the examples: the typed messages themselves *)
Lemma wkt_standard d : (d < 18)%nat -> standard wkt_tables d d.
Proof.
  intros Hd. pose proof (compatible_refl wkt_tables wkt_wf) as C.
  assert (R : in_range wkt_tables d = true) by (apply Nat.ltb_lt; exact Hd).
  exists (in_range wkt_tables), (fun i => i), (in_range wkt_tables), (fun i => i). do 6 (split; [assumption || reflexivity|]).
  split; auto.
Qed.

(** ** C43 *)

(** The string written for a mask gives the same paths back exactly when every
    path is one a mask can hold ([mask_path_fits], JsonMask.v: not empty, no
    comma, no component ending with an underscore). *)
Theorem C43_mask_string : forall ps s, mask_out [] ps = Some s ->
  (mask_in s = Some ps <-> Forall mask_path_fits ps).
Proof.
  intros ps s H. split; [apply mask_in_fits|]. intros Hf. now apply mask_back.
Qed.
Print Assumptions C43_mask_string.

(** A FieldMask message with such paths: serializing it either fails or gives
    a document that deserializes to the same paths, for every choice of
    options. *)
Theorem C43_mask_comes_back : forall E t o n deny d m j f ps,
  wf t -> wkt_of t d = Some WMask -> standard t d 7 ->
  ok_msg t m = true -> dm_desc m = d -> (msg_depth m <= 100)%nat -> fits t m ->
  fits wkt_tables (DM 7 [(1, SVal (VList (map VString ps)))]) ->
  get_field t d 1 = Some f -> get_field_value t m f = VList (map VString ps) ->
  to_json E t o n m = JOk j -> Forall mask_path_fits ps ->
  exists m', from_json E t deny d (carried E j) = JOk m' /\ dm_desc m' = d /\
    get_field_value t m' f = VList (map VString ps).
Proof.
  intros E t o n deny d m j f ps Hw Hk Hst Hm Hd Hdp Hfit Hfit' Hf Hv Hj Hps.
  destruct (typed t m d 7 Hw Hst Hm Hd Hdp Hfit) as (x & Tx & _ & _ & Hx).
  assert (Hfl : forall l, flat (VList (map VString l))).
  { intros l. cbn. apply Forall_forall. intros v Hi. apply in_map_iff in Hi. destruct Hi as (s & <- & _). reflexivity. }
  assert (Hzk : forall t0 f0 l, zero_kept t0 f0 (VList l) = true).
  { intros t0 f0 l. unfold zero_kept. apply orb_true_r. }
  specialize (Hx 1 f Hf). rewrite Hv in Hx. specialize (Hx (Hfl ps) (Hzk _ _ _)).
  unfold to_json in Hj. destruct m as [d0 fs]. cbn [dm_desc] in Hd. subst d0. cbn [ser_value] in Hj.
  rewrite Hk in Hj. cbn [ser_wkt wkt_desc] in Hj. rewrite Tx in Hj. cbn [jbind] in Hj.
  unfold mask_paths in Hj. rewrite Hx in Hj. cbn [as_list] in Hj. rewrite map_map in Hj.
  assert (Ep : map (fun x => val_bytes (VString x)) ps = ps) by (rewrite <- (map_id ps) at 2; apply map_ext; reflexivity).
  rewrite Ep in Hj. destruct (mask_out [] ps) as [s|] eqn:Es; [|discriminate Hj]. injection Hj as <-.
  unfold from_json. cbn [carried de de_atom target_goal]. rewrite Hk. cbn [de_wkt_atom].
  rewrite (mask_back ps s Es Hps).
  set (w := DM 7 [(1, SVal (VList (map VString ps)))]) in *.
  assert (Hok : ok_msg wkt_tables w = true).
  { assert (Hall : forallb (fun s => bytes_okb s && utf8_valid s) ps = true).
    { pose proof (stored_ok t Hw d fs f (proj1 (ok_msg_iff _ _) Hm)) as So.
      assert (Hn : fd_number f = 1) by exact (get_field_number _ _ _ _ (proj1 Hw) Hf).
      rewrite Hn in So. unfold find_desc in So. rewrite Hf in So. specialize (So eq_refl).
      change (fs_get t f fs) with (get_field_value t (DM d fs) f) in So. rewrite Hv in So. cbn [ok_field] in So.
      apply andb_true_iff in So. destruct So as [_ So]. rewrite forallb_forall in So. apply forallb_forall. intros p Hp.
      specialize (So (VString p) (in_map VString _ _ Hp)). cbn [ok_elem] in So. unfold sc_okb in So.
      destruct (fd_kind f); try discriminate So. exact So. }
    unfold ok_msg, w. cbn [dm_desc dm_fields]. rewrite !andb_true_iff.
    split; [split; [split|]; reflexivity|]. cbn [forallb]. rewrite andb_true_r. unfold ok_slot. cbn [fst snd].
    change (find_desc wkt_tables 7 1) with (Some (field_view wkt_tables
      (wkt_msg "google.protobuf.FieldMask" [wkt_field "paths" 1 KString Repeated None] [] false) (wkt_field "paths" 1 KString Repeated None))).
    cbn [ok_field]. apply andb_true_iff. split; [reflexivity|]. rewrite forallb_forall in *. intros v Hi.
    apply in_map_iff in Hi. destruct Hi as (p & <- & Hp). exact (Hall p Hp). }
  assert (Hdw : (msg_depth w <= 100)%nat).
  { unfold w, msg_depth. cbn [dm_fields map depth_slot snd depth list_max fold_right]. rewrite Nat.max_0_r.
    assert (Z0 : list_max (map depth (map VString ps)) = 0%nat) by (clear; induction ps; cbn; auto).
    match goal with |- context [list_max ?l] => change (list_max l) with (list_max (map depth (map VString ps))) end.
    rewrite Z0. lia. }
  destruct (made t d 7 w Hw Hst Hok eq_refl Hdw Hfit') as (m' & Em & Dm & _ & _ & G).
  rewrite Em. cbn [jbind]. exists m'. split; [reflexivity|]. split; [exact Dm|].
  destruct (get_field wkt_tables 7 1) as [f0|] eqn:Ef0; [|vm_compute in Ef0; discriminate Ef0].
  assert (Ev : get_field_value wkt_tables w f0 = VList (map VString ps)).
  { assert (En : fd_number f0 = 1) by exact (get_field_number _ _ _ _ (proj1 wkt_wf) Ef0).
    unfold get_field_value, fs_get, fs_get_value. rewrite En. reflexivity. }
  destruct (G 1 f0 f Ef0 Hf) as [_ G2]. rewrite Ev in G2. exact (G2 (Hfl ps) (Hzk _ _ _)).
Qed.
Print Assumptions C43_mask_comes_back.

(** Paths that do not come back: what the stronger claim, without
    [mask_path_fits], says is false.  The pool is the well-known types
    themselves. *)
Definition ex_mask (ps : list String.string) : dynmsg := DM 7 [(1, SVal (VList (map (fun s => VString (s2b s)) ps)))].
Definition ex_paths (m : dynmsg) : value := typed_get m 1.
Theorem C43_other_paths_refuted :
  (exists j m', to_json ex_json_externs wkt_tables jopt_default 1 (ex_mask ["foo_"]%string) = JOk j /\
     from_json ex_json_externs wkt_tables true 7 (carried ex_json_externs j) = JOk m' /\
     ex_paths m' = VList [VString (s2b "foo")]) /\
  (exists j m', to_json ex_json_externs wkt_tables jopt_default 1 (ex_mask ["a,b"]%string) = JOk j /\
     from_json ex_json_externs wkt_tables true 7 (carried ex_json_externs j) = JOk m' /\
     ex_paths m' = VList [VString (s2b "a"); VString (s2b "b")]) /\
  (exists j m', to_json ex_json_externs wkt_tables jopt_default 1 (ex_mask [""]%string) = JOk j /\
     from_json ex_json_externs wkt_tables true 7 (carried ex_json_externs j) = JOk m' /\
     ex_paths m' = VList []).
Proof.
  split; [|split]; eexists; eexists; (split; [vm_compute; reflexivity|]); (split; [vm_compute; reflexivity|]); vm_compute; reflexivity.
Qed.
Print Assumptions C43_other_paths_refuted.
Example C43_example : exists j m', 
  to_json ex_json_externs wkt_tables jopt_default 1 (ex_mask ["foo_bar.baz"; "x"]%string) = JOk j /\
  j = JStr (s2b "fooBar.baz,x") /\
  Forall mask_path_fits [s2b "foo_bar.baz"; s2b "x"] /\
  from_json ex_json_externs wkt_tables true 7 (carried ex_json_externs j) = JOk m' /\
  ex_paths m' = ex_paths (ex_mask ["foo_bar.baz"; "x"]%string).
Proof.
  eexists. eexists. split; [vm_compute; reflexivity|]. split; [vm_compute; reflexivity|].
  split; [apply (mask_in_fits (s2b "fooBar.baz,x")); vm_compute; reflexivity|].
  split; [vm_compute; reflexivity|]. vm_compute. reflexivity.
Qed.
(** C43_mask_comes_back applies to it *)
Example C43_applies deny : exists m',
  from_json ex_json_externs wkt_tables deny 7 (JStr (s2b "fooBar.baz,x")) = JOk m' /\ dm_desc m' = 7%nat /\
  forall f, get_field wkt_tables 7 1 = Some f ->
    get_field_value wkt_tables m' f = VList (map VString [s2b "foo_bar.baz"; s2b "x"]).
Proof.
  destruct (get_field wkt_tables 7 1) as [f|] eqn:Ef; [|vm_compute in Ef; discriminate Ef].
  assert (Hfit : fits wkt_tables (ex_mask ["foo_bar.baz"; "x"]%string)).
  { apply (flat_fits _ _ _ 1000 wkt_wf).
    - intros n s [Hi|[]]. injection Hi as <- <-. eexists. split; [reflexivity|]. split; [repeat constructor|vm_compute; discriminate].
    - apply wkt_unpacked.
    - vm_compute. reflexivity. }
  destruct (C43_mask_comes_back ex_json_externs wkt_tables jopt_default 1 deny 7 (ex_mask ["foo_bar.baz"; "x"]%string)
    (JStr (s2b "fooBar.baz,x")) f [s2b "foo_bar.baz"; s2b "x"] wkt_wf eq_refl (wkt_standard 7 ltac:(lia)) eq_refl eq_refl
    ltac:(vm_compute; lia) Hfit Hfit Ef) as (m' & A & B & C).
  - vm_compute in Ef. injection Ef as <-. reflexivity.
  - vm_compute. reflexivity.
  - apply (mask_in_fits (s2b "fooBar.baz,x")). vm_compute. reflexivity.
  - exists m'. split; [exact A|]. split; [exact B|]. intros f' Hf. injection Hf as <-. exact C.
Qed.

(** ** C47 *)

(** The documented limits: 0001-01-01 to the end of 9999-12-31, and 10,000
    years with less than a second of nanos. *)
Definition timestamp_limits (s : Z) : Prop := (-62135596800 <= s <= 253402300799)%Z.
Definition duration_limits (s n : Z) : Prop := (- 315576000000 <= s <= 315576000000 /\ - 999999999 <= n <= 999999999)%Z.
Lemma check_timestamp_limits s : check_timestamp s = true <-> timestamp_limits s.
Proof. unfold check_timestamp, timestamp_limits, min_timestamp_seconds, max_timestamp_seconds. lia. Qed.
Lemma check_duration_limits s n : check_duration s n = true <-> duration_limits s n.
Proof. unfold check_duration, duration_limits, max_duration_seconds, max_duration_nanos. lia. Qed.

Section Times.
  Variables (E : json_externs) (t : tables) (d : nat) (f1 f2 : fdl).
  Hypothesis Hw : wf t.
  Hypothesis Hf1 : get_field t d 1 = Some f1.
  Hypothesis Hf2 : get_field t d 2 = Some f2.

  Lemma typed_times w m s n : standard t d w -> ok_msg t m = true -> dm_desc m = d ->
    (msg_depth m <= 100)%nat -> fits t m ->
    get_field_value t m f1 = VI64 s -> get_field_value t m f2 = VI32 n ->
    exists x, transcode_to t m w = JOk x /\ as_Z (typed_get x 1) = s /\ as_Z (typed_get x 2) = n.
  Proof.
    intros Hst Hm Hd Hdp Hfit H1 H2. destruct (typed t m d w Hw Hst Hm Hd Hdp Hfit) as (x & Tx & _ & _ & Hx).
    exists x. split; [exact Tx|].
    pose proof (Hx 1 f1 Hf1) as X1. pose proof (Hx 2 f2 Hf2) as X2. rewrite H1 in X1. rewrite H2 in X2.
    rewrite X1, X2; [split; reflexivity|reflexivity| |reflexivity|]; unfold zero_kept; apply orb_true_r.
  Qed.

  Lemma made_times w s n : (w = 1 \/ w = 2)%nat -> standard t d w -> i64_ok s = true -> i32_ok n = true ->
    exists m, make_message t d (typed_time w s n) = JOk (Some (VMessage m)) /\ dm_desc m = d /\
      get_field_value t m f1 = VI64 s /\ get_field_value t m f2 = VI32 n.
  Proof.
    intros Hw' Hst Hs Hn.
    assert (Hfit : fits wkt_tables (typed_time w s n)).
    { apply (flat_fits _ _ _ 1000 wkt_wf).
      - intros k sl [Hi|[Hi|[]]]; injection Hi as <- <-; eexists; (split; [reflexivity|]); split; try reflexivity; cbn; lia.
      - apply wkt_unpacked.
      - destruct Hw'; subst w; vm_compute; reflexivity. }
    assert (Hok : ok_msg wkt_tables (typed_time w s n) = true).
    { unfold ok_msg, typed_time. cbn [dm_desc dm_fields forallb]. unfold ok_slot.
      destruct Hw'; subst w; cbn; rewrite Hs, Hn; reflexivity. }
    assert (Hdp : (msg_depth (typed_time w s n) <= 100)%nat) by (vm_compute; lia).
    destruct (made t d w _ Hw Hst Hok eq_refl Hdp Hfit) as (m & Em & Dm & _ & _ & G).
    exists m. split; [exact Em|]. split; [exact Dm|].
    assert (Q : forall k v f, get_field t d k = Some f -> bt_get k (dm_fields (typed_time w s n)) = Some (SVal v) ->
      flat v -> (forall f0, zero_kept wkt_tables f0 v = true) -> (exists f0, get_field wkt_tables w k = Some f0) ->
      get_field_value t m f = v).
    { intros k v f Hf Hg Hfl Hz [f0 Ef0].
      assert (Ev : get_field_value wkt_tables (typed_time w s n) f0 = v).
      { assert (En : fd_number f0 = k) by exact (get_field_number _ _ _ _ (proj1 wkt_wf) Ef0).
        unfold get_field_value, fs_get, fs_get_value. rewrite En, Hg. reflexivity. }
      destruct (G k f0 f Ef0 Hf) as [_ G2]. rewrite Ev in G2. exact (G2 Hfl (Hz _)). }
    split.
    - apply (Q 1); auto; try reflexivity.
      + intros f0. unfold zero_kept. apply orb_true_r.
      + destruct Hw'; subst w; eexists; reflexivity.
    - apply (Q 2); auto; try reflexivity.
      + intros f0. unfold zero_kept. apply orb_true_r.
      + destruct Hw'; subst w; eexists; reflexivity.
  Qed.

  (** A Timestamp is serialized exactly when its seconds are within the limits,
      whatever they are. *)
  Theorem C47_timestamp_written : forall o n m s ns,
    wkt_of t d = Some WTimestamp -> standard t d 1 ->
    ok_msg t m = true -> dm_desc m = d -> (msg_depth m <= 100)%nat -> fits t m ->
    get_field_value t m f1 = VI64 s -> get_field_value t m f2 = VI32 ns ->
    (timestamp_limits s -> to_json E t o n m = JOk (JStr (jx_show_timestamp E s ns))) /\
    (~ timestamp_limits s -> to_json E t o n m = JErr XTimestamp).
  Proof.
    intros o n m s ns Hk Hst Hm Hd Hdp Hfit H1 H2.
    destruct (typed_times 1 m s ns Hst Hm Hd Hdp Hfit H1 H2) as (x & Tx & X1 & X2).
    rewrite <- check_timestamp_limits. unfold to_json. destruct m as [d0 fs]. cbn [dm_desc] in Hd. subst d0. cbn [ser_value].
    rewrite Hk. cbn [ser_wkt wkt_desc]. rewrite Tx. cbn [jbind]. rewrite X1, X2.
    destruct (check_timestamp s); split; intros H; try reflexivity; try discriminate; exfalso; now apply H.
  Qed.
  Theorem C47_duration_written : forall o n m s ns,
    wkt_of t d = Some WDuration -> standard t d 2 ->
    ok_msg t m = true -> dm_desc m = d -> (msg_depth m <= 100)%nat -> fits t m ->
    get_field_value t m f1 = VI64 s -> get_field_value t m f2 = VI32 ns ->
    (duration_limits s ns -> to_json E t o n m = JOk (JStr (jx_show_duration E s ns))) /\
    (~ duration_limits s ns -> to_json E t o n m = JErr XDuration).
  Proof.
    intros o n m s ns Hk Hst Hm Hd Hdp Hfit H1 H2.
    destruct (typed_times 2 m s ns Hst Hm Hd Hdp Hfit H1 H2) as (x & Tx & X1 & X2).
    rewrite <- check_duration_limits. unfold to_json. destruct m as [d0 fs]. cbn [dm_desc] in Hd. subst d0. cbn [ser_value].
    rewrite Hk. cbn [ser_wkt wkt_desc]. rewrite Tx. cbn [jbind]. rewrite X1, X2.
    destruct (check_duration s ns); split; intros H; try reflexivity; try discriminate; exfalso; now apply H.
  Qed.

  (** What is accepted is text that prost_types reads, within the limits, and
      those seconds and nanos are what the message holds. *)
  Theorem C47_timestamp_read : forall deny j m, wkt_of t d = Some WTimestamp -> standard t d 1 ->
    (forall s a b, jx_parse_timestamp E s = Some (a, b) -> i64_ok a = true /\ i32_ok b = true) ->
    from_json E t deny d j = JOk m ->
    exists text s ns, j = JStr text /\ jx_parse_timestamp E text = Some (s, ns) /\ timestamp_limits s /\
      dm_desc m = d /\ get_field_value t m f1 = VI64 s /\ get_field_value t m f2 = VI32 ns.
  Proof.
    intros deny j m Hk Hst HE. unfold from_json.
    destruct j as [|b|z|b|b|text|l|l]; cbn [de target_goal de_atom de_arr de_obj]; rewrite Hk; cbn [de_wkt_atom];
      try (intros H; discriminate H).
    destruct (strict_rfc3339 text); [|intros H; discriminate H].
    destruct (jx_parse_timestamp E text) as [[s ns]|] eqn:Ep; [|intros H; discriminate H].
    destruct (check_timestamp s) eqn:Ec; [|intros H; discriminate H].
    destruct (HE _ _ _ Ep) as [O1 O2]. destruct (made_times 1 s ns (or_introl eq_refl) Hst O1 O2) as (m' & Em & Dm & G1 & G2).
    rewrite Em. cbn [jbind]. intros H. injection H as <-. exists text, s, ns. rewrite check_timestamp_limits in Ec. auto 10.
  Qed.
  Theorem C47_timestamp_refused : forall deny text s ns, wkt_of t d = Some WTimestamp ->
    jx_parse_timestamp E text = Some (s, ns) -> ~ timestamp_limits s ->
    from_json E t deny d (JStr text) = JErr XTimestamp.
  Proof.
    intros deny text s ns Hk Hp Hl. rewrite <- check_timestamp_limits in Hl. unfold from_json. cbn [de target_goal de_atom].
    rewrite Hk. cbn [de_wkt_atom]. rewrite Hp. destruct (strict_rfc3339 text); [|reflexivity].
    destruct (check_timestamp s); [exfalso; now apply Hl|reflexivity].
  Qed.
  Theorem C47_duration_read : forall deny j m, wkt_of t d = Some WDuration -> standard t d 2 ->
    (forall s a b, jx_parse_duration E s = Some (a, b) -> i64_ok a = true /\ i32_ok b = true) ->
    from_json E t deny d j = JOk m ->
    exists text s ns, j = JStr text /\ jx_parse_duration E text = Some (s, ns) /\ duration_limits s ns /\
      dm_desc m = d /\ get_field_value t m f1 = VI64 s /\ get_field_value t m f2 = VI32 ns.
  Proof.
    intros deny j m Hk Hst HE. unfold from_json.
    destruct j as [|b|z|b|b|text|l|l]; cbn [de target_goal de_atom de_arr de_obj]; rewrite Hk; cbn [de_wkt_atom];
      try (intros H; discriminate H).
    destruct (jx_parse_duration E text) as [[s ns]|] eqn:Ep; [|intros H; discriminate H].
    destruct (check_duration s ns) eqn:Ec; [|intros H; discriminate H].
    destruct (HE _ _ _ Ep) as [O1 O2]. destruct (made_times 2 s ns (or_intror eq_refl) Hst O1 O2) as (m' & Em & Dm & G1 & G2).
    rewrite Em. cbn [jbind]. intros H. injection H as <-. exists text, s, ns. rewrite check_duration_limits in Ec. auto 10.
  Qed.
  Theorem C47_duration_refused : forall deny text s ns, wkt_of t d = Some WDuration ->
    jx_parse_duration E text = Some (s, ns) -> ~ duration_limits s ns ->
    from_json E t deny d (JStr text) = JErr XDuration.
  Proof.
    intros deny text s ns Hk Hp Hl. rewrite <- check_duration_limits in Hl. unfold from_json. cbn [de target_goal de_atom].
    rewrite Hk. cbn [de_wkt_atom]. rewrite Hp. destruct (check_duration s ns); [exfalso; now apply Hl|reflexivity].
  Qed.
End Times.
Print Assumptions C47_timestamp_written.
Print Assumptions C47_duration_written.
Print Assumptions C47_timestamp_read.
Print Assumptions C47_timestamp_refused.
Print Assumptions C47_duration_read.
Print Assumptions C47_duration_refused.
(** i64::MIN seconds, i32::MIN nanos: an error, no overflow *)
Example C47_extreme o n :
  to_json ex_json_externs wkt_tables o n (typed_time 2 (-9223372036854775808) (-2147483648)) = JErr XDuration /\
  to_json ex_json_externs wkt_tables o n (typed_time 1 (-9223372036854775808) 0) = JErr XTimestamp /\
  to_json ex_json_externs wkt_tables o n (typed_time 1 253402300799 0) = JOk (JStr (jx_show_timestamp ex_json_externs 253402300799 0)) /\
  to_json ex_json_externs wkt_tables o n (typed_time 1 253402300800 0) = JErr XTimestamp /\
  wkt_of wkt_tables 1 = Some WTimestamp /\ standard wkt_tables 1 1 /\ fits wkt_tables (typed_time 1 253402300799 0).
Proof.
  repeat (split; [vm_compute; reflexivity|]). split; [apply wkt_standard; lia|].
  apply (flat_fits _ _ _ 1000 wkt_wf).
  - intros k sl [Hi|[Hi|[]]]; injection Hi as <- <-; eexists; (split; [reflexivity|]); split; try reflexivity; cbn; lia.
  - apply wkt_unpacked.
  - vm_compute. reflexivity.
Qed.
