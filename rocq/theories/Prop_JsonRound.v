(** C42: the JSON document written for a message is read back as the message. *)
From Coq Require Import String.
From Verif Require Import Base BaseProofs Wire Unknown Value Descr Fields Codec DescrOk DescrProofs FieldsProofs MergeProofs
  RoundSpec RoundSame RoundMain ItemRound AgreeProofs CompatSpec Compat Bulk
  Float TextFormat TextParse TextScalars Json JsonSer JsonDe JsonWkt JsonMask JsonNumbers JsonSafe JsonTree JsonScalarBack
  JsonTypedBack JsonRound Prop_TextSafe Prop_JsonSafe Prop_JsonRules ExampleSchema ExampleJson.
Open Scope list_scope.
Open Scope N_scope.

(** ** What is asked of the schema *)

(** every field and extension is found again under the name it is written with *)
Definition name_backb (o : jopt) (t : tables) (d : nat) (ext : bool) (f : fdl) : bool :=
  match member_field t d (item_name o ext f) with Some g => fd_number g =? fd_number f | None => false end.
(** fields without presence declare no default, and their default values come
    back, when they are written *)
Definition default_backb (E : json_externs) (o : jopt) (t : tables) (f : fdl) : bool :=
  fd_presence f ||
  match fd_default f with Some _ => false | None => true end &&
  (j_skip_default o || is_repeated f || scalar_backb E t (fd_default_value t f) (fd_kind f)).
(** the name of an enum value leads to its number *)
Definition enum_names_backb (t : tables) (e : nat) : bool :=
  match nth_error (t_enums t) e with
  | Some en => forallb (fun nj => match nth_error (e_values en) (snd nj) with
                                  | Some v => match enum_number t e (id_name (ev_id v)) with Some z => (z =? fst nj)%Z | None => false end
                                  | None => true
                                  end) (e_numbers en)
  | None => true
  end.
Definition json_schemab (E : json_externs) (o : jopt) (t : tables) : bool :=
  oneof_presenceb t && exts_distinctb t &&
  forallb (fun d => forallb (name_backb o t d false) (msg_fields t d) && forallb (name_backb o t d true) (msg_exts t d) &&
                    forallb (default_backb E o t) (msg_fields t d)) (seq 0 (length (t_messages t))) &&
  forallb (enum_names_backb t) (seq 0 (length (t_enums t))).
(** messages with the names of well-known types have their fields *)
Definition standard_types (t : tables) : Prop := forall d w, wkt_of t d = Some w -> standard t d (wkt_desc w).
(** slice::binary_search finds an entry with the number *)
Definition json_search_finds (E : json_externs) : Prop :=
  forall l z i, jx_search E l z = Some i -> exists j, nth_error l i = Some (z, j).

Record json_schema (E : json_externs) (o : jopt) (t : tables) : Prop := {
  js_presence : oneof_presenceb t = true;
  js_plain : defaults_plain t;
  js_enum : json_search_finds E -> forall e z nm, json_enum_name E t e z = Some nm -> enum_number t e nm = Some z;
  js_name : forall d n f, get_field t d n = Some f -> member_field t d (item_name o false f) = Some f;
  js_namex : forall d n f, get_ext t d n = Some f -> member_field t d (item_name o true f) = Some f;
  js_default : negb (j_skip_default o) = true -> forall d n f, get_field t d n = Some f -> fd_presence f = false -> is_repeated f = false ->
    scalar_backb E t (fd_default_value t f) (fd_kind f) = true
}.
Lemma json_schemab_ok E o t : wf t -> json_schemab E o t = true -> json_schema E o t.
Proof.
  intros Hw H. pose proof (proj1 Hw) as Ht. unfold json_schemab in H. rewrite !andb_true_iff in H. destruct H as [[[H1 H2] H3] H4].
  pose proof (exts_distinct _ H2) as Hx. rewrite forallb_forall in H3, H4.
  assert (A : forall d m, nth_error (t_messages t) d = Some m -> In d (seq 0 (length (t_messages t)))).
  { intros d m E1. apply in_seq. split; [lia|]. apply nth_error_Some. congruence. }
  assert (Hf : forall d n f, get_field t d n = Some f -> name_backb o t d false f = true /\ default_backb E o t f = true).
  { intros d n f Hf. pose proof (get_field_in _ _ _ _ Ht Hf) as Hin.
    destruct (nth_error (t_messages t) d) as [m|] eqn:E1; [|unfold get_field in Hf; rewrite E1 in Hf; discriminate].
    specialize (H3 d (A _ _ E1)). rewrite !andb_true_iff, !forallb_forall in H3. destruct H3 as [[K1 _] K3]. auto. }
  assert (Hg : forall d n f, get_ext t d n = Some f -> name_backb o t d true f = true).
  { intros d n f Hf'. unfold get_ext in Hf'. apply find_some in Hf'. destruct Hf' as [Hin _].
    destruct (nth_error (t_messages t) d) as [m|] eqn:E1; [|unfold msg_exts in Hin; rewrite E1 in Hin; destruct Hin].
    specialize (H3 d (A _ _ E1)). rewrite !andb_true_iff, !forallb_forall in H3. destruct H3 as [[_ K2] _]. auto. }
  assert (Same : forall d ext f, find_desc t d (fd_number f) = Some f -> name_backb o t d ext f = true -> member_field t d (item_name o ext f) = Some f).
  { intros d ext f Fd Hn. unfold name_backb in Hn. destruct (member_field t d (item_name o ext f)) as [g|] eqn:Eg; [|discriminate].
    apply N.eqb_eq in Hn. apply (member_desc t Hw Hx) in Eg. congruence. }
  constructor; auto.
  - intros d n f G Hp. destruct (Hf _ _ _ G) as [_ F]. unfold default_backb in F. rewrite Hp in F. destruct (fd_default f); [discriminate|reflexivity].
  - intros Hs e z nm Hn. unfold json_enum_name, enum_name in Hn. destruct (nth_error (t_enums t) e) as [en|] eqn:Ee; [|discriminate].
    cbn [tx_search] in Hn. destruct (jx_search E (e_numbers en) z) as [i|] eqn:Es; [|discriminate]. destruct (Hs _ _ _ Es) as [j Ej]. rewrite Ej in Hn.
    destruct (nth_error (e_values en) j) as [v|] eqn:Ev; [|discriminate]. injection Hn as <-.
    assert (In e (seq 0 (length (t_enums t)))) as Hin by (apply in_seq; split; [lia|]; apply nth_error_Some; congruence).
    specialize (H4 e Hin). unfold enum_names_backb in H4. rewrite Ee, forallb_forall in H4. specialize (H4 _ (nth_error_In _ _ Ej)). cbn [fst snd] in H4.
    rewrite Ev in H4. destruct (enum_number t e (id_name (ev_id v))) as [z'|]; [|discriminate]. apply Z.eqb_eq in H4. congruence.
  - intros d n f G. destruct (Hf _ _ _ G) as [F _]. apply Same; [|exact F]. pose proof (get_field_number _ _ _ _ Ht G) as En.
    unfold find_desc. rewrite En, G. reflexivity.
  - intros d n f G. apply Same; [|exact (Hg _ _ _ G)]. pose proof (get_ext_number _ _ _ _ Ht G) as En. rewrite En.
    unfold find_desc. rewrite (field_ext_disjoint _ _ _ _ Hw G). exact G.
  - intros Hs d n f G Hp Hr. destruct (Hf _ _ _ G) as [_ F]. unfold default_backb in F. apply negb_true_iff in Hs. rewrite Hp, Hs, Hr in F.
    cbn [orb] in F. apply andb_true_iff in F. apply F.
Qed.

(** ** What is asked of the message *)

(** [survives E t o deny n m]: what JSON can tell.  For each scalar: floats are
    ones whose decimal number is read as the same float ([float_back32],
    [float_back64]; NaN is the one reading gives) and a
    google.protobuf.NullValue is NULL_VALUE.  For fields without presence, a
    negative zero is not told from zero unless defaults are written.  For
    well-known types ([wkt_safe]): a Value has a kind, numbers in it and in
    FloatValue or DoubleValue are finite (and not negative zero in the latter
    two); masks have the paths of C43; times are in the range of C47 and their
    text is read as the same time.  For Any ([any_safe]): the type is in the
    pool and the value is an encoding of a message of it that also survives;
    [n] bounds how deep Any messages are nested.  Encodings made on the way
    have a length and at most 100 levels. *)
Definition survives (E : json_externs) (t : tables) (o : jopt) (deny : bool) (n : nat) (m : dynmsg) : Prop :=
  jsafe E t (negb (j_skip_default o)) (any_safe E t o deny n) (VMessage m) (KMessage (dm_desc m)).

(** no google.protobuf.Any inside *)
Fixpoint without_any (t : tables) (v : value) : bool :=
  match v with
  | VMessage (DM d fs) =>
      negb (bytes_eqb (full_name t d) (s2b "google.protobuf.Any")) &&
      forallb (fun kv => match snd kv with SVal v' => without_any t v' | _ => true end) fs
  | VList vs => forallb (without_any t) vs
  | VMap kvs => forallb (fun kv => without_any t (snd kv)) kvs
  | _ => true
  end.
Lemma jagree_agree t v : forall v', without_any t v = true -> jagree t v v' -> agree t v v'.
Proof.
  induction v as [b|z|z|n|n|n|n|s|s|z|d fs IH|vs IH|kvs IH] using value_ind'; intros v' Ha H; inversion H; subst;
    try (apply agree_scalar; reflexivity); try discriminate.
  - apply agree_message; auto. intros n f Hf Hh. destruct (has_stored _ _ _ Hh) as (v & Hb & Eg & _). rewrite Eg.
    rewrite Forall_forall in IH. apply bt_get_In in Hb. cbn [without_any] in Ha. apply andb_true_iff in Ha. destruct Ha as [_ Ha].
    rewrite forallb_forall in Ha. specialize (Ha _ Hb). apply (IH _ Hb); [exact Ha|]. rewrite <- Eg. eauto.
  - exfalso. cbn [without_any] in Ha. apply andb_true_iff in Ha. destruct Ha as [Ha _]. apply negb_true_iff in Ha.
    match goal with H : full_name t (dm_desc _) = _ |- _ => cbn [dm_desc] in H; rewrite H, bytes_eqb_refl in Ha end. discriminate.
  - apply agree_list. cbn [without_any] in Ha. match goal with F : Forall2 _ _ _ |- _ => clear H; revert IH Ha; induction F as [|a b la lb Hab F IHF] end;
      intros IH Ha; constructor; inversion_clear IH; cbn [forallb] in Ha; apply andb_true_iff in Ha; destruct Ha as [Ha1 Ha2]; auto.
  - rewrite Forall_forall in IH. cbn [without_any] in Ha. rewrite forallb_forall in Ha. apply agree_map; auto. intros k a b Ha' Hb.
    pose proof (map_get_In _ _ _ Ha') as Hin. apply (IH _ Hin); [exact (Ha _ Hin)|]. eauto.
Qed.

(** ** C42 *)

(** Serializing succeeds and deserializing the document gives a message that
    agrees with the first on every field and extension, at every depth: the
    same ones are set, and to the same values.  The value of an Any may be
    another encoding of a message that agrees with the one it was an encoding
    of ([jagree]).  For every choice of options, for messages of any size. *)
Theorem C42_json_round_trip : forall E t o deny n m,
  wf t -> json_schemab E o t = true -> standard_types t -> json_search_finds E ->
  ok_msg t m = true -> survives E t o deny n m ->
  exists j m', to_json E t o n m = JOk j /\ from_json E t deny (dm_desc m) (carried E j) = JOk m' /\
    jagree t (VMessage m) (VMessage m') /\ ok_msg t m' = true /\ dm_desc m' = dm_desc m.
Proof.
  intros E t o deny n m Hw Hs Hst Hse Hm Hsv. destruct (json_schemab_ok E o t Hw Hs) as [S1 S2 S3 S4 S5 S6].
  apply json_back; auto.
Qed.
Print Assumptions C42_json_round_trip.

(** Without Any it is the same notion as for the text format (C38). *)
Theorem C42_json_round_trip_no_any : forall E t o deny n m,
  wf t -> json_schemab E o t = true -> standard_types t -> json_search_finds E ->
  ok_msg t m = true -> survives E t o deny n m -> without_any t (VMessage m) = true ->
  exists j m', to_json E t o n m = JOk j /\ from_json E t deny (dm_desc m) (carried E j) = JOk m' /\ agree_msg t m m'.
Proof.
  intros E t o deny n m Hw Hs Hst Hse Hm Hsv Ha. destruct (C42_json_round_trip E t o deny n m Hw Hs Hst Hse Hm Hsv) as (j & m' & H1 & H2 & H3 & _).
  exists j, m'. split; [exact H1|]. split; [exact H2|]. apply jagree_agree; assumption.
Qed.
Print Assumptions C42_json_round_trip_no_any.

(** ** Non-vacuity *)
Fixpoint find_number (i : nat) (l : list (Z * nat)) (z : Z) : option nat :=
  match l with
  | [] => None
  | (z', _) :: r => if (z' =? z)%Z then Some i else find_number (S i) r z
  end.
Definition jrx : json_externs :=
  JsonExterns (find_number 0) (fun _ _ => s2b "1970-01-01T00:00:01Z") (fun _ => Some (1%Z, 0%Z)) (fun _ _ => []) (fun _ => None)
    (fun l => l) f32_to_f64 (fun b => b).
Example jrx_search : json_search_finds jrx.
Proof.
  intros l z i. cbn [jx_search jrx].
  assert (G : forall l k i, find_number k l z = Some i -> exists j, nth_error l (i - k) = Some (z, j) /\ (k <= i)%nat).
  { clear. induction l as [|[z' j] l IH]; intros k i; cbn [find_number]; [discriminate|]. destruct (Z.eqb_spec z' z).
    - intros [= <-]. subst. exists j. rewrite Nat.sub_diag. auto.
    - intros H. destruct (IH _ _ H) as (j' & H1 & H2). exists j'. replace (i - k)%nat with (S (i - S k))%nat by lia. split; [exact H1|lia]. }
  intros H. destruct (G _ _ _ H) as (j & H1 & _). rewrite Nat.sub_0_r in H1. eauto.
Qed.
Example jrx_schema : forall o, json_schemab jrx o jex = true.
Proof. intros [[] [] [] []]; vm_compute; reflexivity. Qed.
Example jex_standard : standard_types jex.
Proof.
  assert (C : forall t t' f f', fd_number f = fd_number f' -> kind_like t t' (fun d => (d <? 18)%nat) (fun d => d) (fd_kind f) (fd_kind f') ->
    fd_card f = fd_card f' -> fd_packed f = fd_packed f' -> fd_presence f = fd_presence f' -> fd_oneof f = fd_oneof f' ->
    fd_default f = fd_default f' -> fd_is_map f = fd_is_map f' -> field_like t t' (fun d => (d <? 18)%nat) (fun d => d) f f').
  { intros. now constructor. }
  assert (C1 : compatible jex wkt_tables (fun d => (d <? 18)%nat) (fun d => d)).
  { intros d Hd. apply Nat.ltb_lt in Hd. do 18 (destruct d as [|d]; [split; [vm_compute; lia|]; split;
      [repeat (apply Forall2_cons; [apply C; vm_compute; auto|]); apply Forall2_nil|intros n; exact Logic.I]|]). lia. }
  assert (C2 : compatible wkt_tables jex (fun d => (d <? 18)%nat) (fun d => d)).
  { intros d Hd. apply Nat.ltb_lt in Hd. do 18 (destruct d as [|d]; [split; [vm_compute; lia|]; split;
      [repeat (apply Forall2_cons; [apply C; vm_compute; auto|]); apply Forall2_nil|intros n; exact Logic.I]|]). lia. }
  intros d w Hw. assert (Hd : (d < 18)%nat /\ wkt_desc w = d).
  { do 18 (destruct d as [|d]; [vm_compute in Hw; first [discriminate Hw|injection Hw as <-; split; [lia|reflexivity]]|]).
    do 2 (destruct d as [|d]; [vm_compute in Hw; discriminate Hw|]). exfalso.
    assert (Hn : full_name jex (20 + d) = []).
    { unfold full_name. rewrite (proj2 (nth_error_None (t_messages jex) (20 + d))) by (cbn; lia). reflexivity. }
    change (wkt_of jex (20 + d) = Some w) in Hw. unfold wkt_of in Hw. rewrite Hn in Hw.
    vm_compute in Hw. discriminate Hw. }
  destruct Hd as [Hd ->]. apply Nat.ltb_lt in Hd. exists (fun d => (d <? 18)%nat), (fun d => d), (fun d => (d <? 18)%nat), (fun d => d).
  do 6 (split; [assumption || reflexivity|]). split; auto.
Qed.

Definition jr_child : dynmsg :=
  DM 18 [(1, SVal (VI32 (-7))); (2, SVal (VString (s2b "a\b"))); (7, SVal (VU32 0)); (100, SVal (VI32 3))].
Definition jr_value : dynmsg :=
  DM 5 [(5, SVal (VMessage (DM 3 [(1, SVal (VMap [(MKString (s2b "k"), VMessage (DM 5 [(2, SVal (VF64 4607182418800017408))]))]))])))].
Definition jr_m : dynmsg :=
  DM 18 [(1, SVal (VI32 (-7))); (3, SVal (VList [VMessage (DM 5 [(1, SVal (VEnum 0))]); VMessage jr_value]));
         (4, SVal (VList [VEnum 0])); (5, SVal (VMessage (DM 5 [(1, SVal (VEnum 0))]))); (8, SVal (VString []));
         (9, SVal (VMessage jr_child)); (10, SVal (VMessage (DM 1 [(1, SVal (VI64 1))]))); (11, SVal (VEnum 1)); (12, SVal (VList [VEnum 1; VEnum 5; VEnum 0]));
         (13, SVal (VList [VMessage (DM 18 []); VMessage jr_child])); (14, SVal (VF32 inf32)); (15, SVal (VF64 4607182418800017408));
         (16, SVal (VBytes [0; 255])); (17, SVal (VMessage (DM 9 []))); (19, SVal (VMap [(MKString (s2b "k"), VMessage jr_child)]))].
(** the conditions, decided (except for Any and FieldMask) *)
Definition typed_safeb (E : json_externs) (w : wkt) (x : dynmsg) : bool :=
  match w with
  | WAny | WEmpty => true
  | WTimestamp =>
      let s := as_Z (typed_get x 1) in
      let n := as_Z (typed_get x 2) in
      check_timestamp s && strict_rfc3339 (jx_show_timestamp E s n) &&
      match jx_parse_timestamp E (jx_show_timestamp E s n) with Some (s', n') => (s' =? s)%Z && (n' =? n)%Z | None => false end
  | WDuration =>
      let s := as_Z (typed_get x 1) in
      let n := as_Z (typed_get x 2) in
      check_duration s n &&
      match jx_parse_duration E (jx_show_duration E s n) with Some (s', n') => (s' =? s)%Z && (n' =? n)%Z | None => false end
  | WStruct | WList => trees_okb E x
  | WValue => tree_okb E (VMessage x)
  | WMask => false
  | WWrap _ =>
      match typed_get x 1 with
      | VF32 b => f32_finite b && float_back32 E b && negb (b =? sign32)
      | VF64 b => f64_finite b && float_back64 E b && negb (b =? sign64)
      | _ => true
      end
  end.
Lemma typed_safeb_ok E w x : typed_safeb E w x = true -> typed_safe E w x.
Proof.
  destruct w; cbn [typed_safeb typed_safe]; auto; try discriminate.
  - rewrite !andb_true_iff. intros [[H1 H2] H3]. destruct jx_parse_timestamp as [[s n]|]; [|discriminate].
    apply andb_true_iff in H3. destruct H3 as [H3 H4]. apply Z.eqb_eq in H3, H4. subst. auto.
  - rewrite !andb_true_iff. intros [H1 H3]. destruct jx_parse_duration as [[s' n']|]; [|discriminate].
    apply andb_true_iff in H3. destruct H3 as [H3 H4]. apply Z.eqb_eq in H3, H4. subst. auto.
  - destruct (typed_get x 1); auto; rewrite !andb_true_iff, negb_true_iff, N.eqb_neq; tauto.
Qed.
Definition wkt_safeb (E : json_externs) (t : tables) (w : wkt) (m : dynmsg) : bool :=
  (msg_depth m <=? 100)%nat && (bulk_msg m <? 2 ^ 64) && zeros_kept_msg t m &&
  match transcode_to t m (wkt_desc w) with JOk x => typed_safeb E w x | _ => true end.
Fixpoint jsafeb (E : json_externs) (t : tables) (full : bool) (v : value) (k : kind) {struct v} : bool :=
  match v with
  | VMessage (DM d fs) =>
      match wkt_of t d with
      | Some WAny => false
      | Some w => wkt_safeb E t w (DM d fs)
      | None =>
          forallb (fun kv =>
            match snd kv with
            | SVal v' => match find_desc t d (fst kv) with
                         | Some f => shown t full d (fst kv) v' && jsafeb E t full v' (fd_kind f)
                         | None => true
                         end
            | _ => true
            end) fs
      end
  | VList vs => forallb (fun x => jsafeb E t full x k) vs
  | VMap kvs =>
      match kind_msg k with
      | Some e => match entry_value t e with
                  | Some vf => forallb (fun kv => jsafeb E t full (snd kv) (fd_kind vf)) kvs
                  | None => true
                  end
      | None => true
      end
  | _ => scalar_backb E t v k
  end.
Lemma wkt_safeb_ok E t w m : wkt_safeb E t w m = true -> wkt_safe E t w m.
Proof.
  unfold wkt_safeb, wkt_safe. rewrite !andb_true_iff, Nat.leb_le, N.ltb_lt. intros [[[H1 H2] H3] H4]. do 3 (split; [assumption|]).
  intros x Hx. rewrite Hx in H4. now apply typed_safeb_ok.
Qed.
Lemma jsafeb_ok E t full any v : forall k, jsafeb E t full v k = true -> jsafe E t full any v k.
Proof.
  induction v as [b|z|z|n|n|n|n|s|s|z|d fs IH|vs IH|kvs IH] using value_ind'; intros k; cbn [jsafeb jsafe]; auto.
  - assert (O : forallb (fun kv =>
            match snd kv with
            | SVal v' => match find_desc t d (fst kv) with
                         | Some f => shown t full d (fst kv) v' && jsafeb E t full v' (fd_kind f)
                         | None => true
                         end
            | _ => true
            end) fs = true -> fold_right and True (map (fun kv =>
              match snd kv with
              | SVal v' => match find_desc t d (fst kv) with
                           | Some f => shown t full d (fst kv) v' = true /\ jsafe E t full any v' (fd_kind f)
                           | None => True
                           end
              | _ => True
              end) fs)).
    { rewrite and_all, Forall_forall, forallb_forall. rewrite Forall_forall in IH. intros H [n s] Hin. specialize (H _ Hin). specialize (IH _ Hin).
      cbn [fst snd] in *. destruct s; auto. destruct (find_desc t d n); auto. apply andb_true_iff in H. destruct H as [H1 H2].
      split; [exact H1|]. now apply IH. }
    destruct (wkt_of t d) as [w|]; [|exact O]. destruct w; try discriminate; apply wkt_safeb_ok.
  - rewrite and_all, Forall_forall, forallb_forall. rewrite Forall_forall in IH. auto.
  - destruct (kind_msg k) as [e|]; auto. destruct (entry_value t e) as [vf|]; auto.
    rewrite and_all, Forall_forall, forallb_forall. rewrite Forall_forall in IH. auto.
Qed.
Example C42_example : forall o deny n,
  wf jex /\ json_schemab jrx o jex = true /\ standard_types jex /\ json_search_finds jrx /\ ok_msg jex jr_m = true /\
  survives jrx jex o deny n jr_m /\ without_any jex (VMessage jr_m) = true.
Proof.
  intros o deny n. split; [exact jex_wf|]. split; [apply jrx_schema|]. split; [exact jex_standard|]. split; [exact jrx_search|].
  split; [vm_compute; reflexivity|]. split; [|vm_compute; reflexivity].
  apply jsafeb_ok. destruct o as [? ? ? []]; vm_compute; reflexivity.
Qed.
(** an Any with a message in it, here with an unknown field that JSON drops *)
Definition jr_bytes : list N :=
  match enc_msg jex jr_child with Ok b => b ++ [152; 6; 1] | _ => [] end.
Definition jr_any : dynmsg := DM 0 [(1, SVal (VString (s2b "t.io/M"))); (2, SVal (VBytes jr_bytes))].
Example C42_example_any : forall deny, ok_msg jex jr_any = true /\ survives jrx jex jopt_default deny 1 jr_any.
Proof.
  intros deny. split; [vm_compute; reflexivity|]. unfold survives. cbn [jsafe jr_any dm_desc].
  replace (wkt_of jex 0) with (Some WAny) by (vm_compute; reflexivity). cbn [any_safe].
  split; [vm_compute; lia|]. split; [vm_compute; reflexivity|].
  destruct (get_field jex (dm_desc jr_any) 1) as [f1|] eqn:E1; [|vm_compute in E1; discriminate].
  destruct (get_field jex (dm_desc jr_any) 2) as [f2|] eqn:E2; [|vm_compute in E2; discriminate].
  destruct (msg_decode jex 18 jr_bytes) as [x| | |] eqn:Ex; try (vm_compute in Ex; discriminate).
  exists f1, f2, (s2b "t.io/M"), jr_bytes, (s2b "M"), 18%nat, x. split; [exact E1|]. split; [exact E2|].
  vm_compute in E1, E2, Ex. injection E1 as <-. injection E2 as <-. injection Ex as <-.
  do 4 (split; [vm_compute; reflexivity|]). split; [reflexivity|]. split; [apply jsafeb_ok; vm_compute; reflexivity|].
  intros j x' b' Hj Hx Hb. vm_compute in Hj. injection Hj as <-. vm_compute in Hx.
  injection Hx as <-. vm_compute in Hb. injection Hb as <-. vm_compute. reflexivity.
Qed.


(** ** What does not come back *)

Definition written (o : jopt) (m : dynmsg) : jres json :=
  match to_json jrx jex o 3 m with JOk j => JOk (carried jrx j) | JErr e => JErr e | JPanic => JPanic | JFuel => JFuel end.
Definition comes_back (o : jopt) (m : dynmsg) : jres dynmsg :=
  match written o m with JOk j => from_json jrx jex false (dm_desc m) j | JErr e => JErr e | JPanic => JPanic | JFuel => JFuel end.

(** A DoubleValue (or FloatValue) that is not finite is handed to the format as
    a number (ser/wkt.rs:124-148): serde_json writes null, which is not read.  In
    a double field the same infinity is written as a string and comes back. *)
Theorem C42_refuted_double_value :
  ok_msg jex (DM 9 [(1, SVal (VF64 inf64))]) = true /\
  written jopt_default (DM 9 [(1, SVal (VF64 inf64))]) = JOk JNull /\
  comes_back jopt_default (DM 9 [(1, SVal (VF64 inf64))]) = JErr XType /\
  comes_back jopt_default (DM 18 [(15, SVal (VF64 inf64))]) = JOk (DM 18 [(15, SVal (VF64 inf64))]) /\
  comes_back jopt_default (DM 18 [(17, SVal (VMessage (DM 9 [(1, SVal (VF64 inf64))])))]) = JOk (DM 18 []).
Proof. repeat split; vm_compute; reflexivity. Qed.
Print Assumptions C42_refuted_double_value.

(** A google.protobuf.NullValue is written as null whatever its number
    (ser/mod.rs:156-159). *)
Theorem C42_refuted_null_value_number :
  ok_msg jex (DM 18 [(6, SVal (VEnum 1))]) = true /\
  written jopt_default (DM 18 [(6, SVal (VEnum 1))]) = JOk (JObj [(s2b "n", JNull)]) /\
  comes_back jopt_default (DM 18 [(6, SVal (VEnum 1))]) = JOk (DM 18 [(6, SVal (VEnum 0))]).
Proof. repeat split; vm_compute; reflexivity. Qed.
Print Assumptions C42_refuted_null_value_number.

(** A google.protobuf.Value with no kind set comes back with null_value set. *)
Theorem C42_refuted_empty_value :
  ok_msg jex (DM 5 []) = true /\ written jopt_default (DM 5 []) = JOk JNull /\
  comes_back jopt_default (DM 5 []) = JOk (DM 5 [(1, SVal (VEnum 0))]).
Proof. repeat split; vm_compute; reflexivity. Qed.
Print Assumptions C42_refuted_empty_value.

(** An empty Any cannot be written (ser/wkt.rs:52-98 asks for a type). *)
Theorem C42_refuted_empty_any :
  ok_msg jex (DM 0 []) = true /\ written jopt_default (DM 0 []) = JErr XTypeUrl.
Proof. repeat split; vm_compute; reflexivity. Qed.
Print Assumptions C42_refuted_empty_any.

(** -0.0 in a float field without presence is left out, unless defaults are
    written (Value::is_default compares with ==). *)
Theorem C42_refuted_negative_zero :
  ok_msg jex (DM 18 [(14, SVal (VF32 sign32))]) = true /\
  comes_back jopt_default (DM 18 [(14, SVal (VF32 sign32))]) = JOk (DM 18 []).
Proof. repeat split; vm_compute; reflexivity. Qed.
Print Assumptions C42_refuted_negative_zero.

(** With names of fields for members (use_proto_field_name), a field whose name
    is the JSON name of another: reading tries JSON names first
    (member_field, de/kind.rs find_field), and the value ends up in the other field.  Such a
    message is accepted by the pool, which compares names with names and JSON
    names with JSON names (C20, C22). *)
Definition swapped : tables := {|
  t_messages := [ ex_msg "S" [ FieldI (ex_id "S." "a") 1 (s2b "b") KInt32 None false false Optional None;
                               FieldI (ex_id "S." "b") 2 (s2b "a") KInt32 None false false Optional None ] [] [] false ];
  t_enums := []; t_exts := []
|}.
Theorem C42_refuted_swapped_names :
  wf swapped /\ ok_msg swapped (DM 0 [(1, SVal (VI32 5))]) = true /\
  to_json jrx swapped (JOpt true false true true) 3 (DM 0 [(1, SVal (VI32 5))]) = JOk (JObj [(s2b "a", JInt 5)]) /\
  from_json jrx swapped false 0 (JObj [(s2b "a", JInt 5)]) = JOk (DM 0 [(2, SVal (VI32 5))]) /\
  json_schemab jrx (JOpt true false false true) swapped = true /\ json_schemab jrx (JOpt true false true true) swapped = false.
Proof. repeat split; vm_compute; reflexivity. Qed.
Print Assumptions C42_refuted_swapped_names.
