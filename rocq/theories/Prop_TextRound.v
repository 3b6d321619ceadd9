(** C38: the text printed for a message is read back as the message.
    C41: the pretty and the compact text are read back as the same message.
    C49: the message an Any stands for. *)
From Coq Require Import String.
From Verif Require Import TextMeaning TextMeaningMain Base BaseProofs Wire WireProofs LoopProofs Unknown UnknownProofs
  Value Descr Fields Codec DescrOk DescrProofs FieldsProofs LenProofs MergeProofs RoundSpec RoundProofs
  RoundMain RoundSame ItemRound Float TextLex TextFormat TextParse TextLexProofs TextInts TextTokens TextSafe TextScalars
  TextRound Prop_TextSafe ExampleSchema.
Open Scope list_scope.
Open Scope N_scope.

(** ** What is asked of the schema *)

(** names are identifiers; a group field is named like its type, in lower case,
    and no field that is not a group is named exactly like the type *)
Definition name_text_okb (t : tables) (d : nat) (f : fdl) : bool :=
  match fd_kind f with
  | KGroup i =>
      match nth_error (t_messages t) i with
      | Some m =>
          ident_okb (id_name (m_id m)) && bytes_eqb (fd_name f) (lowercase (id_name (m_id m))) &&
          forallb (fun g => fd_is_group g || negb (bytes_eqb (fd_name g) (id_name (m_id m)))) (msg_fields t d)
      | None => false
      end
  | _ => ident_okb (fd_name f)
  end.
(** and fields without presence declare no default and are in no oneof *)
Definition field_text_okb (t : tables) (d : nat) (f : fdl) : bool :=
  name_text_okb t d f &&
  (fd_presence f || match fd_default f, fd_oneof f with None, None => true | _, _ => false end).
Definition ext_text_okb (t : tables) (d : nat) (f : fdl) : bool :=
  dotted_okb (fd_full f) &&
  match get_ext_by_full t d (fd_full f) with Some g => fd_number g =? fd_number f | None => false end.
(** the entries of maps have the fields key = 1 and value = 2 *)
Definition map_text_okb (t : tables) (f : fdl) : bool :=
  if fd_is_map f then
    match kind_msg (fd_kind f) with
    | Some e =>
        match find_field t e (s2b "key"), find_field t e (s2b "value") with
        | Some kf, Some vf =>
            (fd_number kf =? 1) && (fd_number vf =? 2) &&
            match fd_oneof kf, fd_oneof vf with None, None => true | _, _ => false end
        | _, _ => false
        end
    | None => true
    end
  else true.
Definition text_okb (t : tables) : bool :=
  forallb (fun d =>
    forallb (field_text_okb t d) (msg_fields t d) &&
    distinctb (map fd_number (msg_exts t d)) &&
    forallb (ext_text_okb t d) (msg_exts t d) &&
    forallb (map_text_okb t) (msg_fields t d ++ msg_exts t d))
    (seq 0 (length (t_messages t))) &&
  forallb (enum_text_okb t) (seq 0 (length (t_enums t))).

Record text_ok (t : tables) : Prop := {
  to_oneofs : oneofs_present t;
  to_defaults : defaults_plain t;
  to_name : forall d f, get_field t d (fd_number f) = Some f ->
    ident_okb (print_name t f) = true /\ find_field t d (print_name t f) = Some f;
  to_ext : forall d f, get_ext t d (fd_number f) = Some f ->
    dotted_okb (fd_full f) = true /\ get_ext_by_full t d (fd_full f) = Some f;
  to_entry : forall d n f e kf vf, find_desc t d n = Some f -> fd_is_map f = true -> kind_msg (fd_kind f) = Some e ->
    entry_key t e = Some kf -> entry_value t e = Some vf ->
    find_field t e (s2b "key") = Some kf /\ find_field t e (s2b "value") = Some vf /\
    fd_oneof kf = None /\ fd_oneof vf = None;
  to_enum : forall e, enum_text_okb t e = true
}.
Lemma name_text_found t d f : wf t -> get_field t d (fd_number f) = Some f -> name_text_okb t d f = true ->
  ident_okb (print_name t f) = true /\ find_field t d (print_name t f) = Some f.
Proof.
  intros Hw G H. apply (msg_fields_get _ _ _ (proj1 Hw)) in G. unfold name_text_okb in H. unfold print_name. rewrite (names_ident t Hw).
  destruct (fd_kind f) as [| | | | | | | | | | | | | | | | |i] eqn:K.
  18: { destruct (nth_error (t_messages t) i) as [m|] eqn:E; [|discriminate]. rewrite !andb_true_iff in H. destruct H as [[H1 H2] H3]. split; [exact H1|].
    eapply na_group; [exact G|exact K|exact E|reflexivity|now apply bytes_eqb_eq|]. intros g Hg Eg. rewrite forallb_forall in H3. specialize (H3 g Hg).
    rewrite Eg, bytes_eqb_refl in H3. now destruct (fd_is_group g). }
  all: split; [exact H|]; apply na_field; [exact G|unfold fd_is_group; now rewrite K].
Qed.
Lemma text_okb_ok t : wf t -> text_okb t = true -> text_ok t.
Proof.
  intros Hw H. pose proof (proj1 Hw) as Ht. unfold text_okb in H. apply andb_true_iff in H. destruct H as [H He]. rewrite forallb_forall in H, He.
  assert (A : forall d m, nth_error (t_messages t) d = Some m -> In d (seq 0 (length (t_messages t)))).
  { intros d m E. apply in_seq. split; [lia|]. apply nth_error_Some. congruence. }
  assert (Hx : forall d, NoDup (map fd_number (msg_exts t d))).
  { intros d. destruct (nth_error (t_messages t) d) as [m|] eqn:E.
    - specialize (H d (A _ _ E)). rewrite !andb_true_iff in H. apply distinctb_NoDup, H.
    - unfold msg_exts. rewrite E. constructor. }
  assert (Hf : forall d n f, get_field t d n = Some f -> field_text_okb t d f = true /\ map_text_okb t f = true).
  { intros d n f Hf. pose proof (get_field_in _ _ _ _ Ht Hf) as Hin.
    destruct (nth_error (t_messages t) d) as [m|] eqn:E; [|unfold get_field in Hf; rewrite E in Hf; discriminate].
    specialize (H d (A _ _ E)). rewrite !andb_true_iff, !forallb_forall in H. destruct H as [[[H1 _] _] H4].
    split; [apply H1, Hin|apply H4, in_app_iff; auto]. }
  assert (Hg : forall d n f, get_ext t d n = Some f -> ext_text_okb t d f = true /\ map_text_okb t f = true).
  { intros d n f Hf'. unfold get_ext in Hf'. apply find_some in Hf'. destruct Hf' as [Hin _].
    destruct (nth_error (t_messages t) d) as [m|] eqn:E; [|unfold msg_exts in Hin; rewrite E in Hin; destruct Hin].
    specialize (H d (A _ _ E)). rewrite !andb_true_iff, !forallb_forall in H. destruct H as [[[_ _] H3] H4].
    split; [apply H3, Hin|apply H4, in_app_iff; auto]. }
  constructor.
  - intros d n f nums G Ho. destruct (Hf _ _ _ G) as [F _]. unfold field_text_okb in F. rewrite !andb_true_iff in F.
    destruct F as [_ F]. rewrite Ho in F. destruct (fd_presence f); [reflexivity|]. destruct (fd_default f); discriminate.
  - intros d n f G Hp. destruct (Hf _ _ _ G) as [F _]. unfold field_text_okb in F. rewrite !andb_true_iff in F.
    destruct F as [_ F]. rewrite Hp in F. destruct (fd_default f); [discriminate|reflexivity].
  - intros d f G. destruct (Hf _ _ _ G) as [F _]. unfold field_text_okb in F. rewrite !andb_true_iff in F.
    apply name_text_found; [exact Hw|exact G|apply F].
  - intros d f G. destruct (Hg _ _ _ G) as [F _]. unfold ext_text_okb in F. rewrite !andb_true_iff in F.
    destruct F as [F1 F2]. split; [exact F1|]. destruct (get_ext_by_full t d (fd_full f)) as [g|] eqn:E; [|discriminate].
    apply N.eqb_eq in F2. pose proof (get_ext_full_desc t Hw Hx d _ _ E) as D. rewrite F2 in D. unfold find_desc in D.
    rewrite (field_ext_disjoint _ _ _ _ Hw G), G in D. congruence.
  - intros d n f e kf vf D Hm Hk Hkf Hvf.
    assert (M : map_text_okb t f = true).
    { unfold find_desc in D. destruct (get_field t d n) eqn:G; [injection D as ->; eapply Hf; exact G|eapply Hg; exact D]. }
    unfold map_text_okb in M. rewrite Hm, Hk in M.
    destruct (find_field t e (s2b "key")) as [kf'|] eqn:E1; [|discriminate]. destruct (find_field t e (s2b "value")) as [vf'|] eqn:E2; [|discriminate].
    rewrite !andb_true_iff in M. destruct M as [[M1 M2] M3]. apply N.eqb_eq in M1, M2.
    pose proof (find_field_desc t Hw e _ _ E1) as D1. pose proof (find_field_desc t Hw e _ _ E2) as D2.
    rewrite M1 in D1. rewrite M2 in D2. unfold find_desc in D1, D2. unfold entry_key, entry_value, MAP_KEY_NUMBER, MAP_VALUE_NUMBER in Hkf, Hvf.
    rewrite Hkf in D1. rewrite Hvf in D2. injection D1 as <-. injection D2 as <-.
    split; [reflexivity|]. split; [reflexivity|]. destruct (fd_oneof kf); [discriminate|]. destruct (fd_oneof vf); [discriminate|]. auto.
  - intros e. unfold enum_text_okb. destruct (nth_error (t_enums t) e) as [en|] eqn:E; [|reflexivity].
    assert (In e (seq 0 (length (t_enums t)))) as Hin by (apply in_seq; split; [lia|]; apply nth_error_Some; congruence).
    specialize (He e Hin). unfold enum_text_okb in He. rewrite E in He. exact He.
Qed.

(** Any messages are printed as they are *)
Definition no_any (t : tables) (o : topt) : Prop :=
  o_expand_any o = false \/ forall d, full_name t d <> any_name.
Lemma no_any_fmt E t o n : no_any t o -> forall ind m, fmt_any E t o n ind m = None.
Proof.
  intros H ind m. assert (negb (o_expand_any o) || negb (bytes_eqb (full_name t (dm_desc m)) any_name) = true) as Hb.
  { destruct H as [->|H]; [reflexivity|]. apply orb_true_iff. right. apply negb_true_iff.
    destruct (bytes_eqb (full_name t (dm_desc m)) any_name) eqn:E1; [|reflexivity]. apply bytes_eqb_eq in E1. exfalso. eapply H, E1. }
  destruct n; cbn [fmt_any]; rewrite Hb; reflexivity.
Qed.

(** slice::binary_search finds an entry with the number *)
Definition search_finds (E : text_externs) : Prop :=
  forall l z i, tx_search E l z = Some i -> exists j, nth_error l i = Some (z, j).
(** with skip_default_fields off, the defaults of float and double fields are
    printed too *)
Definition zero_reads (E : text_externs) (o : topt) : Prop :=
  o_skip_default o = false -> reads32 E 0 = true /\ reads64 E 0 = true.

Lemma each_true v : each_message (fun _ => True) v.
Proof.
  induction v as [b|z|z|n|n|n|n|s|s|z|d fs IH|vs IH|kvs IH] using value_ind'; cbn; auto; try (apply all_and; exact IH).
  split; [exact I|]. apply all_and. eapply Forall_impl; [|exact IH]. intros [k [|x|us]]; cbn; auto.
Qed.
Lemma to_text_reads E t o n m :
  wf t -> text_okb t = true -> search_finds E -> o_skip_unknown o = true -> no_any t o -> zero_reads E o ->
  ok_msg t m = true -> floats_back E (VMessage m) = true ->
  exists b, to_text E t o n m = Ok b /\
    parse_text t (dm_desc m) b = MOk (renew_msg t (negb (o_skip_default o)) (o_index_order o) (fun _ => None) m) [].
Proof.
  intros Hw Ht Hs Hu Ha Hz Hm Hf. destruct (text_okb_ok t Hw Ht) as [H1 H2 H3 H4 H5 H6].
  destruct o as [p u x s i]. cbn [o_skip_unknown] in Hu. subst u.
  destruct (text_reads E t Hw p x (negb s) i (fmt_any E t (TOpt p true x (negb (negb s)) i) n)) with (m := m) (ran := fun _ : dynmsg => @None dynmsg) (safe := fun _ : dynmsg => True) as (b & Eb & Hp); auto.
  - intros m0 _ _ _ ind. apply no_any_fmt. rewrite negb_involutive. exact Ha.
  - intros Hn. apply Hz. now apply negb_true_iff in Hn.
  - apply each_true.
  - apply no_any_fmt. rewrite negb_involutive. exact Ha.
  - rewrite negb_involutive in Eb. exists b. split; [exact Eb|exact Hp].
Qed.

(** ** C38

    Printing a message and parsing the text with the same descriptor gives a
    message that agrees with it on every field and extension, at every depth
    ([agree_msg]): the same ones are set, and to the same values.  For every
    layout option, for messages of any size and depth.  Conditions: unknown
    fields are not printed; Any messages are not expanded; floats are ones whose
    text reads back ([floats_back], false only for NaN with another payload
    than the reader's and for floats that are rounded twice, see below); and,
    as in the wire format (C02), a negative zero in a field without presence is
    not distinguished from zero unless defaults are printed ([zeros_shown]). *)
Theorem C38_text_round_trip E t o n m :
  wf t -> text_okb t = true -> search_finds E -> o_skip_unknown o = true -> no_any t o -> zero_reads E o ->
  ok_msg t m = true -> floats_back E (VMessage m) = true ->
  zeros_shown t (negb (o_skip_default o)) (VMessage m) = true ->
  exists b m', to_text E t o n m = Ok b /\ parse_text t (dm_desc m) b = MOk m' [] /\ agree_msg t m m'.
Proof.
  intros Hw Ht Hs Hu Ha Hz Hm Hf Hzs. destruct (to_text_reads E t o n m Hw Ht Hs Hu Ha Hz Hm Hf) as (b & Eb & Hp).
  exists b. eexists. split; [exact Eb|]. split; [exact Hp|].
  apply renew_agrees; auto. apply (to_defaults _ (text_okb_ok t Hw Ht)).
Qed.

(** ** C41 *)

(** the options that only change the layout of the text *)
Definition same_fields (o o' : topt) : Prop :=
  o_skip_unknown o = o_skip_unknown o' /\ o_expand_any o = o_expand_any o' /\
  o_skip_default o = o_skip_default o' /\ o_index_order o = o_index_order o'.
Theorem C41_pretty_and_compact_agree E t o o' n m :
  wf t -> text_okb t = true -> search_finds E -> same_fields o o' -> o_skip_unknown o = true -> no_any t o -> zero_reads E o ->
  ok_msg t m = true -> floats_back E (VMessage m) = true ->
  exists b b' m', to_text E t o n m = Ok b /\ to_text E t o' n m = Ok b' /\
    parse_text t (dm_desc m) b = MOk m' [] /\ parse_text t (dm_desc m) b' = MOk m' [].
Proof.
  intros Hw Ht Hs (S1 & S2 & S3 & S4) Hu Ha Hz Hm Hf.
  destruct (to_text_reads E t o n m Hw Ht Hs Hu Ha Hz Hm Hf) as (b & Eb & Hp).
  destruct (to_text_reads E t o' n m Hw Ht Hs) as (b' & Eb' & Hp'); auto.
  - congruence.
  - unfold no_any in *. rewrite <- S2. exact Ha.
  - unfold zero_reads in *. rewrite <- S3. exact Hz.
  - exists b, b'. eexists. split; [exact Eb|]. split; [exact Eb'|]. split; [exact Hp|]. rewrite Hp', S3, S4. reflexivity.
Qed.

(** ** C49 *)

(** The message name of a type URL is what follows the last slash; there is
    none exactly when there is no slash. *)
Theorem C49_name_after_last_slash url nm :
  type_url_name url = Some nm <-> exists domain, url = domain ++ 47 :: nm /\ ~ In 47 nm.
Proof.
  unfold type_url_name.
  assert (N : forall s, rsplit_slash s = None <-> ~ In 47 s).
  { induction s as [|c s IH]; cbn [rsplit_slash In]; [tauto|]. destruct (rsplit_slash s) as [[a b]|].
    - split; [discriminate|]. intros H. exfalso. destruct IH as [_ IH]. discriminate IH. tauto.
    - destruct (N.eqb_spec c 47); split; intros H; try discriminate; tauto. }
  revert nm. induction url as [|c s IH]; intros nm; cbn [rsplit_slash option_map].
  - split; [discriminate|]. intros ([|? ?] & H & _); discriminate.
  - destruct (rsplit_slash s) as [[a b]|] eqn:Es.
    + cbn [option_map snd] in *. split.
      * intros [= ->]. destruct (proj1 (IH nm) eq_refl) as (dom & -> & Hn). exists (c :: dom). auto.
      * intros (dom & Hd & Hn). apply IH. destruct dom as [|x dom].
        -- injection Hd as -> ->. apply (proj2 (N nm)) in Hn. congruence.
        -- injection Hd as -> ->. eauto.
    + pose proof (proj1 (N s) Es) as Hs. destruct (N.eqb_spec c 47) as [->|Hc]; cbn [option_map snd].
      * split.
        -- intros [= ->]. exists []. auto.
        -- intros (dom & Hd & Hn). destruct dom as [|x dom]; [injection Hd as ->; reflexivity|].
           injection Hd as _ ->. exfalso. apply Hs. apply in_app_iff. right. left. reflexivity.
      * split; [discriminate|]. intros (dom & Hd & Hn). destruct dom as [|x dom]; [injection Hd as Hd _; congruence|].
        injection Hd as _ ->. exfalso. apply Hs. apply in_app_iff. right. left. reflexivity.
Qed.
Theorem C49_no_slash_no_name url : type_url_name url = None <-> ~ In 47 url.
Proof.
  destruct (type_url_name url) as [nm|] eqn:E.
  - split; [discriminate|]. intros H. apply C49_name_after_last_slash in E. destruct E as (dom & -> & _).
    exfalso. apply H. apply in_app_iff. right. left. reflexivity.
  - split; [|reflexivity]. intros _ Hin.
    assert (forall s, In 47 s -> exists dom nm, s = dom ++ 47 :: nm /\ ~ In 47 nm) as Hl.
    { clear. induction s as [|c s IH]; [intros []|]. intros Hin. destruct (in_dec N.eq_dec 47 s) as [Hs|Hs].
      - destruct (IH Hs) as (dom & nm & -> & Hn). exists (c :: dom), nm. auto.
      - destruct Hin as [->|Hin]; [exists [], s; auto|contradiction]. }
    destruct (Hl _ Hin) as (dom & nm & -> & Hn).
    assert (type_url_name (dom ++ 47 :: nm) = Some nm) by (apply C49_name_after_last_slash; eauto). congruence.
Qed.
Lemma msg_decode_desc t d b m : msg_decode t d b = Ok m -> dm_desc m = d.
Proof.
  unfold msg_decode, msg_merge, msg_merge_fuel. generalize (merge_fuel b) as n. intros n.
  assert (G : forall k buf m0 m1 r, stream_loop k (merge_msg_field t (merge_value n t) ctx0) m0 buf = DOk m1 r -> dm_desc m1 = dm_desc m0).
  { induction k as [|k IH]; intros buf m0 m1 r; destruct buf as [|c buf]; cbn [stream_loop]; try discriminate; try (intros [= -> _]; reflexivity).
    destruct (decode_key (c :: buf)) as [[[num w] r0]| | |]; try discriminate.
    destruct (merge_msg_field t (merge_value n t) ctx0 m0 num w r0) as [m2 r2| | |] eqn:E; try discriminate.
    intros H. rewrite (IH _ _ _ _ H). unfold merge_msg_field in E. destruct (find_desc t (dm_desc m0) num) as [f|].
    - unfold merge_into in E. destruct (merge_value n t f _ w ctx0 r0); try discriminate. injection E as <- _. reflexivity.
    - destruct (uf_decode_value ctx0 num w r0) as [[u r3]| | |]; try discriminate. destruct (fs_add_unknown num u (dm_fields m0)); try discriminate.
      injection E as <- _. reflexivity. }
  destruct (stream_loop (length b) _ (new_msg d) b) as [m1 r| | |] eqn:E; try discriminate. intros [= ->].
  exact (G _ _ _ _ _ E).
Qed.
(** An Any is printed expanded only as the message its URL names. *)
Theorem C49_expanded_as_named t m url body : as_any t m = Ok (Some (url, body)) ->
  exists nm, type_url_name url = Some nm /\ find_msg t nm = Some (dm_desc body).
Proof.
  unfold as_any. destruct (negb (bytes_eqb (full_name t (dm_desc m)) any_name)); [discriminate|].
  destruct (enc_msg t m) as [b| | |]; try discriminate. cbn [rbind].
  destruct (msg_decode any_tables 0 b) as [a| | |]; try discriminate.
  destruct (type_url_name _) as [nm|] eqn:En; [|discriminate]. destruct (find_msg t nm) as [d|] eqn:Ed; [|discriminate].
  destruct (msg_decode t d _) as [body'| | |] eqn:Eb; try discriminate. intros [= <- <-]. exists nm. split; [exact En|].
  rewrite Ed. f_equal. symmetry. eapply msg_decode_desc; exact Eb.
Qed.
(** If the URL consists of dotted identifiers around one slash, the text
    [[url]] is read back as naming that same URL and message. *)
Theorem C49_printed_name_reads_back domain nm rest ks :
  dotted_okb domain = true -> dotted_okb nm = true -> lex rest = Ok ks ->
  type_url_name (domain ++ 47 :: nm) = Some nm /\
  exists ts, lex (91 :: (domain ++ 47 :: nm) ++ 93 :: rest) = Ok ts /\
    field_name ts = POk (FAny domain nm) ks.
Proof.
  intros Hd Hn L. split.
  - apply C49_name_after_last_slash. exists domain. split; [reflexivity|]. intros Hin.
    assert (forall s, forallb ident_okb (split_dots [] s) = true -> ~ In 47 s) as A; [|exact (A nm Hn Hin)].
    clear. intros s H Hin. pose proof (join_split s []) as J. cbn [app] in J. rewrite <- J in Hin. clear J.
    rewrite forallb_forall in H. revert H Hin. generalize (split_dots [] s) as l. induction l as [|a l IH]; intros H Hin; [destruct Hin|].
    assert (In 47 a -> False) as Ha.
    { intros Hx. pose proof (H a (or_introl eq_refl)) as Hi. destruct a as [|c a]; [destruct Hx|]. cbn [ident_okb] in Hi.
      apply andb_true_iff in Hi. destruct Hi as [Hc Hi]. rewrite forallb_forall in Hi. destruct Hx as [->|Hx]; [discriminate Hc|].
      specialize (Hi _ Hx). discriminate Hi. }
    destruct l as [|a' l]; [apply Ha, Hin|]. change (join_dots (a :: a' :: l)) with (a ++ 46 :: join_dots (a' :: l)) in Hin.
    apply in_app_iff in Hin. destruct Hin as [Hin|[Hin|Hin]]; [apply Ha, Hin|discriminate|]. apply IH; [|exact Hin].
    intros x Hx. apply H. right. exact Hx.
  - exists (TLBrack :: name_toks domain ++ TSlash :: name_toks nm ++ TRBrack :: ks). split.
    + rewrite <- app_assoc. cbn [app]. apply lex_punct'; [reflexivity|discriminate|].
      apply lex_dotted; [exact Hd|reflexivity|]. apply lex_punct'; [reflexivity|discriminate|].
      apply lex_dotted; [exact Hn|reflexivity|]. apply lex_punct'; [reflexivity|discriminate|exact L].
    + cbn [field_name]. rewrite full_ident_name by (try reflexivity; exact I). cbn [pbind].
      rewrite full_ident_name by (try reflexivity; exact I). reflexivity.
Qed.

(** ** The conditions can be met *)

(** a printer that knows the floats of the example *)
Definition ex_E : text_externs := TextExterns
  (fun l z => (fix go l i := match l with [] => None | (z', _) :: r => if (z =? z')%Z then Some i else go r (S i) end) l 0%nat)
  (fun b => if b =? 1065353216 then s2b "1.0" else s2b "0.0")
  (fun b => if b =? 4611686018427387904 then s2b "2.0" else if b =? sign64 then s2b "-0.0" else s2b "0.0").
Lemma ex_search_finds : search_finds ex_E.
Proof.
  intros l z i H. cbn [tx_search ex_E] in H.
  assert (G : forall l k i, (fix go (l : list (Z * nat)) (i : nat) := match l with [] => None | (z', _) :: r => if (z =? z')%Z then Some i else go r (S i) end) l k = Some i ->
    (k <= i)%nat /\ exists j, nth_error l (i - k) = Some (z, j)).
  { clear. induction l as [|[z' j] l IH]; intros k i; [discriminate|]. destruct (Z.eqb_spec z z') as [->|_].
    - intros [= ->]. split; [lia|]. rewrite Nat.sub_diag. cbn. eauto.
    - intros H. destruct (IH _ _ H) as [Hle [j' Hj]]. split; [lia|]. exists j'. replace (i - k)%nat with (S (i - S k)) by lia. exact Hj. }
  destruct (G _ _ _ H) as [_ Hj]. rewrite Nat.sub_0_r in Hj. exact Hj.
Qed.
Example C38_conditions_met :
  wf ex /\ text_okb ex = true /\ ok_msg ex ex_m = true /\ floats_back ex_E (VMessage ex_m) = true /\
  zeros_shown ex false (VMessage ex_m) = true /\ zero_reads ex_E (TOpt true true true false true) /\
  no_any ex topt_default.
Proof.
  split; [exact ex_wf|]. split; [vm_compute; reflexivity|]. split; [vm_compute; reflexivity|]. split; [vm_compute; reflexivity|].
  split; [vm_compute; reflexivity|]. split; [intros _; split; vm_compute; reflexivity|].
  right. intros d. do 3 (destruct d as [|d]; [discriminate|]). destruct d; discriminate.
Qed.
Example C38_example_text :
  to_text ex_E ex topt_default 0 ex_leaf = Ok (s2b "a:-5,y:""yy""") /\
  to_text ex_E ex (TOpt true true true true false) 0 (DM 0 [(4, SVal (VMap [(MKString (s2b "k"), VMessage ex_leaf)])); (101, SVal (VI64 7))])
  = Ok (s2b "mp: [{
  key: ""k""
  value {
    a: -5
    y: ""yy""
  }
}]
[ext2]: 7").
Proof. split; vm_compute; reflexivity. Qed.

(** ** Stronger claims that do not hold *)

(** A float whose shortest decimal is rounded twice, to a double and then to a
    float, comes back as its neighbour.  The text is what Display prints: the
    shortest decimal that reads back as that float. *)
Definition ex_twice : N := 363742205.
Definition ex_E32 : text_externs :=
  TextExterns (tx_search ex_E) (fun b => if b =? ex_twice then s2b "0.00000000000000000000000007038531" else s2b "0.0") (tx_show64 ex_E).
Theorem C38_float_rounded_twice_refuted :
  f32_parse (tx_show32 ex_E32 ex_twice) = ex_twice /\
  let m := DM 2 [(1, SVal (VF32 ex_twice))] in
  ok_msg ex m = true /\
  to_text ex_E32 ex topt_default 0 m = Ok (s2b "f:0.00000000000000000000000007038531") /\
  parse_text ex 2 (s2b "f:0.00000000000000000000000007038531") = MOk (DM 2 [(1, SVal (VF32 (ex_twice + 1)))]) [].
Proof. split; [vm_compute; reflexivity|]. split; [vm_compute; reflexivity|]. split; vm_compute; reflexivity. Qed.
(** Expanding an Any drops what its value holds beyond the known fields. *)
Theorem C38_expanded_any_refuted :
  let m := DM 0 [(1, SVal (VString (s2b "x/N"))); (2, SVal (VBytes [8; 1; 16; 5]))] in
  wf (ex_any Optional) /\ ok_msg (ex_any Optional) m = true /\
  to_text ex_E (ex_any Optional) topt_default 1 m = Ok (s2b "[x/N]{a:1}") /\
  parse_text (ex_any Optional) 0 (s2b "[x/N]{a:1}")
  = MOk (DM 0 [(1, SVal (VString (s2b "x/N"))); (2, SVal (VBytes [8; 1]))]) [].
Proof. split; [split; vm_compute; reflexivity|]. split; [vm_compute; reflexivity|]. split; vm_compute; reflexivity. Qed.
(** A type URL is printed as it is, even if it cannot be read. *)
Theorem C49_unusual_url_refuted :
  let m := DM 0 [(1, SVal (VString (s2b "https://x.y/N"))); (2, SVal (VBytes [8; 1]))] in
  ok_msg (ex_any Optional) m = true /\
  to_text ex_E (ex_any Optional) topt_default 1 m = Ok (s2b "[https://x.y/N]{a:1}") /\
  parse_text (ex_any Optional) 0 (s2b "[https://x.y/N]{a:1}") = MErr PUnexpected (new_msg 0).
Proof. split; [vm_compute; reflexivity|]. split; vm_compute; reflexivity. Qed.
(** Unknown fields are printed by their numbers, which are not read. *)
Theorem C38_unknown_fields_refuted :
  let m := DM 0 [(50, SUnk [UVarint 50 7])] in
  ok_msg ex m = true /\
  to_text ex_E ex (TOpt false false true true false) 0 m = Ok (s2b "50:7") /\
  parse_text ex 0 (s2b "50:7") = MErr PUnexpected (new_msg 0).
Proof. split; [vm_compute; reflexivity|]. split; vm_compute; reflexivity. Qed.

Print Assumptions C38_text_round_trip.
Print Assumptions C41_pretty_and_compact_agree.
Print Assumptions C49_name_after_last_slash.
Print Assumptions C49_no_slash_no_name.
Print Assumptions C49_expanded_as_named.
Print Assumptions C49_printed_name_reads_back.
