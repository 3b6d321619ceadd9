(** Pools of files with what protoc guarantees of names: JSON finds everything
    again (for C70). *)
From Coq Require Import String.
From Verif Require Import Base BaseProofs Wire WireProofs Unknown Value Descr Fields Codec DescrOk DescrProofs Proto Build VisitProofs EventProofs BuildFrame BuildNames BuildQuiet BuildResolve BuildSafe BuildInv
  RoundSpec ItemRound TextLex TextLexProofs TextFormat TextParse TextScalars TextRound Prop_TextSafe Prop_TextRound
  Json JsonSer JsonDe JsonWkt JsonSafe JsonTree JsonScalarBack JsonRound Prop_JsonSafe Prop_JsonRules Prop_JsonRound
  DeclSpec DeclProofs PoolFacts PoolMembers SaneSpec BridgeProofs Prop_Declared NamedSpec NamedProofs.
From Coq Require Import List.
Import ListNotations.
Local Open Scope list_scope.
Local Open Scope N_scope.

(** the decimal numbers of zero are read as zero, and the first value of
    google.protobuf.NullValue is 0; asked only when defaults are written *)
Definition zeros_back (E : json_externs) (t : tables) : Prop :=
  float_back32 E 0 = true /\ float_back64 E 0 = true /\
  forall e, is_null_enum t e = true -> enum_default t e = 0%Z.

Lemma identifier_char s c : identifier s -> In c s -> letter c \/ digit c.
Proof.
  intros (a & r & -> & L & F) [H|H]; [subst; now left|]. rewrite Forall_forall in F. exact (F _ H).
Qed.
Lemma json_name_char s : forall up c, In c (json_name_from up s) -> In c s \/ exists a, In a s /\ c = upper a.
Proof.
  induction s as [|x s IH]; intros up c H; [destruct H|]. cbn [json_name_from] in H.
  assert (forall up', In c (json_name_from up' s) -> In c (x :: s) \/ exists a, In a (x :: s) /\ c = upper a) as Q.
  { intros up' Hc. destruct (IH _ _ Hc) as [A|(a & A & B)]; [left; now right|right; exists a; split; [now right|exact B]]. }
  destruct (x =? underscore); [exact (Q _ H)|]. destruct up.
  - destruct H as [H|H]; [right; exists x; split; [now left|now symmetry]|exact (Q _ H)].
  - destruct H as [H|H]; [left; now left|exact (Q _ H)].
Qed.
Lemma json_name_plain s : identifier s -> ~ In 91 (to_json_name s).
Proof.
  intros I H. apply json_name_char in H. destruct H as [H|(a & H & E)]; apply (identifier_char _ _ I) in H; unfold letter, digit in H; [lia|].
  unfold upper in E. destruct ((97 <=? a) && (a <=? 122)) eqn:Q; [|lia]. apply andb_true_iff in Q. rewrite !N.leb_le in Q. lia.
Qed.

Section Named.
  Context (X : externs) (p : pool).
  Hypothesis SO : search_ok X.
  Hypothesis FL : floats_ok X.
  Hypothesis G : grown X p.
  Hypothesis TY : Forall typed_file (pool_files p).
  Hypothesis PF : Forall protoc_file (pool_files p).
  Hypothesis NF : Forall named_file (pool_files p).
  Hypothesis DX : forall d, NoDup (map fd_number (msg_exts (p_tables p) d)).
  Notation t := (p_tables p).
  Let Ht : tables_ok t := ok X p SO FL G TY.

  (** what is declared for a field *)
  Lemma view_decl i v : In v (msg_fields t i) -> exists mi f scope dm fd,
    nth_error (p_messages p) i = Some mi /\ nth_error (pool_files p) (id_file (m_id mi)) = Some f /\
    message_at f (id_path (m_id mi)) scope dm /\ In fd (dp_fields dm) /\
    fd_json v = json_name_of fd /\ fd_name v = fp_name fd /\ fd_number v = as_u32 (fp_number fd) /\ identifier (fp_name fd).
  Proof.
    intros Hv. destruct (in_fields X p SO FL G TY _ _ Hv) as (mi & j & fi & Hm & Hfi & ->).
    destruct (field_named X p SO G _ _ _ _ Hm Hfi) as (f & dm & scope & fd & g & k & d & n0 & path & Hf & Hd & _ & _ & Hfd & _ & _ & _ & _ & _ & E).
    exists mi, f, scope, dm, fd. repeat (split; [eassumption|]). split; [exact (nth_error_In _ _ Hfd)|].
    subst fi. cbn [field_view field_of fd_json f_json fd_name f_id fd_number f_number]. rewrite id_name_mk.
    repeat (split; [reflexivity|]). exact (nf_name _ (named_at p NF _ _ Hf) _ _ _ (de_field _ _ _ _ _ _ Hd Hfd)).
  Qed.
  Lemma by_json_self i v : In v (msg_fields t i) -> get_field_by_json t i (fd_json v) = Some v.
  Proof. intros H. apply by_json_spec; auto. Qed.
  Lemma by_name_self i v : In v (msg_fields t i) -> get_field_by_name t i (fd_name v) = Some v.
  Proof. intros H. apply by_name_spec; auto. Qed.

  Lemma field_name_back o i v : (j_proto_names o = true -> Forall names_apart (pool_files p)) ->
    In v (msg_fields t i) -> name_backb o t i false v = true.
  Proof.
    intros NA Hv. unfold name_backb, JsonSer.item_name, member_field, json_field. destruct (j_proto_names o) eqn:J.
    - destruct (get_field_by_json t i (fd_name v)) as [w|] eqn:E; [|rewrite (by_name_self _ _ Hv); apply N.eqb_refl].
      apply by_json_spec in E; [|exact Ht]. destruct E as [Hw Ew].
      destruct (view_decl _ _ Hv) as (mi & f & scope & dm & fd & Hm & Hf & Hd & Hfd & _ & Nv & Zv & _).
      destruct (view_decl _ _ Hw) as (mi' & f' & scope' & dm' & fd' & Hm' & Hf' & Hd' & Hfd' & Jw & _ & Zw & _).
      rewrite Hm in Hm'. apply Some_inj in Hm'. subst mi'. rewrite Hf in Hf'. apply Some_inj in Hf'. subst f'.
      assert (dm' = dm) as -> by (apply message_at_found in Hd, Hd'; congruence).
      specialize (NA eq_refl). rewrite Forall_forall in NA.
      assert (fd = fd') as -> by (apply (NA f (nth_error_In _ _ Hf) _ _ _ _ _ Hd Hfd Hfd'); congruence).
      apply N.eqb_eq. congruence.
    - rewrite (by_json_self _ _ Hv). apply N.eqb_refl.
  Qed.
  Lemma ext_name_back o i v : In v (msg_exts t i) -> name_backb o t i true v = true.
  Proof.
    intros Hv. unfold name_backb, JsonSer.item_name, member_field, json_field.
    destruct (ext_named X p SO FL G TY NF _ _ Hv) as [_ Jv].
    assert (get_field_by_json t i (fd_json v) = None) as ->.
    { destruct (get_field_by_json t i (fd_json v)) as [w|] eqn:E; [|reflexivity]. exfalso. apply by_json_spec in E; [|exact Ht]. destruct E as [Hw Ew].
      destruct (view_decl _ _ Hw) as (mi & f & scope & dm & fd & Hm & Hf & Hd & Hfd & Jw & _ & _ & Id).
      rewrite Jv, Jw in Ew. unfold json_name_of in Ew. destruct (fp_json fd) as [j|] eqn:Ej.
      - apply (nf_json _ (named_at p NF _ _ Hf) _ _ _ _ Hd Hfd _ Ej). eauto.
      - apply (json_name_plain _ Id). rewrite Ew. now left. }
    assert (get_field_by_name t i (fd_json v) = None) as ->.
    { destruct (get_field_by_name t i (fd_json v)) as [w|] eqn:E; [|reflexivity]. exfalso. apply by_name_spec in E; [|exact Ht]. destruct E as [Hw Ew].
      destruct (view_decl _ _ Hw) as (mi & f & scope & dm & fd & Hm & Hf & Hd & Hfd & _ & Nw & _ & Id).
      rewrite Jv, Nw in Ew. assert (In 91 (fp_name fd)) as Q by (rewrite Ew; now left).
      apply (identifier_char _ _ Id) in Q. unfold letter, digit in Q. lia. }
    unfold get_ext_by_json. destruct (find (fun f => bytes_eqb (fd_json f) (fd_json v)) (msg_exts t i)) as [w|] eqn:E.
    - apply find_some in E. destruct E as [Hw E]. apply bytes_eqb_eq in E.
      destruct (ext_named X p SO FL G TY NF _ _ Hw) as [_ Jw]. rewrite Jv, Jw in E. unfold bracketed in E. inversion E as [E'].
      apply app_inj_tail in E'. destruct E' as [E' _].
      rewrite (exts_same X p SO FL G TY _ _ _ Hw Hv E'). apply N.eqb_refl.
    - pose proof (find_none _ _ E _ Hv) as Q. cbv beta in Q. rewrite bytes_eqb_refl in Q. discriminate.
  Qed.
  Lemma field_default_back E o i v : (j_skip_default o = false -> zeros_back E t) -> In v (msg_fields t i) -> default_backb E o t v = true.
  Proof.
    intros Z Hv. unfold default_backb. destruct (in_fields X p SO FL G TY _ _ Hv) as (mi & j & fi & Hm & Hfi & Ev).
    destruct (fd_presence v) eqn:P; [reflexivity|]. cbn [orb].
    assert (fd_default v = None) as D.
    { rewrite Ev in P |- *. exact (proj1 (presence_none X p SO G NF _ _ _ _ Hm Hfi P)). }
    rewrite D. cbn [andb]. destruct (j_skip_default o); [reflexivity|]. cbn [orb]. destruct (is_repeated v) eqn:R; [reflexivity|]. cbn [orb].
    destruct (Z eq_refl) as (Z1 & Z2 & Z3). unfold fd_default_value. rewrite D.
    destruct (fd_is_list v); [reflexivity|]. destruct (fd_is_map v); [reflexivity|].
    destruct (fd_kind v) as [| | | | | | | | | | | | | | | |e|]; cbn [kind_default scalar_backb]; auto.
    destruct (is_null_enum t e) eqn:Ne; [|reflexivity]. rewrite (Z3 _ Ne). reflexivity.
  Qed.
  Lemma enum_back e : enum_names_backb t e = true.
  Proof.
    pose proof (enum_text X p SO G NF e) as H. unfold enum_text_okb in H. unfold enum_names_backb.
    destruct (nth_error (t_enums t) e) as [en|]; [|reflexivity]. rewrite forallb_forall in H |- *. intros nj Hn. specialize (H nj Hn).
    unfold enum_value_okb in H. destruct (nth_error (e_values en) (snd nj)); [|reflexivity]. apply andb_true_iff in H. apply H.
  Qed.
  Lemma exts_distinct_ok : exts_distinctb t = true.
  Proof. unfold exts_distinctb. apply forallb_forall. intros d _. apply NoDup_distinctb. apply DX. Qed.
  Lemma oneofs_have_presence : oneof_presenceb t = true.
  Proof.
    unfold oneof_presenceb. apply forallb_forall. intros d _. apply forallb_forall. intros v Hv.
    destruct (in_fields X p SO FL G TY _ _ Hv) as (mi & j & fi & Hm & Hfi & ->). cbn [field_view fd_presence fd_oneof].
    destruct (f_presence fi) eqn:P; [reflexivity|]. rewrite (proj2 (presence_none X p SO G NF _ _ _ _ Hm Hfi P)). reflexivity.
  Qed.

  Lemma pool_json_ok E o : (j_proto_names o = true -> Forall names_apart (pool_files p)) -> (j_skip_default o = false -> zeros_back E t) ->
    json_schemab E o t = true.
  Proof.
    intros NA Z. unfold json_schemab. rewrite oneofs_have_presence, exts_distinct_ok. cbn [andb]. apply andb_true_iff.
    split; apply forallb_forall; intros d _; [|apply enum_back]. rewrite !andb_true_iff. repeat split; apply forallb_forall; intros v Hv.
    - apply field_name_back; assumption.
    - apply ext_name_back; assumption.
    - eapply field_default_back; eassumption.
  Qed.
End Named.
