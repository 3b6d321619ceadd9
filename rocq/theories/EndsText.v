(** C67: writing in the text format ends. *)
From Coq Require Import String.
From Verif Require Import Base BaseProofs Wire WireProofs Unknown UnknownProofs Value Descr Fields Codec DescrOk DescrProofs FieldsProofs
  MergeProofs ItemRound WireSpec Float TextFormat TextLexProofs TextRound JsonNumbers JsonMeaning JsonWritten JsonWrittenScalars JsonWrittenValue
  JsonWrittenMain JsonWrittenAll TextWritten TextWrittenWords TextWrittenUnknown TextWrittenRows TextWrittenAll TextWrittenDeeper Prop_Decode Prop_WireSpec EncBytes
  Prop_TextSafe EndsSize EndsAny.
Open Scope list_scope.
Open Scope N_scope.

(** The type with the name google.protobuf.Any has no other fields than a
    string with the number 1 and bytes with the number 2. *)
Definition any_fields (t : tables) : Prop := forall d, full_name t d = any_name -> two_fields t d.

Definition two_fieldsb (T : tables) (w : nat) : bool :=
  forallb (fun f => negb (fd_is_list f) && negb (fd_is_map f) &&
    match fd_kind f with KString => fd_number f =? 1 | KBytes => fd_number f =? 2 | _ => false end) (msg_fields T w ++ msg_exts T w).
Lemma two_fieldsb_ok T w : tables_ok T -> two_fieldsb T w = true -> two_fields T w.
Proof.
  intros HT H n f Hf. assert (Hin : In f (msg_fields T w ++ msg_exts T w) /\ fd_number f = n).
  { split; [|now apply (find_desc_number T w n)]. unfold find_desc in Hf. apply in_app_iff. destruct (get_field T w n) as [g|] eqn:E.
    - injection Hf as <-. left. eapply get_field_in; eauto.
    - right. unfold get_ext in Hf. apply find_some in Hf. apply Hf. }
  destruct Hin as [Hin <-]. unfold two_fieldsb in H. rewrite forallb_forall in H. specialize (H f Hin). rewrite !andb_true_iff, !negb_true_iff in H.
  destruct H as [[H1 H2] H3]. split; [exact H1|]. split; [exact H2|]. destruct (fd_kind f); try discriminate H3; apply N.eqb_eq in H3; auto.
Qed.
Lemma any_two : two_fields any_tables 0.
Proof. apply two_fieldsb_ok; [apply any_wf|reflexivity]. Qed.
Definition no_defaultsb (T : tables) (w : nat) : bool :=
  forallb (fun f => match fd_default f with None => true | Some _ => false end) (msg_fields T w).
Lemma no_default T w n f : tables_ok T -> no_defaultsb T w = true -> get_field T w n = Some f -> own_length (fd_default_value T f) = 0%nat.
Proof.
  intros HT H Hf. apply (get_field_in _ _ _ _ HT) in Hf. unfold no_defaultsb in H. rewrite forallb_forall in H. specialize (H f Hf).
  unfold fd_default_value. destruct (fd_is_list f); [reflexivity|]. destruct (fd_is_map f); [reflexivity|]. destruct (fd_default f); [discriminate|].
  destruct (fd_kind f); reflexivity.
Qed.

Lemma own_val v : length (val_bytes v) = own_length v.
Proof. destruct v; reflexivity. Qed.
Lemma below_get T k x n v : tables_ok T -> no_defaultsb T (dm_desc x) = true -> vals_below k x -> get_field_by_number T x n = Some v -> (own_length v <= k)%nat.
Proof.
  intros HT Hd Hb H. unfold get_field_by_number in H. destruct (get_field T (dm_desc x) n) as [f|] eqn:Ef; [|discriminate H]. cbn [option_map] in H. injection H as <-.
  unfold get_field_value, fs_get, fs_get_value. destruct (bt_get (fd_number f) (dm_fields x)) as [[|w|us]|] eqn:Eb; try (rewrite (no_default _ _ _ _ HT Hd Ef); lia).
  exact (Hb _ _ Eb).
Qed.
Lemma decode_longest t d b m : wf t -> bytes_ok b -> msg_decode t d b = Ok m -> (longest (VMessage m) <= pred (length b))%nat.
Proof.
  intros Hw Hb D. pose proof (proj2 (proj2 (reads_longest t _ (proj1 Hw))) _ _ _ _ (C54_decode_reads t d b m (proj1 Hw) Hb D)) as H.
  rewrite longest_new in H. lia.
Qed.

(** What is packed in an Any message holds shorter strings than it. *)
Lemma expands_shorter t (o : topt) m url body : wf t -> any_fields t -> ok_msg t m = true -> N.of_nat (longest (VMessage m)) < two64 ->
  expands t m url body -> (longest (VMessage body) < longest (VMessage m))%nat.
Proof.
  intros Hw Ha Ho Hs (En & b & x & v & pre & name & i & Eb & Ex & G1 & G2 & Eu & _ & _ & Ed).
  pose proof (any_read_back t m b any_tables 0 x Hw any_wf Ho (Ha _ En) any_two Hs Eb Ex) as Hx.
  assert (Dx : dm_desc x = 0%nat).
  { destruct (ok_msg_enc t m Hw Ho) as (b' & Eb' & Hb'). assert (b' = b) by congruence. subst b'.
    pose proof (C04_decode_total any_tables 0 b any_wf ltac:(cbn; lia) Hb') as C. rewrite Ex in C. apply C. }
  destruct (any_content t o Hw m b x Ho Eb Ex) as (url' & v' & _ & G2' & Hv). assert (v' = v) by congruence. subst v'.
  assert (Hd : no_defaultsb any_tables (dm_desc x) = true) by (rewrite Dx; reflexivity).
  pose proof (below_get _ _ _ _ _ (proj1 any_wf) Hd Hx G1) as L1. pose proof (below_get _ _ _ _ _ (proj1 any_wf) Hd Hx G2) as L2. cbn [own_length] in L1, L2.
  pose proof (decode_longest _ _ _ _ Hw Hv Ed) as Hl. rewrite Eu, app_length in L1. cbn [length] in L1. lia.
Qed.

Lemma rjoin_fuel sep l : rjoin sep l = Fuel -> In Fuel l.
Proof.
  induction l as [|a l IH]; [discriminate|]. destruct l as [|b l]; [cbn; auto|]. rewrite rjoin_cons by discriminate.
  destruct a; cbn [rbind]; try discriminate; [|left; reflexivity]. destruct (rjoin sep (b :: l)) eqn:E; cbn [rbind]; try discriminate. intros _. right. now apply IH.
Qed.
Lemma rjoin_ends {A} sep (g : A -> res bytes) l : (forall a, In a l -> g a <> Fuel) -> rjoin sep (map g l) <> Fuel.
Proof. intros H F. apply rjoin_fuel, in_map_iff in F. destruct F as (a & Ea & Hin). exact (H a Hin Ea). Qed.

Section Ends.
  Variables (E : text_externs) (t : tables) (o : topt).
  Hypothesis Hwf : wf t.
  Section One.
    Variables (any : nat -> dynmsg -> option (res bytes)) (K : nat).
    Hypothesis Hany : forall i m, ok_msg t m = true -> (longest (VMessage m) <= K)%nat -> any i m <> Some Fuel.
    Let fmt := fmt_value E t o any.
    Let Ends v := (longest v <= K)%nat -> forall k, tfits t v k -> forall i, fmt v i (Some k) <> Fuel.

    Lemma list_ends l : Forall Ends l -> Ends (VList l).
    Proof.
      intros Hl HK k Hk i. cbn [tfits] in Hk. rewrite Forall_forall in Hl, Hk. rewrite longest_list in HK. unfold fmt. cbn [fmt_value].
      match goal with |- context [rjoin ?s (map ?g l)] => assert (R : rjoin s (map g l) <> Fuel) end.
      { apply rjoin_ends. intros v Hin. apply (Hl v Hin); auto. apply elem_tfits. now apply Hk. }
      destruct (rjoin _ _); cbn [rbind]; congruence.
    Qed.
    Lemma map_ends kvs : Forall (fun kv => Ends (snd kv)) kvs -> Ends (VMap kvs).
    Proof.
      intros Hl HK k (e & kf & vf & K1 & K2 & K3) i. rewrite Forall_forall in Hl, K3. rewrite longest_map in HK. unfold fmt. rewrite (map_eq E t o any k e vf kvs i K1 K2).
      match goal with |- context [rjoin ?s (map ?g kvs)] => assert (R : rjoin s (map g kvs) <> Fuel) end.
      { apply rjoin_ends. intros kv Hin. assert (Q : forall i, fmt (snd kv) i (Some (fd_kind vf)) <> Fuel).
        { apply (Hl _ Hin); auto. apply elem_tfits, (K3 _ Hin). }
        unfold fmt_entry. fold fmt. pose proof (Q i) as Q1. pose proof (Q (2 + i)%nat) as Q2. unfold field_value.
        destruct (o_pretty o); [destruct (fmt (snd kv) (2 + i) (Some (fd_kind vf)))|destruct (fmt (snd kv) i (Some (fd_kind vf)))]; cbn [rbind]; congruence. }
      destruct (rjoin _ _); cbn [rbind]; congruence.
    Qed.
    Lemma flat_ends v : flat v -> Ends v.
    Proof.
      intros Hf. destruct v; try (intros _ k Hk i; destruct k; discriminate).
      - intros _ k Hk i. unfold fmt. cbn [fmt_value fmt_scalar]. destruct k; try discriminate. destruct (enum_name E t _ z); discriminate.
      - destruct Hf.
      - destruct vs; [|destruct Hf]. apply list_ends. constructor.
      - destruct kvs; [|destruct Hf]. apply map_ends. constructor.
    Qed.
    Lemma msg_ends m : ok_msg t m = true -> (longest (VMessage m) <= K)%nat -> (forall n v, In (n, SVal v) (dm_fields m) -> Ends v) ->
      forall i, msg_fmt E t o any i m <> Fuel.
    Proof.
      intros Ho HK Hs i. unfold msg_fmt. pose proof (Hany i m Ho HK) as A. destruct (any i m) as [r|]; [congruence|].
      apply rjoin_ends. intros r Hin. destruct (row_in t o Hwf m r Ho Hin) as [R1 R2].
      assert (Sv : forall n v, In (n, SVal v) (dm_fields m) \/ flat v -> Ends v /\ (longest v <= K)%nat).
      { intros n v [Hv|Hf]; [split; [eapply Hs; eauto|]|split; [now apply flat_ends|]].
        - rewrite longest_msg in HK. specialize (HK _ _ Hv). cbn [slot_longest] in HK. lia.
        - destruct v; try (cbn; lia); [destruct Hf|destruct vs; [cbn; lia|destruct Hf]|destruct kvs; [cbn; lia|destruct Hf]]. }
      destruct r as [f v|f v|u]; cbn [row_fits row_from] in R1, R2.
      - destruct (Sv _ v R2) as [S1 S2]. pose proof (S1 S2 _ (proj2 R1) i) as Q. cbn [fmt_row]. fold fmt. unfold field_value. destruct (fmt v i (Some (fd_kind f))); cbn [rbind]; congruence.
      - destruct (Sv _ v R2) as [S1 S2]. pose proof (S1 S2 _ R1 i) as Q. cbn [fmt_row]. fold fmt. unfold field_value. destruct (fmt v i (Some (fd_kind f))); cbn [rbind]; congruence.
      - destruct (unk_row E t o any u R1) as (x & _ & Hx). rewrite (Hx i). discriminate.
    Qed.
    Lemma body_ends m : ok_msg t m = true -> (longest (VMessage m) <= K)%nat -> (forall n v, In (n, SVal v) (dm_fields m) -> Ends v) ->
      forall i k, fmt (VMessage m) i k <> Fuel.
    Proof.
      intros Ho HK Hs i k. unfold fmt. rewrite (value_rows E t o Hwf) by exact Ho. destruct (row_list t o m); [discriminate|].
      pose proof (msg_ends m Ho HK Hs) as Q. unfold braces. pose proof (Q i) as Q1. pose proof (Q (2 + i)%nat) as Q2. unfold field_value.
      destruct (o_pretty o); [destruct (msg_fmt E t o any (2 + i) m)|destruct (msg_fmt E t o any i m)]; cbn [rbind]; congruence.
    Qed.
    Lemma value_ends v : Ends v.
    Proof.
      revert v. apply value_inside. intros v Hi. destruct v; try (apply flat_ends; exact I).
      - intros HK k Hk i. apply body_ends; [now apply elem_msg in Hk|exact HK|]. destruct m as [d fs]. intros n w Hw. exact (proj1 (inside_slot Ends d fs n w Hi Hw)).
      - apply list_ends. apply inside_list in Hi. eapply Forall_impl; [|exact Hi]. cbn. tauto.
      - apply map_ends. apply inside_map in Hi. eapply Forall_impl; [|exact Hi]. cbn. tauto.
    Qed.
  End One.

  Hypothesis Hplain : any_fields t.
  Lemma fmt_any_ends : forall n i m, ok_msg t m = true -> N.of_nat (longest (VMessage m)) < two64 -> (longest (VMessage m) < n)%nat -> fmt_any E t o n i m <> Some Fuel.
  Proof.
    induction n as [|n IH]; intros i m Ho Hs Hn; [lia|]. rewrite fmt_any_eq.
    destruct (negb (o_expand_any o) || negb (bytes_eqb (full_name t (dm_desc m)) any_name)); [discriminate|].
    destruct (as_any_cases t o Hwf m Ho) as [(url & body & -> & X & Hb)|[-> _]]; [|discriminate].
    pose proof (expands_shorter t o m url body Hwf Hplain Ho Hs X) as HL.
    assert (A : forall i m', ok_msg t m' = true -> (longest (VMessage m') <= longest (VMessage body))%nat -> fmt_any E t o n i m' <> Some Fuel).
    { intros j m' Ho' HK. apply IH; [exact Ho'|lia|lia]. }
    assert (Q : fmt_value E t o (fmt_any E t o n) (VMessage body) i None <> Fuel).
    { apply (body_ends _ _ A body Hb (le_n _)). intros k v _. exact (value_ends _ _ A v). }
    unfold field_value. destruct (fmt_value E t o (fmt_any E t o n) (VMessage body) i None); cbn [rbind]; congruence.
  Qed.
  Theorem to_text_ends n m : ok_msg t m = true -> N.of_nat (longest (VMessage m)) < two64 -> (longest (VMessage m) < n)%nat -> to_text E t o n m <> Fuel.
  Proof.
    intros Ho Hs Hn. unfold to_text. rewrite (message_rows E t o Hwf) by exact Ho.
    assert (A : forall i m', ok_msg t m' = true -> (longest (VMessage m') <= longest (VMessage m))%nat -> fmt_any E t o n i m' <> Some Fuel).
    { intros j m' Ho' HK. apply fmt_any_ends; [exact Ho'|lia|lia]. }
    apply (msg_ends _ _ A m Ho (le_n _)). intros k v _. exact (value_ends _ _ A v).
  Qed.
End Ends.
