(** C67: writing JSON ends. *)
From Coq Require Import String.
From Verif Require Import Base BaseProofs Wire Unknown Value Descr Fields Codec DescrOk DescrProofs FieldsProofs MergeProofs ItemRound Float
  TextFormat TextLexProofs Json JsonSer JsonNumbers JsonWkt JsonTree JsonTypedBack JsonRound JsonScalarBack JsonMask JsonMeaning
  JsonMeaningScalars JsonMeaningB64 JsonSafe JsonWritten JsonWrittenScalars JsonWrittenValue JsonWrittenMain JsonWrittenAll JsonWrittenTotal
  Prop_Decode Prop_WireSpec EncBytes EndsSize EndsAny EndsText.
Open Scope list_scope.
Open Scope N_scope.

Lemma wkt_any_two : two_fields wkt_tables 0.
Proof. apply two_fieldsb_ok; [apply wkt_wf|reflexivity]. Qed.
Lemma wkt_any_name t d : wkt_of t d = Some WAny -> full_name t d = any_name.
Proof.
  unfold wkt_of, wkt_named. destruct (is_name (full_name t d) "google.protobuf.Any") eqn:Ea.
  - intros _. unfold is_name in Ea. apply bytes_eqb_eq in Ea. exact Ea.
  - repeat match goal with |- context [if ?b then _ else _] => destruct b; [discriminate|] end. discriminate.
Qed.

Section EndsJ.
  Variables (E : json_externs) (t : tables) (o : jopt).
  Hypothesis Hwf : wf t.
  Section One.
    Variables (any : dynmsg -> jres json) (K : nat).
    Hypothesis Hany : forall m, ok_msg t m = true -> wkt_of t (dm_desc m) = Some WAny -> (longest (VMessage m) <= K)%nat -> settled (any m).
    Let Ends v := (longest v <= K)%nat -> forall k, fits t v k -> settled (ser_value E t o any v k).

    Lemma flat_settled v : flat v -> Ends v.
    Proof.
      intros Hf _ k Hk.
      assert (G : (forall m, v <> VMessage m) -> (forall l, v <> VList l) -> (forall l, v <> VMap l) -> settled (ser_value E t o any v k)).
      { intros N1 N2 N3. assert (Hs : sc_okb k v = true). { apply (scalar_fits t); [|exact N1]. destruct v; try exact Hk; [now destruct (N2 vs)|now destruct (N3 kvs)]. }
        destruct (scalar_written E t o k v Hs) as [j Hj].
        destruct v; cbn [ser_value]; rewrite ?Hj; try exact I; [now destruct (N1 m)|now destruct (N2 vs)|now destruct (N3 kvs)]. }
      destruct v; try (apply G; discriminate).
      - destruct Hf.
      - destruct vs; [|destruct Hf]. exact I.
      - destruct kvs; [|destruct Hf]. destruct Hk as (e & vf & K1 & K2 & K3 & _). cbn [ser_value map jall]. rewrite K1, K2. unfold entry_value, MAP_VALUE_NUMBER.
        rewrite K3. exact I.
    Qed.
    Lemma mems_settled name l : (forall f v, In (f, v) l -> fits t v (fd_kind f) /\ Ends v /\ (longest v <= K)%nat) -> settled (mems E t o any name l).
    Proof.
      induction l as [|[f v] l IH]; intros Hl; [exact I|]. cbn [mems]. destruct (Hl f v (or_introl eq_refl)) as (H1 & H2 & H3).
      apply settled_bind; [now apply H2|]. intros j. apply settled_bind; [apply IH; intros; apply Hl; now right|]. intros js. exact I.
    Qed.
    Lemma fields_settled m : ok_msg t m = true -> (longest (VMessage m) <= K)%nat -> (forall n v, In (n, SVal v) (dm_fields m) -> Ends v) -> settled (ser_fields E t o any m).
    Proof.
      intros Ho HK Hs. rewrite !(ser_fields_mems E t o Hwf).
      assert (G : forall f v, In (f, v) (field_rows t o m) \/ In (f, v) (ext_rows t m) -> fits t v (fd_kind f) /\ Ends v /\ (longest v <= K)%nat).
      { intros f v Hin. destruct (rows_in t o Hwf m f v Ho Hin) as [G1 [G2|G2]]; split; auto.
        - split; [eapply Hs; eauto|]. rewrite longest_msg in HK. specialize (HK _ _ G2). cbn [slot_longest] in HK. lia.
        - split; [now apply flat_settled|]. destruct v; try (cbn; lia); [destruct G2|destruct vs; [cbn; lia|destruct G2]|destruct kvs; [cbn; lia|destruct G2]]. }
      apply settled_bind; [apply mems_settled; auto|]. intros a. apply settled_bind; [apply mems_settled; auto|]. intros b. exact I.
    Qed.
    Lemma msg_settled m k : ok_msg t m = true -> (longest (VMessage m) <= K)%nat -> (forall n v, In (n, SVal v) (dm_fields m) -> Ends v) ->
      settled (ser_value E t o any (VMessage m) k).
    Proof.
      intros Ho HK Hs. rewrite !ser_message. destruct (wkt_of t (dm_desc m)) as [w|] eqn:Ew.
      - assert (D : w = WAny \/ w <> WAny) by (destruct w; auto; right; discriminate). destruct D as [->|D]; [now apply Hany|].
        exact (wkt_settled E t o Hwf any w m D Ew Ho).
      - apply settled_bind; [now apply fields_settled|]. intros ms. exact I.
    Qed.
    Lemma value_settled v : Ends v.
    Proof.
      revert v. apply value_inside. intros v Hi. destruct v; try (apply flat_settled; exact I).
      - intros HK k Hk. apply msg_settled; [eapply elem_msg; exact Hk|exact HK|]. destruct m as [d fs]. intros n w Hw. exact (proj1 (inside_slot Ends d fs n w Hi Hw)).
      - intros HK k Hk. cbn [ser_value]. apply settled_bind; [|intros; exact I]. apply settled_jall. apply inside_list in Hi. cbn [fits] in Hk. rewrite longest_list in HK.
        rewrite Forall_forall in *. intros r Hr. apply in_map_iff in Hr. destruct Hr as (v & <- & Hv). apply (Hi v Hv); [auto|]. apply elem_fits. now apply Hk.
      - intros HK k Hk. destruct Hk as (e & vf & K1 & K2 & K3 & K4). cbn [ser_value]. rewrite K1, K2. unfold entry_value, MAP_VALUE_NUMBER. rewrite K3. rewrite longest_map in HK.
        apply settled_bind; [|intros; exact I]. apply settled_jall. apply inside_map in Hi.
        rewrite Forall_forall in *. intros r Hr. apply in_map_iff in Hr. destruct Hr as (kv & <- & Hv). apply settled_bind; [|intros; exact I]. apply (Hi kv Hv); [auto|]. apply elem_fits. now apply K4.
    Qed.
  End One.

  Hypothesis Hplain : any_fields t.
  Lemma any_settled n : forall m, ok_msg t m = true -> wkt_of t (dm_desc m) = Some WAny -> N.of_nat (longest (VMessage m)) < two64 -> (longest (VMessage m) < n)%nat ->
    settled (ser_any E t o n m).
  Proof.
    induction n as [|n IH]; intros m Ho Hw Hs Hn; [lia|]. cbn [ser_any]. pose proof (wkt_any_name _ _ Hw) as En.
    pose proof (transcode_settled t Hwf m 0 Ho ltac:(lia)) as Ts.
    destruct (transcode_to t m 0) as [x| | |] eqn:Ex; try destruct Ts; cbn [jbind]; [|exact I].
    assert (Hx : vals_below (longest (VMessage m)) x /\ dm_desc x = 0%nat).
    { unfold transcode_to in Ex. destruct (ok_msg_enc t m Hwf Ho) as (b & Eb & Hb). rewrite Eb in Ex. cbn [jdec jbind] in Ex.
      destruct (msg_decode wkt_tables 0 b) as [x'| | |] eqn:Ed; try discriminate Ex. cbn [jdec] in Ex. assert (x' = x) by congruence. subst x'. split.
      - eapply any_read_back; [exact Hwf|exact wkt_wf|exact Ho|exact (Hplain _ En)|exact wkt_any_two|exact Hs|exact Eb|exact Ed].
      - pose proof (C04_decode_total wkt_tables 0 b wkt_wf ltac:(cbn; lia) Hb) as C. rewrite Ed in C. apply C. }
    destruct Hx as [Hx Dx]. apply content_iff in Ex.
    destruct (any_ok t Hwf m x Ho Ex) as (url & b & T1 & T2 & Hb & _). rewrite T1, T2. cbn [val_bytes].
    destruct (type_url_name url) as [name|] eqn:Eu; [|exact I]. destruct (find_msg t name) as [i|] eqn:Ei; [|exact I].
    pose proof (C04_decode_total t i b Hwf (find_msg_lt _ _ _ Ei) Hb) as Q.
    destruct (msg_decode t i b) as [body| | |] eqn:Eb; cbn [jdec jbind]; [|exact I|destruct Q|destruct Q]. destruct Q as [Hob Hdb].
    assert (G1 : get_field_by_number wkt_tables x 1 = Some (VString url)).
    { unfold typed_get in T1. destruct (get_field_by_number wkt_tables x 1); congruence. }
    assert (G2 : get_field_by_number wkt_tables x 2 = Some (VBytes b)).
    { unfold typed_get in T2. destruct (get_field_by_number wkt_tables x 2); congruence. }
    assert (HL : (longest (VMessage body) < longest (VMessage m))%nat).
    { assert (Hd : no_defaultsb wkt_tables (dm_desc x) = true) by (rewrite Dx; reflexivity).
      pose proof (below_get wkt_tables _ x 1 _ (proj1 wkt_wf) Hd Hx (G1 : get_field_by_number wkt_tables x 1 = Some (VString url))) as B1.
      pose proof (below_get wkt_tables _ x 2 _ (proj1 wkt_wf) Hd Hx (G2 : get_field_by_number wkt_tables x 2 = Some (VBytes b))) as B2.
      cbn [own_length] in B1, B2. pose proof (decode_longest t i b body Hwf Hb Eb) as L.
      destruct url as [|c url]; [discriminate Eu|]. cbn [length] in B1. lia. }
    assert (A : forall m', ok_msg t m' = true -> wkt_of t (dm_desc m') = Some WAny -> (longest (VMessage m') <= longest (VMessage body))%nat -> settled (ser_any E t o n m')).
    { intros m' Ho' Hw' HK. apply IH; [exact Ho'|exact Hw'|lia|lia]. }
    destruct (wkt_named name) as [w|].
    - apply settled_bind; [|intros; exact I]. apply (msg_settled _ _ A); [exact Hob|lia|]. intros k v _. exact (value_settled _ _ A v).
    - apply settled_bind; [|intros; exact I]. apply (fields_settled _ _ A); [exact Hob|lia|]. intros k v _. exact (value_settled _ _ A v).
  Qed.
  Theorem to_json_ends n m : ok_msg t m = true -> N.of_nat (longest (VMessage m)) < two64 -> (longest (VMessage m) < n)%nat -> settled (to_json E t o n m).
  Proof.
    intros Ho Hs Hn. unfold to_json.
    assert (A : forall m', ok_msg t m' = true -> wkt_of t (dm_desc m') = Some WAny -> (longest (VMessage m') <= longest (VMessage m))%nat -> settled (ser_any E t o n m')).
    { intros m' Ho' Hw' HK. apply any_settled; [exact Ho'|exact Hw'|lia|lia]. }
    apply (msg_settled _ _ A m _ Ho (le_n _)). intros k v _. exact (value_settled _ _ A v).
  Qed.
End EndsJ.
