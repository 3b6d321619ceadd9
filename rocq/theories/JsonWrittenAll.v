(** C61: soundness and completeness of the writer against JsonWritten.v. *)
From Coq Require Import String.
From Verif Require Import Base BaseProofs Wire Unknown Value Descr Fields Codec DescrOk DescrProofs FieldsProofs MergeProofs ItemRound Float
  TextFormat TextLexProofs Json JsonSer JsonNumbers JsonWkt JsonTree JsonTypedBack JsonRound JsonScalarBack JsonMask JsonMeaning
  JsonMeaningScalars JsonMeaningB64 JsonSafe JsonWritten JsonWrittenScalars JsonWrittenValue JsonWrittenMain Prop_Decode EncBytes.
Open Scope list_scope.
Open Scope N_scope.

Section All.
  Variables (E : json_externs) (t : tables) (o : jopt).
  Hypothesis Hwf : wf t.
  Let Ht : tables_ok t := proj1 Hwf.

  (** a value that has the type of a field of kind [k], or of its elements *)
  Definition fits (v : value) (k : kind) : Prop :=
    match v with
    | VList vs => Forall (fun x => ok_elem t x k = true) vs
    | VMap kvs => exists e vf, kind_msg k = Some e /\ is_map_entry t e = true /\ get_field t e 2 = Some vf /\
        Forall (fun kv => ok_elem t (snd kv) (fd_kind vf) = true) kvs
    | _ => ok_elem t v k = true
    end.
  Lemma elem_fits v k : ok_elem t v k = true -> fits v k.
  Proof. destruct v; try (intros H; exact H); discriminate. Qed.
  Lemma field_fits d n f v : find_desc t d n = Some f -> ok_field t f v = true -> fits v (fd_kind f).
  Proof.
    intros Hf H. destruct v; cbn [fits ok_field] in *; try (rewrite !andb_true_iff in H; apply H).
    - apply andb_true_iff in H. destruct H as [_ H]. apply Forall_forall. now apply forallb_forall.
    - destruct (kind_msg (fd_kind f)) as [e|] eqn:Ek; [|discriminate]. destruct (fd_is_map f) eqn:Em; [|discriminate].
      destruct (entry_key t e); [|discriminate]. destruct (entry_value t e) as [vf|] eqn:Ev; [|discriminate].
      apply andb_true_iff in H. destruct H as [_ H]. exists e, vf. split; [reflexivity|]. split; [eapply map_entry_of; eauto|]. split; [exact Ev|].
      apply Forall_forall. rewrite forallb_forall in H. intros x Hx. apply H in Hx. apply andb_true_iff in Hx. apply Hx.
  Qed.

  (** nothing inside *)
  Definition flat (v : value) : Prop := match v with VMessage _ | VList (_ :: _) | VMap (_ :: _) => False | _ => True end.
  Lemma default_flat d n f : get_field t d n = Some f -> fd_presence f = false -> flat (fd_default_value t f).
  Proof.
    intros Hg Hp. pose proof (get_field_ok _ _ _ _ Ht Hg) as Hok. unfold fd_default_value. destruct (fd_is_list f) eqn:El; [exact I|]. destruct (fd_is_map f) eqn:Em; [exact I|].
    destruct (fd_default f) as [v|] eqn:Ed.
    - apply (fo_default _ _ Hok) in Ed. destruct v; try exact I; destruct (fd_kind f); discriminate Ed.
    - assert (Hk : is_msg_kind (fd_kind f) = false).
      { destruct (is_msg_kind (fd_kind f)) eqn:Ek; [|reflexivity]. pose proof (fo_msg _ _ Hok Ek) as Q. unfold fd_is_list in El. rewrite Em in El. unfold is_repeated in Q.
        rewrite andb_true_r in El. rewrite (Q El) in Hp. discriminate. }
      destruct (fd_kind f); try exact I; discriminate Hk.
  Qed.

  Lemma stored_in (m : dynmsg) n (v : value) : bt_get n (dm_fields m) = Some (SVal v) -> In (n, SVal v) (dm_fields m).
  Proof. apply bt_get_In. Qed.
  Lemma has_stored m f : has_field t m f = true -> In (fd_number f, SVal (get_field_value t m f)) (dm_fields m).
  Proof.
    unfold has_field, fs_has, get_field_value, fs_get, fs_get_value. destruct (bt_get (fd_number f) (dm_fields m)) as [[|v|us]|] eqn:Eb; try discriminate.
    intros _. now apply stored_in.
  Qed.
  Lemma rows_in m f v : ok_msg t m = true -> In (f, v) (field_rows t o m) \/ In (f, v) (ext_rows t m) ->
    fits v (fd_kind f) /\ (In (fd_number f, SVal v) (dm_fields m) \/ flat v).
  Proof.
    intros Ho H. apply ok_msg_iff in Ho.
    assert (G : find_desc t (dm_desc m) (fd_number f) = Some f /\ v = get_field_value t m f /\ (has_field t m f = true \/ flat (fd_default_value t f))).
    { destruct H as [H|H].
      - apply (field_rows_in t o Hwf) in H. destruct H as (Hg & -> & Hh). split; [unfold find_desc; now rewrite Hg|]. split; [reflexivity|].
        destruct Hh as [Hh|[_ Hp]]; [now left|right]. eapply default_flat; eauto.
      - pose proof (proj2 (ext_rows_iff t Hwf m _ Ho) eq_refl) as [_ X]. apply X in H. destruct H as (Hg & -> & Hh).
        split; [unfold find_desc; rewrite (field_ext_disjoint _ _ _ _ Hwf Hg); exact Hg|]. auto. }
    destruct G as (Hf & -> & Hh). split.
    - eapply field_fits; [exact Hf|]. destruct m as [d fs]. unfold get_field_value. eapply stored_ok; eauto.
    - unfold get_field_value, fs_get. destruct (fs_get_value (dm_fields m) (fd_number f)) as [w|] eqn:Eg.
      + left. unfold fs_get_value in Eg. destruct (bt_get (fd_number f) (dm_fields m)) as [[|v'|us]|] eqn:Eb; try discriminate. injection Eg as ->. now apply stored_in.
      + right. destruct Hh as [Hh|Hh]; [|exact Hh]. exfalso. unfold has_field, fs_has in Hh. rewrite Eg in Hh. discriminate.
  Qed.
  Lemma elem_msg m k : ok_elem t (VMessage m) k = true -> ok_msg t m = true.
  Proof. rewrite ok_elem_msg. destruct (kind_msg k); [|discriminate]. intros H. now apply andb_true_iff in H. Qed.
  Lemma wkt_full name i (body : dynmsg) : find_msg t name = Some i -> dm_desc body = i -> wkt_of t (dm_desc body) = wkt_named name.
  Proof. intros H ->. unfold wkt_of. now rewrite (find_msg_full _ _ _ H). Qed.
  Lemma any_ok m x : ok_msg t m = true -> content t m 0 x ->
    exists url b, typed_get x 1 = VString url /\ typed_get x 2 = VBytes b /\ bytes_ok b /\
      (forall v, typed_is x 1 v <-> v = VString url) /\ (forall v, typed_is x 2 v <-> v = VBytes b).
  Proof.
    intros Ho Hc. destruct (content_ok t Hwf m 0 x Ho ltac:(lia) Hc) as [Hx Ed].
    destruct (get_field wkt_tables 0 1) as [f1|] eqn:F1; [|vm_compute in F1; discriminate F1].
    destruct (get_field wkt_tables 0 2) as [f2|] eqn:F2; [|vm_compute in F2; discriminate F2].
    pose proof F1 as G1. pose proof F2 as G2. rewrite <- Ed in G1, G2.
    destruct (typed_value x 1 f1 Hx G1) as (A1 & B1 & C1). destruct (typed_value x 2 f2 Hx G2) as (A2 & B2 & C2).
    assert (K1 : fd_kind f1 = KString /\ fd_is_list f1 = false /\ fd_is_map f1 = false) by (vm_compute in F1; injection F1 as <-; vm_compute; auto).
    assert (K2 : fd_kind f2 = KBytes /\ fd_is_list f2 = false /\ fd_is_map f2 = false) by (vm_compute in F2; injection F2 as <-; vm_compute; auto).
    destruct K1 as (K1 & L1 & M1), K2 as (K2 & L2 & M2). clear F1 F2 G1 G2.
    unfold ok_field in B1, B2. rewrite K1, L1, M1 in B1. rewrite K2, L2, M2 in B2.
    destruct (typed_get x 1) as [b|z|z|q|q|q|q|s|s|z|mm|vs|kvs]; try discriminate B1; [|destruct mm; discriminate B1].
    destruct (typed_get x 2) as [b|z|z|q|q|q|q|s'|s'|z|mm|vs|kvs]; try discriminate B2; [|destruct mm; discriminate B2].
    exists s, s'. split; [reflexivity|]. split; [reflexivity|]. split; [|split; assumption].
    cbn in B2. now apply bytes_okb_ok.
  Qed.
  Lemma scalar_fits v k : ok_elem t v k = true -> (forall m, v <> VMessage m) -> sc_okb k v = true.
  Proof. destruct v; try (intros H _; exact H); try discriminate. intros _ H. exfalso. now apply (H m). Qed.

  (** ** What is written is right *)
  Section Sound.
    Variable any : dynmsg -> jres json.
    Hypothesis Hany : forall m j, ok_msg t m = true -> wkt_of t (dm_desc m) = Some WAny -> any m = JOk j -> msg_shown E t o m j.
    Let S v := forall k j, fits v k -> ser_value E t o any v k = JOk j -> value_shown E t o k v j.

    Lemma flat_sound v : flat v -> S v.
    Proof.
      intros Hf k j Hk H.
      assert (G : (forall m, v <> VMessage m) -> (forall l, v <> VList l) -> (forall l, v <> VMap l) -> value_shown E t o k v j).
      { intros N1 N2 N3. assert (Hs : sc_okb k v = true). { apply scalar_fits; [|exact N1]. destruct v; try exact Hk; [now destruct (N2 vs)|now destruct (N3 kvs)]. }
        apply vs_scalar, scalar_iff; [now apply sc_bits in Hs|].
        destruct v; cbn [ser_value] in H; try (destruct (ser_scalar E t o _ k) as [r|]; [now subst r|discriminate H]); [now destruct (N1 m)|now destruct (N2 vs)|now destruct (N3 kvs)]. }
      destruct v; try (apply G; discriminate).
      - destruct Hf.
      - destruct vs; [|destruct Hf]. cbn in H. injection H as <-. apply vs_list. constructor.
      - destruct kvs; [|destruct Hf]. destruct Hk as (e & vf & K1 & K2 & K3 & _). cbn [ser_value map jall] in H. rewrite K1, K2 in H. unfold entry_value, MAP_VALUE_NUMBER in H.
        rewrite K3 in H. injection H as <-. eapply vs_map; eauto. constructor.
    Qed.
    Lemma members_sound name l ms : (forall f v, In (f, v) l -> fits v (fd_kind f) /\ S v) -> mems E t o any name l = JOk ms -> members_shown E t o name l ms.
    Proof.
      intros Hl H. apply (mems_iff E t o any name l ms) in H. induction H as [|[f v] b l ms (j & H1 & ->) F IH]; [constructor|].
      cbn [fst snd] in *. destruct (Hl f v (or_introl eq_refl)) as [H2 H3]. constructor; [now apply H3|]. apply IH. intros g w Hg. apply Hl. now right.
    Qed.
    Lemma fields_sound m ms : ok_msg t m = true -> (forall n v, In (n, SVal v) (dm_fields m) -> S v) -> ser_fields E t o any m = JOk ms -> fields_shown E t o m ms.
    Proof.
      intros Ho Hs H. rewrite (ser_fields_mems E t o Hwf any m) in H.
      destruct (mems E t o any (field_name o) (field_rows t o m)) as [a| | |] eqn:Ea; try discriminate. cbn [jbind] in H.
      destruct (mems E t o any fd_json (ext_rows t m)) as [b| | |] eqn:Eb; try discriminate. cbn [jbind] in H. injection H as <-.
      assert (G : forall f v, In (f, v) (field_rows t o m) \/ In (f, v) (ext_rows t m) -> fits v (fd_kind f) /\ S v).
      { intros f v Hin. destruct (rows_in m f v Ho Hin) as [G1 [G2|G2]]; split; auto; [eapply Hs; eauto|now apply flat_sound]. }
      eapply fs_all.
      - now apply (field_rows_iff t o Hwf).
      - apply (ext_rows_iff t Hwf); [now apply ok_msg_iff|reflexivity].
      - eapply members_sound; [|exact Ea]. intros; apply G; auto.
      - eapply members_sound; [|exact Eb]. intros; apply G; auto.
    Qed.
    Lemma msg_sound m k j : ok_msg t m = true -> (forall n v, In (n, SVal v) (dm_fields m) -> S v) -> ser_value E t o any (VMessage m) k = JOk j -> msg_shown E t o m j.
    Proof.
      intros Ho Hs H. rewrite ser_message in H. destruct (wkt_of t (dm_desc m)) as [w|] eqn:Ew.
      - destruct w; try (eapply wkt_written in H; eauto; discriminate). now apply Hany.
      - destruct (ser_fields E t o any m) as [ms| | |] eqn:Ef; try discriminate. injection H as <-. apply gs_fields; [exact Ew|]. now apply fields_sound.
    Qed.
    Lemma value_sound v : S v.
    Proof.
      revert v. apply value_inside. intros v Hi. destruct v; try (apply flat_sound; exact I).
      - intros k j Hk H. apply vs_msg. apply (msg_sound m k); [now apply elem_msg in Hk| |exact H].
        destruct m as [d fs]. intros n w Hw. exact (proj1 (inside_slot S d fs n w Hi Hw)).
      - intros k j Hk H. cbn [ser_value] in H. apply jmap_iff in H. destruct H as (js & H & ->). apply vs_list. apply jall_iff, Forall2_mapl in H.
        apply inside_list in Hi. cbn [fits] in Hk. clear - H Hi Hk. induction H as [|v j l js H F IH]; [constructor|]. inversion_clear Hi. inversion_clear Hk.
        constructor; [apply H0; [now apply elem_fits|exact H]|now apply IH].
      - intros k j Hk H. destruct Hk as (e & vf & K1 & K2 & K3 & K4). cbn [ser_value] in H. rewrite K1, K2 in H. unfold entry_value, MAP_VALUE_NUMBER in H. rewrite K3 in H.
        apply jmap_iff in H. destruct H as (js & H & ->). eapply vs_map; eauto. apply jall_iff, Forall2_mapl in H. apply inside_map in Hi. clear - H Hi K4.
        induction H as [|[key v] b l js H F IH]; [constructor|]. inversion_clear Hi. inversion_clear K4. cbn [fst snd] in *. apply jmap_iff in H. destruct H as (j & H & ->).
        constructor; [now apply key_shown_iff|apply H0; [now apply elem_fits|exact H]|now apply IH].
    Qed.
  End Sound.

  Theorem any_sound n : forall m j, ok_msg t m = true -> wkt_of t (dm_desc m) = Some WAny -> ser_any E t o n m = JOk j -> msg_shown E t o m j.
  Proof.
    induction n as [|n IH]; intros m j Ho Hw H; [discriminate|]. cbn [ser_any] in H.
    destruct (transcode_to t m 0) as [x| | |] eqn:Ex; try discriminate. cbn [jbind] in H. apply content_iff in Ex.
    destruct (any_ok m x Ho Ex) as (url & b & T1 & T2 & Hb & C1 & C2). rewrite T1, T2 in H. cbn [val_bytes] in H.
    destruct (type_url_name url) as [name|] eqn:En; [|discriminate]. destruct (find_msg t name) as [i|] eqn:Ei; [|discriminate].
    destruct (msg_decode t i b) as [body| | |] eqn:Eb; try discriminate. cbn [jdec jbind] in H.
    pose proof (C04_decode_total t i b Hwf (find_msg_lt _ _ _ Ei) Hb) as Q. rewrite Eb in Q. destruct Q as [Hob Hdb].
    assert (G : forall ms, body_shown E t o body ms -> msg_shown E t o m (JObj ((s2b "@type", JStr url) :: ms))).
    { intros ms Hms. eapply gs_any; eauto; [now apply C1|now apply C2]. }
    pose proof (wkt_full name i body Ei Hdb) as Ew. destruct (wkt_named name) as [w|].
    - destruct (ser_value E t o (ser_any E t o n) (VMessage body) (KMessage i)) as [j'| | |] eqn:Es; try discriminate. injection H as <-. apply G, ys_value; [congruence|].
      eapply msg_sound; [exact IH|exact Hob| |exact Es]. intros; now apply (value_sound (ser_any E t o n) IH).
    - destruct (ser_fields E t o (ser_any E t o n) body) as [ms| | |] eqn:Es; try discriminate. injection H as <-. apply G, ys_fields; [exact Ew|].
      eapply fields_sound; [exact Hob| |exact Es]. intros; now apply (value_sound (ser_any E t o n) IH).
  Qed.

  (** ** What is right is written *)
  Definition some_depth (P : nat -> Prop) : Prop := exists n0, forall n, (n0 <= n)%nat -> P n.
  Lemma always (P : nat -> Prop) : (forall n, P n) -> some_depth P.
  Proof. intros H. exists O. auto. Qed.
  Lemma deep1 (P Q : nat -> Prop) : some_depth P -> (forall n, P n -> Q n) -> some_depth Q.
  Proof. intros [a Ha] H. exists a. auto. Qed.
  Lemma deep2 (P P' Q : nat -> Prop) : some_depth P -> some_depth P' -> (forall n, P n -> P' n -> Q n) -> some_depth Q.
  Proof. intros [a Ha] [b Hb] H. exists (Nat.max a b). intros n Hn. apply H; [apply Ha|apply Hb]; lia. Qed.

  Let ser n := ser_value E t o (ser_any E t o n).
  Theorem all_complete :
    (forall k v j, value_shown E t o k v j -> fits v k -> some_depth (fun n => ser n v k = JOk j)) /\
    (forall k l js, items_shown E t o k l js -> Forall (fun x => ok_elem t x k = true) l -> some_depth (fun n => jall (map (fun x => ser n x k) l) = JOk js)) /\
    (forall k l ms, entries_shown E t o k l ms -> Forall (fun kv => ok_elem t (snd kv) k = true) l ->
       some_depth (fun n => jall (map (fun kv => let* j := ser n (snd kv) k in JOk (ser_key (fst kv), j)) l) = JOk ms)) /\
    (forall name l ms, members_shown E t o name l ms -> (forall f v, In (f, v) l -> fits v (fd_kind f)) -> some_depth (fun n => mems E t o (ser_any E t o n) name l = JOk ms)) /\
    (forall m ms, fields_shown E t o m ms -> ok_msg t m = true -> some_depth (fun n => ser_fields E t o (ser_any E t o n) m = JOk ms)) /\
    (forall m j, msg_shown E t o m j -> ok_msg t m = true -> some_depth (fun n => forall k, ser n (VMessage m) k = JOk j)) /\
    (forall m ms, body_shown E t o m ms -> ok_msg t m = true -> some_depth (fun n =>
       match wkt_of t (dm_desc m) with
       | Some _ => exists j, ms = [(s2b "value", j)] /\ forall k, ser n (VMessage m) k = JOk j
       | None => ser_fields E t o (ser_any E t o n) m = JOk ms
       end)).
  Proof.
    assert (WK : forall m j w, wkt_of t (dm_desc m) = Some w -> w <> WAny -> msg_shown E t o m j -> ok_msg t m = true ->
      some_depth (fun n => forall k, ser n (VMessage m) k = JOk j)).
    { intros m j w Hw Hn H Ho. apply always. intros n k. unfold ser. rewrite ser_message, Hw. now apply wkt_written. }
    apply written_ind.
    - intros k v j H Hk. apply always. intros n. assert (Hv : (forall m, v <> VMessage m) /\ (forall l, v <> VList l) /\ (forall l, v <> VMap l)) by (destruct H; repeat split; discriminate).
      destruct Hv as (N1 & N2 & N3). assert (Hs : sc_okb k v = true). { apply scalar_fits; [|exact N1]. destruct v; try exact Hk; [now destruct (N2 vs)|now destruct (N3 kvs)]. }
      apply scalar_iff in H; [|now apply sc_bits in Hs]. unfold ser. destruct v; cbn [ser_value]; rewrite ?H; try reflexivity; [now destruct (N1 m)|now destruct (N2 vs)|now destruct (N3 kvs)].
    - intros k m j _ IH Hk. apply elem_msg in Hk. eapply deep1; [exact (IH Hk)|]. cbn beta. auto.
    - intros k l js _ IH Hk. eapply deep1; [exact (IH Hk)|]. cbn beta. intros n Hn. unfold ser in *. cbn [ser_value]. rewrite Hn. reflexivity.
    - intros k e vf kvs ms K1 K3 _ IH (e' & vf' & K1' & K2 & K3' & K4). assert (e' = e) by congruence. subst e'. assert (vf' = vf) by congruence. subst vf'.
      eapply deep1; [exact (IH K4)|]. cbn beta. intros n Hn. unfold ser in *. cbn [ser_value]. rewrite K1, K2. unfold entry_value, MAP_VALUE_NUMBER. rewrite K3, Hn. reflexivity.
    - intros k _. now apply always.
    - intros k v l j js _ IH1 _ IH2 Hk. inversion_clear Hk. eapply deep2; [apply IH1; now apply elem_fits|now apply IH2|]. cbn beta. intros n H1 H2. cbn [map jall]. rewrite H1. cbn [jbind]. rewrite H2. reflexivity.
    - intros k _. now apply always.
    - intros k key v l s j ms Hs _ IH1 _ IH2 Hk. inversion_clear Hk. cbn [snd] in *. apply key_shown_iff in Hs. subst s.
      eapply deep2; [apply IH1; now apply elem_fits|now apply IH2|]. cbn beta. intros n H1 H2. cbn [map jall fst snd]. rewrite H1. cbn [jbind]. rewrite H2. reflexivity.
    - intros name _. now apply always.
    - intros name f v l j ms _ IH1 _ IH2 Hl. eapply deep2; [apply IH1; apply Hl; now left|apply IH2; intros; apply Hl; now right|]. cbn beta. intros n H1 H2.
      unfold ser in H1. cbn [mems]. rewrite H1. cbn [jbind]. rewrite H2. reflexivity.
    - intros m fs xs ms ms' Hfs Hxs _ IH1 _ IH2 Ho. apply (field_rows_iff t o Hwf) in Hfs. apply (ext_rows_iff t Hwf) in Hxs; [|now apply ok_msg_iff]. subst fs xs.
      eapply deep2; [apply IH1; intros; eapply rows_in; eauto|apply IH2; intros; eapply rows_in; eauto|]. cbn beta. intros n H1 H2.
      rewrite (ser_fields_mems E t o Hwf), H1. cbn [jbind]. rewrite H2. reflexivity.
    - intros m ms Hw _ IH Ho. eapply deep1; [exact (IH Ho)|]. cbn beta. intros n Hn k. unfold ser. rewrite ser_message, Hw, Hn. reflexivity.
    - intros m Hw Ho. eapply WK; eauto; [discriminate|]. now apply gs_empty.
    - intros m x sec nan Hw H1 H2 H3 H4 Ho. eapply WK; eauto; [discriminate|]. eapply gs_timestamp; eauto.
    - intros m x sec nan Hw H1 H2 H3 H4 H5 Ho. eapply WK; eauto; [discriminate|]. eapply gs_duration; eauto.
    - intros m x ps s Hw H1 H2 H3 Ho. eapply WK; eauto; [discriminate|]. eapply gs_mask; eauto.
    - intros m x j Hw H1 H2 Ho. eapply WK; eauto; [discriminate|]. eapply gs_value; eauto.
    - intros m x vs js Hw H1 H2 H3 Ho. eapply WK; eauto; [discriminate|]. eapply gs_list; eauto.
    - intros m x kvs ms Hw H1 H2 H3 Ho. eapply WK; eauto; [discriminate|]. eapply gs_struct; eauto.
    - intros m i x v j Hw H1 H2 H3 Ho. eapply WK; eauto; [discriminate|]. eapply gs_wrapper; eauto.
    - intros m x url b name i body ms Hw Hc H1 H2 En Ei Eb _ IH Ho. destruct (any_ok m x Ho Hc) as (url' & b' & T1 & T2 & Hb & C1 & C2).
      apply C1 in H1. injection H1 as <-. apply C2 in H2. injection H2 as <-.
      pose proof (C04_decode_total t i b Hwf (find_msg_lt _ _ _ Ei) Hb) as Q. rewrite Eb in Q. destruct Q as [Hob Hdb].
      pose proof (wkt_full name i body Ei Hdb) as Ew. destruct (IH Hob) as [n0 Hn0]. exists (S n0). intros [|n] Hn k; [lia|]. specialize (Hn0 n ltac:(lia)).
      unfold ser. rewrite ser_message, Hw. cbn [ser_wkt ser_any]. apply content_iff in Hc. rewrite Hc. cbn [jbind]. rewrite T1, T2. cbn [val_bytes]. rewrite En, Ei, Eb. cbn [jdec jbind].
      rewrite Ew in Hn0. destruct (wkt_named name) as [w|].
      + destruct Hn0 as (j & -> & Hj). unfold ser in Hj. rewrite Hj. reflexivity.
      + rewrite Hn0. reflexivity.
    - intros m ms Hw _ IH Ho. eapply deep1; [exact (IH Ho)|]. cbn beta. intros n Hn. rewrite Hw. exact Hn.
    - intros m j Hw _ IH Ho. eapply deep1; [exact (IH Ho)|]. cbn beta. intros n Hn. destruct (wkt_of t (dm_desc m)); [eauto|congruence].
  Qed.

  Theorem written_iff m j : ok_msg t m = true -> (exists n, to_json E t o n m = JOk j) <-> msg_shown E t o m j.
  Proof.
    intros Ho. split.
    - intros [n H]. unfold to_json in H. eapply msg_sound; [apply any_sound|exact Ho| |exact H]. intros n' v _. exact (value_sound (ser_any E t o n) (any_sound n) v).
    - intros H. destruct all_complete as (_ & _ & _ & _ & _ & C & _). destruct (C m j H Ho) as [n0 Hn]. exists n0. now apply Hn.
  Qed.
End All.
