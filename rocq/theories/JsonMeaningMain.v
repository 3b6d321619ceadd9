(** The JSON reader reads every document as what it means. *)
From Coq Require Import String Permutation.
From Verif Require Import Base BaseProofs Wire Unknown Value Descr Fields Codec DescrOk DescrProofs FieldsProofs MergeProofs Float
  TextFormat TextParse Json JsonSer JsonNumbers JsonDe JsonMask JsonSafe JsonRound Prop_JsonSafe Prop_JsonRules JsonMeaning
  JsonMeaningScalars JsonMeaningB64 JsonMeaningBuf.
Open Scope list_scope.
Open Scope N_scope.

Section Main.
  Variables (E : json_externs) (t : tables) (deny nulls : bool).
  Hypothesis Hw : wf t.
  Hypothesis Hx : exts_distinctb t = true.
  Hypothesis He : times_fit E.
  Hypothesis Hp : oneof_presenceb t = true.
  Hypothesis Hn : nulls = true -> no_null_listsb t = true.
  Hypothesis Hord : forall l, Permutation (jx_order E l) l.

  Let Hx' := exts_distinct t Hx.
  Lemma Hnull' : nulls = true -> forall d n f, find_desc t d n = Some f -> is_repeated f = true -> null_field t f = JOk None.
  Proof. intros Hnl d n f Hf Hr. apply no_null. eapply no_null_lists; try eassumption; [apply Hw|auto]. Qed.
  Lemma Hts' : forall s a b, jx_parse_timestamp E s = Some (a, b) -> i64_ok a = true /\ i32_ok b = true.
  Proof. intros s a b H. apply (He s). auto. Qed.
  Lemma Hdu' : forall s a b, jx_parse_duration E s = Some (a, b) -> i64_ok a = true /\ i32_ok b = true.
  Proof. intros s a b H. apply (He s). auto. Qed.
  Lemma good j : json_okb nulls j = true -> rgood t (de E t deny j).
  Proof. intros H. exact (de_good E t deny nulls Hw Hx' Hnull' Hts' Hdu' j H). Qed.
  Lemma readable_obj l : json_okb nulls (JObj l) = true -> readable E t (JObj l).
  Proof.
    intros H. split; [exact Hw|]. split; [exact Hx|]. split; [exact He|]. split; [exact Hp|]. destruct nulls; [right|left]; auto.
  Qed.

  (** ** Messages of the well-known types *)
  Lemma make_iff d x o : make_message t d x = JOk o <-> exists m, o = Some (VMessage m) /\ carries t d x m.
  Proof.
    unfold make_message, carries, msg_decode. destruct (enc_msg wkt_tables x) as [b|e| |]; cbn [jdec jbind].
    - destruct (msg_merge t (new_msg d) b) as [m y|e y| |] eqn:Em; cbn.
      + split; [intros [= <-]; exists m; split; [reflexivity|]; exists b; split; [reflexivity|]; now rewrite Em|].
        intros (m' & -> & b' & [= <-] & H). rewrite Em in H. now injection H as ->.
      + split; [discriminate|]. intros (m' & _ & b' & [= <-] & H). rewrite Em in H. discriminate.
      + split; [discriminate|]. intros (m' & _ & b' & [= <-] & H). rewrite Em in H. discriminate.
      + split; [discriminate|]. intros (m' & _ & b' & [= <-] & H). rewrite Em in H. discriminate.
    - split; [discriminate|]. intros (? & _ & ? & [=] & _).
    - split; [discriminate|]. intros (? & _ & ? & [=] & _).
    - split; [discriminate|]. intros (? & _ & ? & [=] & _).
  Qed.
  Lemma make_msg d x m : make_message t d x = JOk (Some (VMessage m)) <-> carries t d x m.
  Proof. rewrite make_iff. split; [intros (m' & [= <-] & H); exact H|eauto]. Qed.

  Lemma wrapper_wrapped i : (8 <= i <= 16)%nat -> wrapper_kind i = Some (wrapped_kind i).
  Proof. intros H. do 8 (destruct i as [|i]; [lia|]). do 9 (destruct i as [|i]; [reflexivity|]). lia. Qed.
  Lemma scalar_none k j : (forall e, k <> KEnum e) -> kind_msg k = None -> j_f64_ok j -> de_scalar t deny k j <> JOk None.
  Proof.
    intros Hk Hm Hj H. apply scalar_iff in H; [|exact Hm|exact Hj]. destruct H as [(v & [=] & _)|(_ & _ & e & s & -> & _)]. now apply (Hk e).
  Qed.
  Lemma f64_ok j : json_okb nulls j = true -> j_f64_ok j.
  Proof. intros H b ->. cbn in H. unfold u64_ok in H. apply N.ltb_lt in H. exact H. Qed.
  Lemma scalar_goal k j o : kind_msg k = None -> de E t deny j false (TGoal (GScalar k)) = JOk o <-> de_scalar t deny k j = JOk o.
  Proof.
    intros Hk. destruct j; cbn [de target_goal de_atom de_arr de_obj]; try tauto.
    - split; [discriminate|]. destruct k; try discriminate. cbn. unfold de_enum. destruct (is_null_enum t i); discriminate.
    - split; [discriminate|]. destruct k; try discriminate. cbn. unfold de_enum. destruct (is_null_enum t i); discriminate.
  Qed.

  Definition means_msg (j : json) : Prop := forall d m, (d < length (t_messages t))%nat ->
    de E t deny j false (TGoal (GMsg d)) = JOk (Some (VMessage m)) <-> msg_means E t deny d j m.
  Definition means_val (j : json) : Prop := forall f o, fwf t f ->
    de E t deny j false (TGoal (field_goal f)) = JOk o <-> value_means E t deny f j o.
  Definition Q (j : json) : Prop := json_okb nulls j = true -> means_msg j /\ means_val j.

  Lemma msg_result j d o : json_okb nulls j = true -> (d < length (t_messages t))%nat -> de E t deny j false (TGoal (GMsg d)) = JOk o ->
    exists m, o = Some (VMessage m).
  Proof.
    intros Hj Hd H. pose proof (good j Hj false (GMsg d) Hd) as G. rewrite H in G. cbn in G. destruct o as [v|]; [|contradiction].
    cbn in G. destruct v; try discriminate G. eauto.
  Qed.
  Lemma kind_iff j k o : json_okb nulls j = true -> means_msg j -> gwf t (kind_goal k) ->
    de E t deny j false (TGoal (kind_goal k)) = JOk o <-> kind_means E t deny k j o.
  Proof.
    intros Hj Hm Hk. unfold kind_goal in *. destruct (kind_msg k) as [d|] eqn:Ek.
    - cbn in Hk. split.
      + intros H. destruct (msg_result j d o Hj Hk H) as [m ->]. apply (Hm d m Hk) in H. eapply km_msg; eassumption.
      + intros H. inversion H as [k' j' v S|k' j' U|k' d' j' m K M]; subst.
        * exfalso. inversion S; subst; try discriminate Ek; match goal with X : In k _ |- _ => cbn in X; intuition (subst; discriminate) end.
        * exfalso. destruct U as (_ & e & s & -> & _). discriminate Ek.
        * assert (d' = d) by congruence. subst d'. now apply (Hm d m Hk).
    - rewrite (scalar_goal k j o Ek), (scalar_iff t deny k j o Ek (f64_ok j Hj)). split.
      + intros [(v & -> & H)|(-> & H)]; [now apply km_scalar|now apply km_ignored].
      + intros H. inversion H; subst; eauto. congruence.
  Qed.
  Lemma value_named d : bytes_eqb (full_name t d) (s2b "google.protobuf.Value") = true -> wkt_of t d = Some WValue.
  Proof. intros H. apply bytes_eqb_eq in H. unfold wkt_of. rewrite H. vm_compute. reflexivity. Qed.
  Lemma field_iff j f o : means_val j -> fwf t f -> de E t deny j false (TOpt f) = JOk o <-> field_means E t deny f j o.
  Proof.
    intros Hv Hf. rewrite <- gives_spec. assert (Nv : forall d v, takes_null t f = true -> kind_msg (fd_kind f) = Some d ->
      de E t deny JNull false (TGoal (GMsg d)) = JOk (Some v) <-> exists m, v = VMessage m /\ carries t d (value_of JNull) m).
    { intros d v Ht Hk. assert (W : wkt_of t d = Some WValue).
      { apply value_named. unfold takes_null in Ht. destruct (fd_kind f); cbn in Hk; try discriminate; injection Hk as <-; exact Ht. }
      cbn [de de_atom]. rewrite W. cbn [de_wkt_atom de_watom jbind wvalue]. rewrite make_iff. split; [intros (m & [= ->] & H); eauto|intros (m & -> & H); eauto]. }
    split.
    - intros H. inversion H as [H1|e H1 H2|d v H1 H2 H3|j' o' H1 H2]; subst.
      + now constructor.
      + eapply fm_null_enum; eassumption.
      + apply (Nv d v H2 H1) in H3. destruct H3 as (m & -> & H3). eapply fm_null_value; eassumption.
      + apply fm_value; [assumption|]. now apply Hv.
    - intros H. inversion H as [f' H1|f' e H1 H2|f' d m H1 H2 H3|f' j' o' H1 H2]; subst.
      + now constructor.
      + eapply gives_null_enum; eassumption.
      + eapply gives_null_value; [eassumption|assumption|]. apply (Nv d _ H1 H2). eauto.
      + apply gives_value; [assumption|]. now apply Hv.
  Qed.

  Definition okm (kv : str * json) : bool :=
    bytes_okb (fst kv) && utf8_valid (fst kv) && (nulls || match snd kv with JNull => false | _ => true end) && json_okb nulls (snd kv).
  Lemma okm_obj l : json_okb nulls (JObj l) = true <-> forall kv, In kv l -> okm kv = true.
  Proof. cbn [json_okb]. rewrite forallb_forall. reflexivity. Qed.
  Lemma okm_val kv : okm kv = true -> json_okb nulls (snd kv) = true.
  Proof. unfold okm. rewrite !andb_true_iff. tauto. Qed.

  (** ** Lists and maps *)
  Lemma items_iff k l : gwf t (kind_goal k) -> (forall j, In j l -> json_okb nulls j = true /\ means_msg j) -> forall vs,
    de_list (map (fun x b g' => de E t deny x b g') l) false k = JOk vs <-> items_mean E t deny k l vs.
  Proof.
    intros Hk. induction l as [|j l IH]; intros Hl vs; cbn [map de_list].
    - split; [intros [= <-]; constructor|intros H; inversion H; reflexivity].
    - destruct (Hl j (or_introl eq_refl)) as [J1 J2]. specialize (IH (fun x Hx0 => Hl x (or_intror Hx0))).
      pose proof (fun o => kind_iff j k o J1 J2 Hk) as K. split.
      + destruct (de E t deny j false (TGoal (kind_goal k))) as [o| | |] eqn:Ej; try discriminate. cbn [jbind].
        destruct (de_list _ false k) as [r| | |] eqn:El; try discriminate. cbn [jbind]. intros [= <-].
        assert (I1 : kind_means E t deny k j o) by (now apply K). assert (I2 : items_mean E t deny k l r) by (now apply IH).
        destruct o as [v|]; [now apply im_value|now apply im_ignored].
      + intros H. inversion H as [|k' j' l' v r H1 H2|k' j' l' r H1 H2]; subst; apply K in H1; apply IH in H2; rewrite H1; cbn [jbind]; rewrite H2; reflexivity.
  Qed.
  Lemma key_kinds k k0 : mk_default k = Some k0 ->
    In k [KInt32; KSint32; KSfixed32; KInt64; KSint64; KSfixed64; KUint32; KFixed32; KUint64; KFixed64; KBool; KString].
  Proof. destruct k; try discriminate; intros _; cbn; tauto. Qed.
  Lemma entries_iff kk k0 vf l : mk_default kk = Some k0 -> fwf t vf -> (forall kv, In kv l -> means_val (snd kv)) -> forall acc kvs,
    de_map (readers E t deny l) false kk vf acc = JOk kvs <-> entries_mean E t deny kk vf acc l kvs.
  Proof.
    intros Hk Hv. unfold readers. induction l as [|[key j] l IH]; intros Hl acc kvs; cbn [map de_map fst snd].
    - split; [intros [= <-]; constructor|intros H; inversion H; reflexivity].
    - pose proof (Hl _ (or_introl eq_refl)) as J. cbn [snd] in J. specialize (IH (fun x Hx0 => Hl x (or_intror Hx0))).
      pose proof (fun k => key_iff kk key k (key_kinds kk k0 Hk)) as K. pose proof (fun o => J vf o Hv) as V. split.
      + destruct (de_key kk key) as [k| | |] eqn:Ek; try discriminate. cbn [jbind].
        destruct (de E t deny j false (TGoal (field_goal vf))) as [o| | |] eqn:Ej; try discriminate. cbn [jbind]. intros H. apply IH in H.
        assert (I1 : key_says kk key k) by (now apply K). assert (I2 : value_means E t deny vf j o) by (now apply V).
        destruct o as [v|]; [eapply em_value; eassumption|eapply em_ignored; eassumption].
      + intros H. inversion H as [|kk' vf' a key' j' l' k v r H1 H2 H3|kk' vf' a key' j' l' k r H1 H2 H3]; subst; apply K in H1; apply V in H2; apply IH in H3; rewrite H1; cbn [jbind]; rewrite H2; exact H3.
  Qed.

  Lemma not_list f : fwf t f -> gwf t (field_goal f).
  Proof. intros H. apply (field_goal_wf t Hw); assumption. Qed.
  Lemma val_iff j : json_okb nulls j = true -> means_msg j ->
    match j with JArr l => forall x, In x l -> means_msg x | JObj l => forall kv, In kv l -> means_val (snd kv) | _ => True end -> means_val j.
  Proof.
    intros Hj Hm Hc f o Hf. pose proof (not_list f Hf) as Hg. unfold field_goal in *.
    destruct (fd_is_list f) eqn:El.
    - split.
      + intros H. destruct j; try (cbn in H; discriminate H). cbn [de target_goal de_arr] in H.
        destruct (de_list _ false _) as [vs| | |] eqn:Ev; try discriminate H. injection H as <-. apply vm_list; [exact El|].
        apply items_iff; [|intros x Hin; split; [|apply Hc, Hin]|exact Ev].
        * apply (kind_goal_wf t), Hg.
        * cbn in Hj. rewrite forallb_forall in Hj. now apply Hj.
      + intros H. inversion H as [f' l vs H1 H2|f' e kf vf l kvs H1|f' j' o' H1]; subst; try congruence.
        apply items_iff in H2; [|apply (kind_goal_wf t), Hg|intros x Hin; split; [|apply Hc, Hin]; cbn in Hj; rewrite forallb_forall in Hj; now apply Hj].
        cbn [de target_goal de_arr]. rewrite H2. reflexivity.
    - destruct (fd_is_map f) eqn:Em.
      + destruct Hg as (e & kf & vf & k0 & G1 & G2 & G3 & G4 & G5).
        assert (Fv : fwf t vf).
        { exists e. unfold entry_value in G3. pose proof (get_field_number _ _ _ _ (proj1 Hw) G3) as Nv. unfold find_desc. rewrite Nv, G3. reflexivity. }
        split.
        * intros H. destruct j; try (cbn in H; discriminate H). cbn [de target_goal de_obj] in H. rewrite G1, G2, G3 in H.
          destruct (de_map _ false _ _ _) as [kvs| | |] eqn:Ev; try discriminate H. injection H as <-.
          eapply vm_map; try eassumption. apply (entries_iff (fd_kind kf) k0 vf l G4 Fv Hc [] kvs). exact Ev.
        * intros H. inversion H as [f' l vs H1 H2|f' e' kf' vf' l kvs H1 H2 H3 H4 H5 H6|f' j' o' H1 H2]; subst; try congruence.
          assert (e' = e) by congruence. subst e'. unfold entry_key, entry_value, MAP_KEY_NUMBER, MAP_VALUE_NUMBER in *.
          assert (kf' = kf) by congruence. assert (vf' = vf) by congruence. subst.
          apply (entries_iff (fd_kind kf) k0 vf l G4 Fv Hc) in H6. cbn [de target_goal de_obj]. unfold entry_key, entry_value, MAP_KEY_NUMBER, MAP_VALUE_NUMBER.
          rewrite G1, G2, G3. unfold readers in H6. rewrite H6. reflexivity.
      + rewrite (kind_iff j (fd_kind f) o Hj Hm Hg). split; [now apply vm_one|]. intros H. inversion H; subst; try congruence.
  Qed.

  (** ** Members *)
  Lemma reads_iff d l : (forall kv, In kv l -> means_val (snd kv)) -> forall gs, reads E t deny d l gs <-> members_mean E t deny d l gs.
  Proof.
    induction l as [|[key j] l IH]; intros Hl gs.
    - split; intros H; inversion H; constructor.
    - pose proof (Hl _ (or_introl eq_refl)) as J. cbn [snd] in J. specialize (IH (fun x Hx0 => Hl x (or_intror Hx0))).
      assert (F : forall f o, stands_for t d key (Some f) -> gives E t deny f j o <-> field_means E t deny f j o).
      { intros f o S. rewrite gives_spec. apply field_iff; [exact J|]. exists d. apply stands_for_spec in S; [|apply Hw]. exact (member_desc t Hw Hx' _ _ _ S). }
      split; intros H; inversion H; subst.
      + apply mb_value; auto; [now apply F|now apply IH].
      + eapply mb_unset; [eassumption|now apply F|now apply IH].
      + apply mb_unknown; auto. now apply IH.
      + apply reads_value; auto; [now apply F|now apply IH].
      + eapply reads_unset; [eassumption|now apply F|now apply IH].
      + apply reads_unknown; auto. now apply IH.
  Qed.
  Lemma object_iff d l m : json_okb nulls (JObj l) = true -> (forall kv, In kv l -> means_val (snd kv)) -> (d < length (t_messages t))%nat -> wkt_of t d = None ->
    de_members t deny (readers E t deny l) false (new_msg d) = JOk m <-> exists gs, members_mean E t deny d l gs /\ holds d gs m.
  Proof.
    intros Hj Hl Hd Hk. rewrite <- (from_json_members E t deny d l Hk), (C48_object E t deny d l m (readable_obj l Hj) Hd Hk).
    split; intros (gs & H1 & H2); exists gs; (split; [now apply (reads_iff d l Hl)|exact H2]).
  Qed.

  (** ** Any *)
  Definition rd (j : json) : reader := fun b g => de E t deny j b g.
  Definition keep (l : list (str * json)) (acc : list (str * reader)) : list (str * reader) :=
    fold_left (fun acc kv => hash_insert (fst kv) (rd (snd kv)) acc) l acc.
  Lemma find_iff want l : forall s0 r s rest, find_member want (readers E t deny l) s0 = Some (r, s, rest) <->
    exists pre j post, l = pre ++ (want, j) :: post /\ ~ In want (map fst pre) /\ r = rd j /\ s = keep pre s0 /\ rest = readers E t deny post.
  Proof.
    unfold readers. induction l as [|[k j] l IH]; intros s0 r s rest; cbn [map find_member fst snd].
    - split; [discriminate|]. intros (pre & j & post & H & _). destruct pre; discriminate H.
    - destruct (bytes_eqb k want) eqn:Ek.
      + apply bytes_eqb_eq in Ek. subst k. split.
        * intros [= <- <- <-]. exists [], j, l. repeat split; auto.
        * intros (pre & j' & post & H & Hni & -> & -> & ->). destruct pre as [|[k' j''] pre].
          -- cbn in H. injection H as <- <-. reflexivity.
          -- cbn in H. injection H as <- _ _. exfalso. apply Hni. now left.
      + rewrite IH. split.
        * intros (pre & j' & post & -> & Hni & -> & -> & ->). exists ((k, j) :: pre), j', post. repeat split; auto.
          cbn. intros [->|H]; [rewrite bytes_eqb_refl in Ek; discriminate|auto].
        * intros (pre & j' & post & H & Hni & -> & -> & ->). destruct pre as [|[k' j''] pre].
          -- cbn in H. injection H as -> _ _. rewrite bytes_eqb_refl in Ek. discriminate.
          -- cbn in H. injection H as <- <- ->. exists pre, j', post. repeat split; auto. intros H. apply Hni. now right.
  Qed.
  Definition as_kept (r : reader) (j : json) : Prop := forall g, r true g = de E t deny j false g.
  Definition kept_on (l acc : list (str * json)) := fold_left (fun acc kv => hash_insert (fst kv) (buffered (snd kv)) acc) l acc.
  Lemma keep_kept l : forall acc acc', Forall2 (rel2 as_kept) acc acc' -> Forall2 (rel2 as_kept) (keep l acc) (kept_on l acc').
  Proof.
    induction l as [|[k j] l IH]; intros acc acc' H; cbn [keep kept_on fold_left]; [exact H|]. apply IH, hash_insert_rel; [exact H|]. intros g. apply de_buffered.
  Qed.
  Lemma kept_rel l : Forall2 (rel2 as_kept) (keep l []) (kept l).
  Proof. apply (keep_kept l [] []). constructor. Qed.
  Lemma keep_app a b acc : keep (a ++ b) acc = keep b (keep a acc).
  Proof. unfold keep. now rewrite fold_left_app. Qed.
  Lemma hash_insert_keys {A} k (v : A) l x : In x (map fst (hash_insert k v l)) <-> x = k \/ In x (map fst l).
  Proof.
    induction l as [|[a y] l IH]; cbn [hash_insert map fst In]; [intuition|]. destruct (bytes_eqb k a) eqn:Ek; cbn [map fst In].
    - apply bytes_eqb_eq in Ek. subst a. intuition.
    - rewrite IH. intuition.
  Qed.
  Lemma keep_keys l : forall acc x, In x (map fst (keep l acc)) <-> In x (map fst l) \/ In x (map fst acc).
  Proof.
    induction l as [|[k j] l IH]; intros acc x; cbn [keep fold_left map fst In]; [intuition|]. change (fold_left _ l ?a) with (keep l a). rewrite IH.
    cbn [fst snd]. rewrite hash_insert_keys. intuition.
  Qed.
  Lemma hash_insert_in {A} k (v : A) l kv : In kv (hash_insert k v l) -> kv = (k, v) \/ In kv l.
  Proof.
    induction l as [|[a y] l IH]; cbn [hash_insert In]; [intuition|]. destruct (bytes_eqb k a); cbn [In]; intuition.
  Qed.
  Lemma kept_in l : forall acc kv, In kv (kept_on l acc) -> In kv acc \/ exists j, In (fst kv, j) l /\ snd kv = buffered j.
  Proof.
    induction l as [|[k j] l IH]; intros acc kv H; [left; exact H|]. cbn [kept_on fold_left] in H. apply IH in H. cbn [fst snd] in H.
    destruct H as [H|(j' & H1 & H2)]; [|right; exists j'; split; [now right|exact H2]].
    apply hash_insert_in in H. destruct H as [->|H]; [right; exists j; split; [now left|reflexivity]|now left].
  Qed.
  Lemma assoc_none {A} k (l : list (str * A)) : assoc_s k l = None <-> ~ In k (map fst l).
  Proof.
    induction l as [|[a y] l IH]; cbn [assoc_s map fst In]; [intuition|]. destruct (bytes_eqb k a) eqn:Ek.
    - apply bytes_eqb_eq in Ek. subst a. split; [discriminate|]. intros H. exfalso. apply H. now left.
    - rewrite IH. apply bytes_eqb_neq in Ek. intuition.
  Qed.
  Lemma in_order_in {A} (l : list (str * A)) kv : In kv (in_order E l) -> assoc_s (fst kv) l = Some (snd kv).
  Proof.
    unfold in_order. intros H. apply in_flat_map in H. destruct H as (k & _ & H). destruct (assoc_s k l) as [v|] eqn:Ev; [|destruct H].
    destruct H as [<-|[]]. exact Ev.
  Qed.
  Lemma in_order_nil {A} (l : list (str * A)) : in_order E l = [] <-> l = [].
  Proof.
    split.
    - intros H. destruct l as [|[k v] l]; [reflexivity|]. exfalso.
      assert (Hk : In k (jx_order E (map fst ((k, v) :: l)))) by (apply (Permutation_in _ (Permutation_sym (Hord _))); now left).
      assert (X : In (k, v) (in_order E ((k, v) :: l))).
      { unfold in_order. apply in_flat_map. exists k. split; [exact Hk|]. cbn [assoc_s]. rewrite bytes_eqb_refl. now left. }
      rewrite H in X. exact X.
    - intros ->. unfold in_order. cbn [map]. pose proof (Hord []) as P. apply Permutation_sym, Permutation_nil in P. now rewrite P.
  Qed.
  Lemma hash_insert_nodup {A} k (v : A) l : NoDup (map fst l) -> NoDup (map fst (hash_insert k v l)).
  Proof.
    induction l as [|[a y] l IH]; intros H; cbn [hash_insert]; [repeat constructor; intros []|]. inversion H as [|? ? H1 H2]; subst.
    destruct (bytes_eqb k a) eqn:Ek; cbn [map fst].
    - apply bytes_eqb_eq in Ek. subst a. now constructor.
    - constructor; [|auto]. rewrite hash_insert_keys. apply bytes_eqb_neq in Ek. intros [->|X]; auto.
  Qed.
  Lemma keep_nodup l : forall acc, NoDup (map fst acc) -> NoDup (map fst (keep l acc)).
  Proof. induction l as [|[k j] l IH]; intros acc H; [exact H|]. cbn [keep fold_left]. apply IH, hash_insert_nodup, H. Qed.
  Lemma hash_remove_nil {A} k (l : list (str * A)) : NoDup (map fst l) -> (hash_remove k l = [] <-> forall x, In x (map fst l) -> x = k).
  Proof.
    destruct l as [|[a y] l]; intros H; cbn [hash_remove map fst In]; [split; auto; intros _ x []|]. inversion H as [|? ? H1 H2]; subst.
    destruct (bytes_eqb k a) eqn:Ek.
    - apply bytes_eqb_eq in Ek. subst a. split.
      + intros ->. cbn. intros x [<-|[]]. reflexivity.
      + intros X. destruct l as [|[b z] l]; [reflexivity|]. exfalso. apply H1. cbn. left. apply X. right. now left.
    - split; [discriminate|]. intros X. apply bytes_eqb_neq in Ek. exfalso. apply Ek. symmetry. apply X. now left.
  Qed.
  Lemma keep_nil l acc : keep l acc = [] -> l = [] /\ acc = [].
  Proof.
    intros H. assert (X : forall x, ~ (In x (map fst l) \/ In x (map fst acc))).
    { intros x Hx0. apply keep_keys in Hx0. rewrite H in Hx0. exact Hx0. }
    destruct l as [|[k j] l]; [|exfalso; apply (X k); left; now left]. destruct acc as [|[k r] acc]; [auto|]. exfalso. apply (X k). right. now left.
  Qed.

  Definition members_ok (l : list (str * json)) : Prop := forall kv, In kv l ->
    okm kv = true /\ means_msg (snd kv) /\ means_val (snd kv) /\ means_msg (buffered (snd kv)) /\ means_val (buffered (snd kv)).

  Lemma left_over (s : list (str * reader)) (l : list (str * json)) (x x' : dynmsg) :
    (if deny then match in_order E s ++ readers E t deny l with (k, _) :: _ => JErr (XUnknownField k) | [] => JOk x end else JOk x) = JOk x' <->
    x' = x /\ (deny = true -> s = [] /\ l = []).
  Proof.
    destruct deny.
    - destruct (in_order E s ++ readers E t true l) as [|[k r] more] eqn:El.
      + apply app_eq_nil in El. destruct El as [E1 E2]. apply (proj1 (in_order_nil s)) in E1. unfold readers in E2. apply map_eq_nil in E2.
        split; [intros [= <-]; auto|intros [-> _]; reflexivity].
      + split; [discriminate|]. intros [_ H]. exfalso. destruct (H eq_refl) as [-> ->]. cbn in El. rewrite app_nil_r in El.
        rewrite (proj2 (in_order_nil [])) in El by reflexivity. discriminate.
    - split; [intros [= <-]; split; [reflexivity|discriminate]|intros [-> _]; reflexivity].
  Qed.

  Lemma payload_iff pre post name i x : members_ok pre -> members_ok post -> find_msg t name = Some i ->
    any_payload E t deny (readers E t deny post) (keep pre []) false name i = JOk x <-> body_means E t deny i pre post x.
  Proof.
    intros Hpre Hpost Hi. pose proof (find_msg_lt t name i Hi) as Hlt.
    assert (Wk : wkt_of t i = wkt_named name) by (unfold wkt_of; now rewrite (find_msg_full t name i Hi)).
    pose proof (kept_rel pre) as HR. unfold any_payload. destruct (wkt_named name) as [w|] eqn:Ew.
    - assert (Hmsg : forall j v, json_okb nulls j = true -> de E t deny j false (TGoal (GMsg i)) = JOk v -> exists m, v = Some (VMessage m)).
      { intros j v Hj H. exact (msg_result j i v Hj Hlt H). }
      pose proof (assoc_rel _ _ _ (s2b "value") HR) as Ha.
      destruct (assoc_s (s2b "value") (keep pre [])) as [r|] eqn:Er; destruct (assoc_s (s2b "value") (kept pre)) as [j|] eqn:Ej; try contradiction.
      + rewrite Ha.
        assert (Hj : exists j0, In (s2b "value", j0) pre /\ j = buffered j0).
        { assert (X : In (s2b "value", j) (kept pre)) by (now apply assoc_s_In). apply (kept_in pre []) in X. destruct X as [[]|X]. exact X. }
        destruct Hj as (j0 & Hin & ->). destruct (Hpre _ Hin) as (O1 & _ & _ & O2 & _). cbn [snd] in O2.
        assert (Ok : json_okb nulls (buffered j0) = true) by (apply buffered_ok; exact (okm_val _ O1)).
        assert (Rm : hash_remove (s2b "value") (keep pre []) = [] <-> forall k, In k (map fst pre) -> k = s2b "value").
        { rewrite (hash_remove_nil (s2b "value") (keep pre [])) by (apply keep_nodup; constructor). split; intros H k Hk; apply H.
          - apply keep_keys. now left.
          - apply keep_keys in Hk. destruct Hk as [Hk|[]]. exact Hk. }
        split.
        * destruct (de E t deny (buffered j0) false (TGoal (GMsg i))) as [v| | |] eqn:Ev; try discriminate. destruct (Hmsg _ _ Ok Ev) as [m ->].
          cbn [jbind]. intros H. apply left_over in H. destruct H as [-> Hd]. eapply bm_before; [congruence|exact Ej|now apply O2|].
          intros D. destruct (Hd D) as [D1 D2]. split; [exact D2|now apply Rm].
        * intros H. inversion H as [i' p' q' gs y H1|i' p' q' j y H1 H2 H3 H4|i' p' mid j q' y H1 H2]; subst; [congruence| |].
          -- assert (j = buffered j0) by congruence. subst j. apply (O2 i x Hlt) in H3. rewrite H3. cbn [jbind]. apply left_over.
             split; [reflexivity|]. intros D. destruct (H4 D) as [D1 D2]. split; [now apply Rm|exact D1].
          -- exfalso. apply H2. rewrite map_app. apply in_or_app. left. apply in_map_iff. exists (s2b "value", j0). auto.
      + assert (Nv : ~ In (s2b "value") (map fst pre)).
        { apply assoc_none in Er. intros H. apply Er, keep_keys. now left. }
        split.
        * destruct (find_member (s2b "value") (readers E t deny post) (keep pre [])) as [[[r s] rest]|] eqn:Ef; [|discriminate].
          apply find_iff in Ef. destruct Ef as (mid & j & post' & -> & Hni & -> & -> & ->).
          destruct (Hpost (s2b "value", j)) as (O1 & O2 & _); [apply in_or_app; right; now left|]. cbn [snd] in O2.
          unfold rd at 1. destruct (de E t deny j false (TGoal (GMsg i))) as [v| | |] eqn:Ev; try discriminate. destruct (Hmsg _ _ (okm_val _ O1) Ev) as [m ->].
          cbn [jbind]. intros H. apply left_over in H. destruct H as [-> Hd]. apply bm_after; [congruence| |now apply O2|].
          -- rewrite map_app. intros X. apply in_app_or in X. tauto.
          -- intros D. destruct (Hd D) as [D1 ->]. apply keep_nil in D1. destruct D1 as [-> D1]. apply keep_nil in D1. tauto.
        * intros H. inversion H as [i' p' q' gs y H1|i' p' q' j y H1 H2 H3 H4|i' p' mid j q' y H1 H2 H3 H4]; subst; [congruence|congruence|].
          assert (Ef : find_member (s2b "value") (readers E t deny (mid ++ (s2b "value", j) :: q')) (keep pre []) = Some (rd j, keep mid (keep pre []), readers E t deny q')).
          { apply find_iff. exists mid, j, q'. repeat split; auto. intros X. apply H2. rewrite map_app. apply in_or_app. now right. }
          rewrite Ef. destruct (Hpost (s2b "value", j)) as (O1 & O2 & _); [apply in_or_app; right; now left|]. cbn [snd] in O2.
          apply (O2 i x Hlt) in H3. unfold rd at 1. rewrite H3. cbn [jbind]. apply left_over. split; [reflexivity|].
          intros D. destruct (H4 D) as (-> & -> & ->). auto.
    - assert (Al : de_members t deny (in_order E (keep pre [])) true (new_msg i) = de_members t deny (readers E t deny (in_order E (kept pre))) false (new_msg i)).
      { apply members_alike. pose proof (in_order_rel _ E _ _ HR) as HO. unfold readers. clear -HO. induction HO as [|a b l l' [H1 H2] Hl IH]; cbn [map]; constructor; auto.
        split; [exact H1|]. intros g. apply H2. }
      rewrite Al, <- de_members_app. unfold readers. rewrite <- map_app. fold (readers E t deny (in_order E (kept pre) ++ post)).
      assert (Mem : forall kv, In kv (in_order E (kept pre) ++ post) -> okm kv = true /\ means_val (snd kv)).
      { intros kv H. apply in_app_or in H. destruct H as [H|H].
        - apply in_order_in, assoc_s_In in H. apply (kept_in pre []) in H. destruct H as [[]|(j0 & K1 & K2)]. destruct (Hpre _ K1) as (O1 & _ & _ & _ & O2).
          cbn [snd fst] in *. rewrite K2. split; [|exact O2]. destruct kv as [k j]. cbn [fst snd] in *. subst j.
          assert (X : json_okb nulls (buffered (JObj [(k, j0)])) = true) by (apply buffered_ok; apply okm_obj; intros kv [<-|[]]; exact O1).
          cbn in X. now rewrite andb_true_r in X.
        - destruct (Hpost _ H) as (O1 & _ & O2 & _). auto. }
      rewrite object_iff; [|now apply okm_obj; intros kv H; apply Mem|intros kv H; now apply Mem|exact Hlt|congruence].
      split.
      + intros (gs & H1 & H2). eapply bm_members; [congruence|exact H1|exact H2].
      + intros H. inversion H; subst; try congruence. eauto.
  Qed.
  Lemma str_goal j u : de E t deny j false (TGoal GStr) = JOk u <-> exists s, j = JStr s /\ u = Some (VString s).
  Proof.
    split.
    - destruct j; cbn; try discriminate. intros [= <-]. eauto.
    - intros (s & -> & ->). reflexivity.
  Qed.
  Lemma any_inv d j m : msg_means E t deny d j m -> wkt_of t d = Some WAny ->
    exists pre url post name i x b, j = JObj (pre ++ (s2b "@type", JStr url) :: post) /\ ~ In (s2b "@type") (map fst pre) /\
      type_url_name url = Some name /\ find_msg t name = Some i /\ body_means E t deny i pre post x /\ enc_msg t x = Ok b /\
      carries t d (DM 0 [(1, SVal (VString url)); (2, SVal (VBytes b))]) m.
  Proof.
    intros H W. destruct H; try congruence. exists pre, url, post, name, i, x, b. repeat (split; [first [reflexivity|assumption]|]). assumption.
  Qed.
  Lemma any_iff l d m : members_ok l -> wkt_of t d = Some WAny ->
    de_any E t deny (readers E t deny l) false d = JOk (Some (VMessage m)) <-> msg_means E t deny d (JObj l) m.
  Proof.
    intros Hl Hd. unfold de_any. split.
    - destruct (find_member (s2b "@type") (readers E t deny l) []) as [[[r s] rest]|] eqn:Ef; [|discriminate].
      apply find_iff in Ef. destruct Ef as (pre & j & post & -> & Hni & -> & -> & ->). unfold rd at 1.
      destruct (de E t deny j false (TGoal GStr)) as [u| | |] eqn:Eu; try discriminate. apply str_goal in Eu. destruct Eu as (url & -> & ->).
      cbn [jbind val_bytes]. destruct (type_url_name url) as [name|] eqn:En; [|discriminate]. destruct (find_msg t name) as [i|] eqn:Ei; [|discriminate].
      destruct (any_payload _ _ _ _ _ _ _ _) as [x| | |] eqn:Ex; try discriminate. cbn [jbind].
      destruct (enc_msg t x) as [b|e| |] eqn:Eb; cbn [jdec jbind]; try discriminate. intros H. apply make_msg in H.
      apply payload_iff in Ex; [|intros kv Hin; apply Hl; apply in_or_app; now left|intros kv Hin; apply Hl; apply in_or_app; right; now right|exact Ei].
      eapply mm_any; eassumption.
    - intros H. apply any_inv in H; [|exact Hd]. destruct H as (pre & url & post & name & i & x & b & Hl' & Hni & Hu & Hi & Hb & Henc & Hc). assert (X : l = pre ++ (s2b "@type", JStr url) :: post) by congruence. subst l. clear Hl'.
      assert (Ef : find_member (s2b "@type") (readers E t deny (pre ++ (s2b "@type", JStr url) :: post)) [] = Some (rd (JStr url), keep pre [], readers E t deny post)).
      { apply find_iff. exists pre, (JStr url), post. repeat split; auto. }
      rewrite Ef. unfold rd at 1. cbn [de target_goal de_atom jbind val_bytes]. rewrite Hu, Hi.
      apply (payload_iff pre post name i x) in Hb; [|intros kv Hin; apply Hl; apply in_or_app; now left|intros kv Hin; apply Hl; apply in_or_app; right; now right|exact Hi].
      rewrite Hb. cbn [jbind]. rewrite Henc. cbn [jdec jbind]. now apply make_msg.
  Qed.

  (** ** Documents *)
  Lemma not_wkt j w d m : wkt_of t d = Some w -> (w = WAny \/ w = WStruct \/ w = WEmpty \/ w = WList) ->
    match j with JArr _ | JObj _ => False | _ => True end -> ~ msg_means E t deny d j m.
  Proof. intros W Hc Ha H. destruct H; try contradiction Ha; rewrite W in *; destruct Hc as [Hc|[Hc|[Hc|Hc]]]; congruence. Qed.
  Lemma check_time sec : check_timestamp sec = true <-> (-62135596800 <= sec <= 253402300799)%Z.
  Proof. unfold check_timestamp, min_timestamp_seconds, max_timestamp_seconds. lia. Qed.
  Lemma check_dur sec nan : check_duration sec nan = true <-> (-315576000000 <= sec <= 315576000000)%Z /\ (-999999999 <= nan <= 999999999)%Z.
  Proof. unfold check_duration, max_duration_seconds, max_duration_nanos. lia. Qed.
  Lemma time_inv j d m : msg_means E t deny d j m -> wkt_of t d = Some WTimestamp -> exists s sec nan, j = JStr s /\ rfc3339 s /\
    jx_parse_timestamp E s = Some (sec, nan) /\ (-62135596800 <= sec <= 253402300799)%Z /\ carries t d (typed_time 1 sec nan) m.
  Proof. intros H W. destruct H; try congruence. exists s, sec, nan. repeat (split; [first [reflexivity|assumption]|]). assumption. Qed.
  Lemma time_iff j d m : wkt_of t d = Some WTimestamp -> de_wkt_atom E t deny WTimestamp d j = JOk (Some (VMessage m)) <-> msg_means E t deny d j m.
  Proof.
    intros W. cbn [de_wkt_atom]. split.
    - destruct j as [| | | | |s| |]; try discriminate. destruct (strict_rfc3339 s) eqn:Es; [|discriminate].
      destruct (jx_parse_timestamp E s) as [[sec nan]|] eqn:Ep; [|discriminate]. destruct (check_timestamp sec) eqn:Ec; [|discriminate].
      intros H. exact (mm_timestamp E t deny d s sec nan m W (proj1 (strict_rfc3339_spec s) Es) Ep (proj1 (check_time sec) Ec) (proj1 (make_msg d _ m) H)).
    - intros H. destruct (time_inv j d m H W) as (s & sec & nan & -> & H1 & H2 & H3 & H4).
      rewrite (proj2 (strict_rfc3339_spec s) H1), H2, (proj2 (check_time sec) H3). exact (proj2 (make_msg d _ m) H4).
  Qed.
  Lemma duration_inv j d m : msg_means E t deny d j m -> wkt_of t d = Some WDuration -> exists s sec nan, j = JStr s /\
    jx_parse_duration E s = Some (sec, nan) /\ ((-315576000000 <= sec <= 315576000000)%Z /\ (-999999999 <= nan <= 999999999)%Z) /\ carries t d (typed_time 2 sec nan) m.
  Proof. intros H W. destruct H; try congruence. exists s, sec, nan. split; [reflexivity|]. split; [assumption|]. split; [split; assumption|]. assumption. Qed.
  Lemma duration_iff j d m : wkt_of t d = Some WDuration -> de_wkt_atom E t deny WDuration d j = JOk (Some (VMessage m)) <-> msg_means E t deny d j m.
  Proof.
    intros W. cbn [de_wkt_atom]. split.
    - destruct j as [| | | | |s| |]; try discriminate.
      destruct (jx_parse_duration E s) as [[sec nan]|] eqn:Ep; [|discriminate]. destruct (check_duration sec nan) eqn:Ec; [|discriminate].
      intros H. exact (mm_duration E t deny d s sec nan m W Ep (proj1 (proj1 (check_dur sec nan) Ec)) (proj2 (proj1 (check_dur sec nan) Ec)) (proj1 (make_msg d _ m) H)).
    - intros H. destruct (duration_inv j d m H W) as (s & sec & nan & -> & H2 & H3 & H4).
      rewrite H2, (proj2 (check_dur sec nan) H3). exact (proj2 (make_msg d _ m) H4).
  Qed.
  Lemma fieldmask_iff j d m : wkt_of t d = Some WMask -> de_wkt_atom E t deny WMask d j = JOk (Some (VMessage m)) <-> msg_means E t deny d j m.
  Proof.
    intros W. unfold de_wkt_atom, typed_time. split.
    - destruct j as [| | | | |s| |]; try discriminate. destruct (mask_in s) as [ps|] eqn:Em; [|discriminate]. intros H. apply make_msg in H.
      apply mask_iff in Em. eapply mm_mask; eassumption.
    - intros H. destruct H; try congruence. match goal with X : mask_says s ps |- _ => apply mask_iff in X; rewrite X end. now apply make_msg.
  Qed.
  Lemma wvalue_iff j d m : match j with JArr _ | JObj _ => False | _ => True end -> wkt_of t d = Some WValue ->
    de_wkt_atom E t deny WValue d j = JOk (Some (VMessage m)) <-> msg_means E t deny d j m.
  Proof.
    intros Ha W. cbn [de_wkt_atom]. assert (V : de_watom j = JOk (VMessage (value_of j))) by (destruct j; try contradiction; reflexivity).
    rewrite V. cbn [jbind]. rewrite make_msg. split.
    - intros H. now apply mm_value.
    - intros H. destruct H; try congruence.
  Qed.
  Lemma wrap_iff j i d m : json_okb nulls j = true -> wkt_of t d = Some (WWrap i) ->
    de_wkt_atom E t deny (WWrap i) d j = JOk (Some (VMessage m)) <-> msg_means E t deny d j m.
  Proof.
    intros Hj Ew. cbn [de_wkt_atom].
    pose proof (wkt_wrap_range t d i Ew) as Hi. destruct (wrapped_facts i Hi) as (f & _ & _ & _ & _ & Wk & Wne & Wf & _).
    assert (Km : kind_msg (wrapped_kind i) = None) by (now rewrite Wf). pose proof (wrapper_wrapped i Hi) as Wr. clear Hi Wk Wne Wf.
    pose proof (fun o => scalar_iff t deny (wrapped_kind i) j o Km (f64_ok j Hj)) as S. split.
    - destruct (de_scalar t deny (wrapped_kind i) j) as [[v|]| | |] eqn:Es; try discriminate. cbn [jbind]. intros H. apply make_msg in H.
      destruct (proj1 (S (Some v)) eq_refl) as [(v' & Hv & Hs)|(Hv & _)]; [|discriminate Hv]. injection Hv as <-.
      eapply mm_wrapper; [exact Ew|exact Wr|exact Hs|exact H].
    - intros H. destruct H; try congruence. assert (i0 = i) by congruence. subst i0.
      assert (k = wrapped_kind i) by congruence. subst k.
      assert (R : de_scalar t deny (wrapped_kind i) j = JOk (Some v)) by (apply S; left; eauto). rewrite R. cbn [jbind]. now apply make_msg.
  Qed.
  Lemma atom_iff j : match j with JArr _ | JObj _ => False | _ => True end -> json_okb nulls j = true -> means_msg j.
  Proof.
    intros Ha Hj d m Hd.
    assert (X : de E t deny j false (TGoal (GMsg d)) = match wkt_of t d with Some w => de_wkt_atom E t deny w d j | None => JErr XType end).
    { destruct j; try contradiction; reflexivity. }
    rewrite X. clear X. destruct (wkt_of t d) as [w|] eqn:Ew.
    2:{ split; [discriminate|]. intros H. destruct H; try congruence. contradiction Ha. }
    destruct w as [| | | | | | | |i].
    - split; [discriminate|]. intros H. now apply (not_wkt j WAny d m) in H; auto.
    - now apply time_iff.
    - now apply duration_iff.
    - split; [discriminate|]. intros H. now apply (not_wkt j WStruct d m) in H; auto.
    - now apply wvalue_iff.
    - split; [discriminate|]. intros H. now apply (not_wkt j WList d m) in H; auto.
    - now apply fieldmask_iff.
    - split; [discriminate|]. intros H. now apply (not_wkt j WEmpty d m) in H; auto.
    - now apply wrap_iff.
  Qed.
  Lemma arr_iff l : means_msg (JArr l).
  Proof.
    intros d m Hd. cbn [de target_goal de_arr]. rewrite wlist_read. cbn [jbind].
    destruct (wkt_of t d) as [w|] eqn:Ew; [|split; [discriminate|]; intros H; inversion H; subst; congruence].
    assert (Sc : forall k v, ~ scalar_says t k (JArr l) v).
    { intros k v H. inversion H; subst;
        match goal with X : f64_says _ _ |- _ => inversion X | X : f32_says _ _ |- _ => inversion X | X : int_says _ _ _ _ _ |- _ => inversion X end. }
    destruct w; try (split; [discriminate|]; intros H; inversion H; subst; try congruence; match goal with X : scalar_says _ _ _ _ |- _ => now apply Sc in X end).
    - rewrite make_msg. split; [intros H; now apply mm_value|]. intros H. inversion H; subst; first [congruence|assumption].
    - rewrite make_msg. split; [intros H; now apply mm_list|]. intros H. inversion H; subst; first [congruence|assumption].
  Qed.
  Lemma obj_iff l : members_ok l -> means_msg (JObj l).
  Proof.
    intros Hl d m Hd. cbn [de target_goal de_obj]. fold (readers E t deny l).
    assert (Sc : forall k v, ~ scalar_says t k (JObj l) v).
    { intros k v H. inversion H; subst;
        match goal with X : f64_says _ _ |- _ => inversion X | X : f32_says _ _ |- _ => inversion X | X : int_says _ _ _ _ _ |- _ => inversion X end. }
    destruct (wkt_of t d) as [w|] eqn:Ew.
    - destruct w; try (split; [discriminate|]; intros H; inversion H; subst; try congruence; match goal with X : scalar_says _ _ _ _ |- _ => now apply Sc in X end).
      + now apply any_iff.
      + change (map (fun kv => (fst kv, fun b g' => de E t deny (snd kv) b g')) l) with (readers E t deny l). rewrite wstruct_read. cbn [jbind].
        rewrite make_msg. split; [intros H; now apply mm_struct|]. intros H. inversion H; subst; first [congruence|assumption].
      + change (map (fun kv => (fst kv, fun b g' => de E t deny (snd kv) b g')) l) with (readers E t deny l). rewrite wstruct_read. cbn [jbind].
        rewrite make_msg. split; [intros H; now apply mm_value|]. intros H. inversion H; subst; first [congruence|assumption].
      + unfold readers. destruct l as [|kv l]; cbn [map].
        * rewrite make_msg. split; [intros H; now apply mm_empty|]. intros H. inversion H; subst; first [congruence|assumption].
        * split; [discriminate|]. intros H. inversion H; subst; first [congruence|assumption].
    - pose proof (object_iff d l) as O. unfold readers in O.
      assert (K : forall r : jres dynmsg, (let* m0 := r in JOk (Some (VMessage m0))) = JOk (Some (VMessage m)) <-> r = JOk m).
      { intros r. destruct r; cbn; split; intros H; try discriminate H; injection H as ->; reflexivity. }
      rewrite K, O; [|apply okm_obj; intros kv H; now apply Hl|intros kv H; now apply Hl|exact Hd|exact Ew]. split.
      + intros (gs & H1 & H2). eapply mm_members; eassumption.
      + intros H. inversion H; subst; try congruence. eauto.
  Qed.

  Lemma all_mean j : Q j /\ Q (buffered j).
  Proof.
    assert (A : forall j, match j with JArr _ | JObj _ => False | _ => True end -> Q j).
    { intros j0 Ha Hj. assert (M : means_msg j0) by (now apply atom_iff). split; [exact M|]. apply val_iff; auto. destruct j0; try exact I; contradiction. }
    assert (B : forall l, (forall x, In x l -> Q x) -> Q (JArr l)).
    { intros l Hl Hj. split; [apply arr_iff|]. apply val_iff; [exact Hj|apply arr_iff|]. intros x Hin. apply (Hl x Hin).
      cbn in Hj. rewrite forallb_forall in Hj. auto. }
    assert (C : forall l, (forall kv, In kv l -> Q (snd kv) /\ Q (buffered (snd kv))) -> Q (JObj l)).
    { intros l Hl Hj. pose proof (proj1 (okm_obj l) Hj) as Ok.
      assert (Mo : members_ok l).
      { intros kv Hin. destruct (Hl kv Hin) as [Q1 Q2]. pose proof (okm_val _ (Ok kv Hin)) as O1. destruct (Q1 O1) as [M1 V1].
        destruct (Q2 (buffered_ok _ _ O1)) as [M2 V2]. split; [exact (Ok kv Hin)|]. auto. }
      split; [now apply obj_iff|]. apply val_iff; [exact Hj|now apply obj_iff|]. intros kv Hin. now apply Mo. }
    induction j as [j Hj|l IH|l IH] using json_induction.
    - split; apply A; [exact Hj|]. destruct j; try contradiction; exact I.
    - rewrite Forall_forall in IH. split; [apply B; intros x Hin; now apply IH|]. cbn [buffered]. apply B. intros x Hin. apply in_map_iff in Hin.
      destruct Hin as (y & <- & Hin). now apply IH.
    - rewrite Forall_forall in IH. split; [apply C; intros kv Hin; now apply IH|]. cbn [buffered]. apply C. intros kv Hin. apply sort_members_good in Hin.
      apply in_map_iff in Hin. destruct Hin as (y & <- & Hin). cbn [snd]. rewrite buffered_twice. split; now apply IH.
  Qed.
End Main.

Theorem from_json_means E t deny d j m : readable E t j -> (forall l, Permutation (jx_order E l) l) -> (d < length (t_messages t))%nat ->
  from_json E t deny d j = JOk m <-> msg_means E t deny d j m.
Proof.
  intros (Hw & Hx & He & Hp & Hj) Ho Hd.
  assert (X : exists nulls, json_okb nulls j = true /\ (nulls = true -> no_null_listsb t = true)).
  { destruct Hj as [H|[H1 H2]]; [exists false|exists true]; split; auto; discriminate. }
  destruct X as (nulls & H1 & H2). destruct (proj1 (all_mean E t deny nulls Hw Hx He Hp H2 Ho j) H1) as [M _].
  rewrite <- (M d m Hd). unfold from_json. destruct (de E t deny j false (TGoal (GMsg d))) as [v|e| |] eqn:Ev; cbn [jbind].
  - destruct (msg_result E t deny nulls Hw Hx He H2 j d v H1 Hd Ev) as [x ->]. split; [intros [= <-]; reflexivity|intros [= <-]; reflexivity].
  - split; discriminate.
  - split; discriminate.
  - split; discriminate.
Qed.
