(** C61: what is written is what JsonWritten.v says. *)
From Coq Require Import String.
From Verif Require Import Base BaseProofs Wire Unknown Value Descr Fields Codec DescrOk DescrProofs FieldsProofs MergeProofs ItemRound Float
  TextFormat TextLexProofs Json JsonSer JsonNumbers JsonWkt JsonTree JsonTypedBack JsonRound JsonScalarBack JsonMask JsonMeaning
  JsonMeaningScalars JsonMeaningB64 JsonWritten JsonWrittenScalars JsonWrittenValue Prop_Decode EncBytes.
Open Scope list_scope.
Open Scope N_scope.

(** ** The fields that are listed *)
Lemma increasing_ext {A} (num : A -> N) l : forall r, increasing (map num l) -> increasing (map num r) -> (forall x, In x l <-> In x r) -> l = r.
Proof.
  induction l as [|a l IH]; intros [|b r] Hl Hr H; [reflexivity| | |].
  - exfalso. apply (H b). now left.
  - exfalso. apply (H a). now left.
  - cbn [map increasing] in Hl, Hr. destruct Hl as [La Hl], Hr as [Lb Hr]. rewrite Forall_map, Forall_forall in La, Lb.
    assert (a = b).
    { destruct (proj1 (H a) (or_introl eq_refl)) as [E|E]; [congruence|]. destruct (proj2 (H b) (or_introl eq_refl)) as [E'|E']; [congruence|].
      specialize (La _ E'). specialize (Lb _ E). cbn in La, Lb. lia. }
    subst b. f_equal. apply IH; auto. intros x. split; intros Hx.
    + destruct (proj1 (H x) (or_intror Hx)) as [<-|E]; [|exact E]. specialize (La _ Hx). cbn in La. lia.
    + destruct (proj2 (H x) (or_intror Hx)) as [<-|E]; [|exact E]. specialize (Lb _ Hx). cbn in Lb. lia.
Qed.
Lemma msg_fields_increasing t d : tables_ok t -> increasing (map fd_number (msg_fields t d)).
Proof.
  intros Ht. destruct (nth_error (t_messages t) d) as [m|] eqn:Em.
  - rewrite (msg_fields_numbers _ _ _ Ht Em). pose proof (mf_sorted _ _ _ (tables_facts _ _ _ Ht Em)) as Hs.
    assert (G : forall (l : list (N * nat)), bt_sorted l -> increasing (map fst l)).
    { intros l H. pose proof (flat_increasing (fun kv : N * nat => [kv]) fst l H) as F. rewrite <- (flat_map_concat_map) in F || idtac.
      assert (E1 : flat_map (fun kv : N * nat => [kv]) l = l) by (clear; induction l as [|a l IH]; cbn; [reflexivity|now rewrite IH]). rewrite E1 in F. apply F.
      intros kv _. split; [cbn; lia|]. intros b [<-|[]]. reflexivity. }
    now apply G.
  - unfold msg_fields. rewrite Em. exact I.
Qed.
Lemma increasing_flat {A B} (num : A -> N) (num' : B -> N) (g : A -> list B) l : increasing (map num l) ->
  (forall a, (length (g a) <= 1)%nat) -> (forall a b, In b (g a) -> num' b = num a) -> increasing (map num' (flat_map g l)).
Proof.
  intros Hl H1 H2. induction l as [|a l IH]; [exact I|]. cbn [map increasing flat_map] in *. destruct Hl as [La Hl]. specialize (IH Hl).
  specialize (H1 a). pose proof (H2 a) as H2a. destruct (g a) as [|b [|? ?]]; [exact IH| |cbn in H1; lia]. cbn [app map increasing]. split; [|exact IH].
  rewrite (H2a b (or_introl eq_refl)). rewrite Forall_map, Forall_forall in *. intros x Hx. apply in_flat_map in Hx. destruct Hx as (y & Hy & Hx).
  rewrite (H2 _ _ Hx). apply La. exact Hy.
Qed.

Section Written.
  Variables (E : json_externs) (t : tables) (o : jopt).
  Hypothesis Hwf : wf t.
  Let Ht : tables_ok t := proj1 Hwf.
  Let full : bool := negb (j_skip_default o).

  Definition field_row (m : dynmsg) (f : fdl) : list (fdl * value) :=
    if has_field t m f || (full && negb (fd_presence f)) then [(f, get_field_value t m f)] else [].
  Definition field_rows (m : dynmsg) : list (fdl * value) := flat_map (field_row m) (msg_fields t (dm_desc m)).
  Definition ext_rows (m : dynmsg) : list (fdl * value) := fs_iter_extensions t (dm_desc m) (dm_fields m).

  Lemma field_rows_in m f v : In (f, v) (field_rows m) <-> get_field t (dm_desc m) (fd_number f) = Some f /\ v = get_field_value t m f /\
      (has_field t m f = true \/ j_skip_default o = false /\ fd_presence f = false).
  Proof.
    unfold field_rows. rewrite in_flat_map. split.
    - intros (g & Hg & H). unfold field_row in H. destruct (has_field t m g || full && negb (fd_presence g)) eqn:Eh; [|destruct H].
      destruct H as [[= -> ->]|[]]. split; [now apply msg_fields_get|]. split; [reflexivity|]. apply orb_true_iff in Eh. destruct Eh as [Eh|Eh]; [now left|right].
      apply andb_true_iff in Eh. destruct Eh as [E1 E2]. split; [now apply negb_true_iff in E1|now apply negb_true_iff].
    - intros (Hg & -> & H). exists f. split; [now apply msg_fields_get|]. unfold field_row.
      replace (has_field t m f || full && negb (fd_presence f)) with true; [now left|]. symmetry. apply orb_true_iff. destruct H as [H|[H1 H2]]; [now left|right].
      unfold full. now rewrite H1, H2.
  Qed.
  Lemma field_rows_iff m l : fields_listed t o m l <-> l = field_rows m.
  Proof.
    assert (F : fields_listed t o m (field_rows m)).
    { split; [|apply field_rows_in]. unfold field_rows. apply (increasing_flat fd_number); [now apply msg_fields_increasing| |].
      - intros f. unfold field_row. destruct (_ || _); cbn; lia.
      - intros f [g v] H. unfold field_row in H. destruct (_ || _); [|destruct H]. destruct H as [[= <- _]|[]]. reflexivity. }
    split; [|intros ->; exact F]. intros [H1 H2]. destruct F as [F1 F2]. eapply increasing_ext; [exact H1|exact F1|]. intros [f v]. rewrite H2, F2. reflexivity.
  Qed.
  Lemma ext_rows_iff m l : msg_ok t m -> exts_listed t m l <-> l = ext_rows m.
  Proof.
    intros Hm. pose proof (mo_sorted _ _ Hm) as Hs. assert (F : exts_listed t m (ext_rows m)).
    { split; [now apply iter_ext_increasing|]. intros f v. rewrite (iter_ext_In t (dm_desc m) (dm_fields m) f v Ht Hs). unfold has_field, get_field_value. intuition. }
    split; [|intros ->; exact F]. intros [H1 H2]. destruct F as [F1 F2]. eapply increasing_ext; [exact H1|exact F1|]. intros [f v]. rewrite H2, F2. reflexivity.
  Qed.

  (** ** Members *)
  Section Any.
    Variable any : dynmsg -> jres json.
    Let ser := ser_value E t o any.

    Fixpoint mems (name : fdl -> str) (l : list (fdl * value)) : jres (list (str * json)) :=
      match l with
      | [] => JOk []
      | (f, v) :: r => let* j := ser v (fd_kind f) in let* js := mems name r in JOk ((name f, j) :: js)
      end.
    Fixpoint sers (its : list (item value)) : jres (list (str * json)) :=
      match its with
      | [] => JOk []
      | IUnk _ :: r => sers r
      | IField f v :: r => let* j := ser v (fd_kind f) in let* js := sers r in JOk ((item_name o false f, j) :: js)
      | IExt f v :: r => let* j := ser v (fd_kind f) in let* js := sers r in JOk ((item_name o true f, j) :: js)
      end.
    Lemma items_sers its its' : Forall2 (same_json E t o any) its its' -> ser_items o its = sers its'.
    Proof.
      induction 1 as [|a b l l' Hab F IH]; [reflexivity|].
      destruct a as [f vc|f vc|us]; destruct b as [f' v|f' v|us']; cbn [same_json] in Hab; try contradiction; cbn [ser_items sers].
      - destruct Hab as [<- Hs]. rewrite Hs, IH. reflexivity.
      - destruct Hab as [<- Hs]. rewrite Hs, IH. reflexivity.
      - exact IH.
    Qed.
    Lemma sers_app a b : sers (a ++ b) = let* x := sers a in let* y := sers b in JOk (x ++ y).
    Proof.
      induction a as [|[f v|f v|us] a IH]; cbn [app sers jbind].
      - destruct (sers b); reflexivity.
      - destruct (ser v (fd_kind f)); cbn [jbind]; try reflexivity. rewrite IH. destruct (sers a); cbn [jbind]; try reflexivity. destruct (sers b); reflexivity.
      - destruct (ser v (fd_kind f)); cbn [jbind]; try reflexivity. rewrite IH. destruct (sers a); cbn [jbind]; try reflexivity. destruct (sers b); reflexivity.
      - exact IH.
    Qed.
    Lemma sers_declared m l : sers (iter_declared t (fun v => v) (fd_default_value t) full l (dm_fields m)) =
      mems (field_name o) (flat_map (field_row m) l).
    Proof.
      induction l as [|f l IH]; [reflexivity|]. unfold iter_declared in *. cbn [flat_map]. unfold field_row at 1, has_field, get_field_value, fs_has, fs_get.
      destruct (fs_get_value (dm_fields m) (fd_number f)) as [v|].
      - replace (fd_has t f v || full && negb (fd_presence f)) with (if full then negb (fd_presence f) || fd_has t f v else fd_has t f v)
          by (destruct full, (fd_has t f v), (fd_presence f); reflexivity).
        destruct (if full then _ else _); [|exact IH]. cbn [app sers mems]. rewrite IH. reflexivity.
      - cbn [orb]. destruct (full && negb (fd_presence f)); [|exact IH]. cbn [app sers mems]. rewrite IH. reflexivity.
    Qed.
    Lemma sers_rest m : sers (iter_rest t (fun v => v) (dm_desc m) (dm_fields m)) = mems fd_json (ext_rows m).
    Proof.
      unfold ext_rows, iter_rest, fs_iter_extensions. induction (dm_fields m) as [|[n s] l IH]; [reflexivity|]. cbn [flat_map fst snd].
      destruct s as [|v|us]; [exact IH| |exact IH]. destruct (get_ext t (dm_desc m) n) as [x|]; [|exact IH]. destruct (fd_has t x v); [|exact IH].
      cbn [app sers mems]. rewrite IH. reflexivity.
    Qed.
    Lemma ser_fields_mems m : ser_fields E t o any m =
      let* a := mems (field_name o) (field_rows m) in let* b := mems fd_json (ext_rows m) in JOk (a ++ b).
    Proof.
      unfold ser_fields. rewrite (items_sers _ _ (iter_json E t o Hwf any (dm_desc m) (dm_fields m))).
      unfold fs_iter, fs_iter_gen. rewrite sers_app, sers_rest. unfold field_rows. rewrite <- sers_declared. reflexivity.
    Qed.
    Lemma ser_message m k : ser_value E t o any (VMessage m) k =
      match wkt_of t (dm_desc m) with Some w => ser_wkt E t o any w m | None => let* ms := ser_fields E t o any m in JOk (JObj ms) end.
    Proof. destruct m as [d fs]. reflexivity. Qed.
    Lemma mems_iff name l ms : mems name l = JOk ms <->
      Forall2 (fun fv b => exists j, ser (snd fv) (fd_kind (fst fv)) = JOk j /\ b = (name (fst fv), j)) l ms.
    Proof.
      revert ms. induction l as [|[f v] l IH]; intros ms; cbn [mems].
      - split; [intros [= <-]; constructor|inversion 1; reflexivity].
      - split.
        + destruct (ser v (fd_kind f)) as [j| | |] eqn:Ej; cbn [jbind]; try discriminate. destruct (mems name l) as [js| | |] eqn:El; cbn [jbind]; try discriminate.
          intros [= <-]. constructor; [exists j; auto|now apply IH].
        + intros H. inversion H as [|? ? ? js H1 H2]; subst. cbn [fst snd] in H1. destruct H1 as (j & H1 & ->). rewrite H1. cbn [jbind]. apply IH in H2. rewrite H2. reflexivity.
    Qed.
  End Any.

  (** ** Well-known types *)
  Lemma content_iff m w x : content t m w x <-> transcode_to t m w = JOk x.
  Proof.
    unfold content, transcode_to. destruct (enc_msg t m) as [b| | |]; cbn [jdec jbind].
    - destruct (msg_decode wkt_tables w b) as [y| | |] eqn:Ey; cbn [jdec]; (split; [intros (b' & [= <-] & H)|intros H]); try discriminate.
      + rewrite Ey in H. injection H as ->. reflexivity.
      + injection H as ->. eauto.
      + rewrite Ey in H. discriminate.
      + rewrite Ey in H. discriminate.
      + rewrite Ey in H. discriminate.
    - split; [intros (b' & H & _)|]; discriminate.
    - split; [intros (b' & H & _)|]; discriminate.
    - split; [intros (b' & H & _)|]; discriminate.
  Qed.
  Lemma content_ok m w x : ok_msg t m = true -> (w < 18)%nat -> content t m w x -> ok_msg wkt_tables x = true /\ dm_desc x = w.
  Proof.
    intros Ho Hw (b & He & Hd). destruct (ok_msg_enc t m Hwf Ho) as (b' & He' & Hb). rewrite He in He'. injection He' as <-.
    pose proof (C04_decode_total wkt_tables w b wkt_wf Hw Hb) as C. rewrite Hd in C. exact C.
  Qed.
  Lemma typed_value x n f : ok_msg wkt_tables x = true -> get_field wkt_tables (dm_desc x) n = Some f ->
    typed_is x n (typed_get x n) /\ ok_field wkt_tables f (typed_get x n) = true /\ forall v, typed_is x n v <-> v = typed_get x n.
  Proof.
    intros Ho Hf. pose proof (typed_get_field x n f Hf) as Eg. unfold typed_is, get_field_by_number. rewrite Hf. cbn [option_map]. rewrite Eg.
    split; [reflexivity|]. split.
    - apply typed_get_ok with n; [now apply ok_msg_iff|]. unfold find_desc. now rewrite Hf.
    - intros v. split; [intros [= <-]; reflexivity|intros ->; reflexivity].
  Qed.

  Lemma time_ok w x : (w = 1 \/ w = 2)%nat -> ok_msg wkt_tables x = true -> dm_desc x = w ->
    exists s n, typed_get x 1 = VI64 s /\ typed_get x 2 = VI32 n /\ typed_is x 1 (VI64 s) /\ typed_is x 2 (VI32 n) /\
      (forall v, typed_is x 1 v -> v = VI64 s) /\ (forall v, typed_is x 2 v -> v = VI32 n).
  Proof.
    intros Hw Ho Ed.
    assert (G : forall n k, (n = 1 /\ k = KInt64 \/ n = 2 /\ k = KInt32) -> exists f, get_field wkt_tables w n = Some f /\ fd_kind f = k /\ fd_is_list f = false /\ fd_is_map f = false).
    { intros n k H. assert (Kf : exists f, get_field wkt_tables w n = Some f).
      { destruct (get_field wkt_tables w n) as [f|] eqn:F; [eauto|]. destruct H as [[-> ->]|[-> ->]]; destruct Hw as [-> | ->]; vm_compute in F; discriminate F. }
      destruct Kf as (f & F). exists f. split; [exact F|]. assert (F2 : find_desc wkt_tables w n = Some f) by (unfold find_desc; now rewrite F).
      destruct (time_fields w n f Hw F2) as (_ & L & M & K). split; [|split; assumption]. destruct H as [[-> ->]|[-> ->]], K as [[N1 K]|[N1 K]]; try discriminate N1; exact K. }
    destruct (G 1 KInt64) as (f1 & F1 & K1 & L1 & M1); [tauto|]. destruct (G 2 KInt32) as (f2 & F2 & K2 & L2 & M2); [tauto|]. subst w.
    destruct (typed_value x 1 f1 Ho F1) as (A1 & B1 & C1). destruct (typed_value x 2 f2 Ho F2) as (A2 & B2 & C2).
    unfold ok_field in B1, B2. rewrite K1, L1, M1 in B1. rewrite K2, L2, M2 in B2.
    destruct (typed_get x 1) as [b|z|z|q|q|q|q|s|s|z|mm|vs|kvs]; try discriminate B1; [|destruct mm; discriminate B1].
    destruct (typed_get x 2) as [b|z'|z'|q|q|q|q|s|s|z'|mm|vs|kvs]; try discriminate B2; [|destruct mm; discriminate B2].
    exists z, z'. split; [reflexivity|]. split; [reflexivity|]. split; [exact A1|]. split; [exact A2|]. split; intros v; [apply C1|apply C2].
  Qed.
  Lemma mask_ok x : ok_msg wkt_tables x = true -> dm_desc x = 7%nat -> typed_is x 1 (VList (map VString (mask_paths x))) /\
    forall ps, typed_is x 1 (VList (map VString ps)) -> ps = mask_paths x.
  Proof.
    intros Ho Ed. assert (G : exists f, get_field wkt_tables 7 1 = Some f /\ fd_kind f = KString /\ fd_is_list f = true).
    { destruct (get_field wkt_tables 7 1) as [f|] eqn:F; [|vm_compute in F; discriminate F]. exists f. split; [reflexivity|].
      vm_compute in F. injection F as <-. split; vm_compute; reflexivity. }
    destruct G as (f & F & K & L). rewrite <- Ed in F. destruct (typed_value x 1 f Ho F) as (A & B & C). unfold mask_paths.
    unfold ok_field in B. rewrite K, L in B.
    destruct (typed_get x 1) as [b|z|z|q|q|q|q|s|s|z|mm|vs|kvs]; try discriminate B.
    cbn [as_list]. cbn [andb] in B. assert (Ev : map VString (map val_bytes vs) = vs).
    { clear -B. induction vs as [|v vs IH]; [reflexivity|]. cbn [forallb] in B. apply andb_true_iff in B. destruct B as [B1 B2]. cbn [map]. rewrite (IH B2). f_equal.
      destruct v; try discriminate B1; try reflexivity. destruct m; discriminate B1. }
    rewrite Ev. split; [exact A|]. intros ps H. apply C in H. injection H as <-. rewrite map_map. cbn. now rewrite map_id.
  Qed.
  Lemma wrap_ok i x : (8 <= i <= 16)%nat -> ok_msg wkt_tables x = true -> dm_desc x = i ->
    bits_fit (typed_get x 1) /\ forall v, typed_is x 1 v <-> v = typed_get x 1.
  Proof.
    intros Hi Ho Ed. destruct (wrap_fields i Hi) as (f & _ & _ & _ & L & M & _ & F). subst i.
    assert (G : get_field wkt_tables (dm_desc x) 1 = Some f) by (eapply wkt_in, F).
    destruct (typed_value x 1 f Ho G) as (A & B & C). split; [|exact C]. unfold ok_field in B. rewrite L, M in B.
    destruct (typed_get x 1) as [q|q|q|q|q|q|q|q|q|q|q|q|q]; cbn [bits_fit]; try exact I; cbn [negb andb] in B;
      [apply (sc_bits (fd_kind f) (VF32 q)) in B|apply (sc_bits (fd_kind f) (VF64 q)) in B|apply (sc_bits (fd_kind f) (VBytes q)) in B]; exact B.
  Qed.
  Lemma wrap_range d i : wkt_of t d = Some (WWrap i) -> (8 <= i <= 16)%nat.
  Proof.
    unfold wkt_of, wkt_named. intros H. repeat match type of H with (if ?c then _ else _) = _ => destruct c; [first [discriminate H|injection H as <-; lia]|] end. discriminate H.
  Qed.
  Lemma wkt_bound d w : wkt_of t d = Some w -> (wkt_desc w < 18)%nat.
  Proof. intros H. destruct w; cbn; try lia. apply wrap_range in H. lia. Qed.
  Lemma ts_check s : check_timestamp s = true <-> (-62135596800 <= s <= 253402300799)%Z.
  Proof. unfold check_timestamp, min_timestamp_seconds, max_timestamp_seconds. lia. Qed.
  Lemma du_check s n : check_duration s n = true <-> (-315576000000 <= s <= 315576000000)%Z /\ (-999999999 <= n <= 999999999)%Z.
  Proof. unfold check_duration, max_duration_seconds, max_duration_nanos. lia. Qed.

  Lemma wkt_written any w m j : w <> WAny -> wkt_of t (dm_desc m) = Some w -> ok_msg t m = true ->
    ser_wkt E t o any w m = JOk j <-> msg_shown E t o m j.
  Proof.
    intros Hna Hw Ho.
    assert (CO : forall x, transcode_to t m (wkt_desc w) = JOk x -> content t m (wkt_desc w) x /\ ok_msg wkt_tables x = true /\ dm_desc x = wkt_desc w).
    { intros x Hx. apply content_iff in Hx. split; [exact Hx|]. eapply content_ok; eauto using wkt_bound. }
    assert (CU : forall x y, content t m (wkt_desc w) x -> transcode_to t m (wkt_desc w) = JOk y -> x = y).
    { intros x y Hx Hy. apply content_iff in Hx. congruence. }
    assert (CN : forall x, content t m (wkt_desc w) x -> exists y, transcode_to t m (wkt_desc w) = JOk y).
    { intros x Hx. apply content_iff in Hx. eauto. }
    destruct w; try contradiction; cbn [wkt_desc ser_wkt] in *.
    - (* timestamp *) split.
      + destruct (transcode_to t m 1) as [x| | |] eqn:Ex; try discriminate. cbn [jbind]. destruct (CO x eq_refl) as (C1 & C2 & C3).
        destruct (time_ok 1 x (or_introl eq_refl) C2 C3) as (s & n & T1 & T2 & T3 & T4 & _). rewrite T1, T2. cbn [as_Z].
        destruct (check_timestamp s) eqn:Ec; [|discriminate]. intros [= <-]. apply ts_check in Ec. eapply gs_timestamp; eauto.
      + intros H. destruct H; try congruence. match goal with H : content t _ _ ?y |- _ => rename y into x; pose proof H as Hx end. destruct (CN _ Hx) as [y Ey].
        rewrite Ey. cbn [jbind]. assert (Exy := CU _ _ Hx Ey); subst y. destruct (CO _ Ey) as (C1 & C2 & C3).
        destruct (time_ok 1 x (or_introl eq_refl) C2 C3) as (s & n & T1 & T2 & T3 & T4 & T5 & T6). rewrite T1, T2. cbn [as_Z].
        match goal with H : typed_is _ 1 _ |- _ => apply T5 in H; injection H as -> end. match goal with H : typed_is _ 2 _ |- _ => apply T6 in H; injection H as -> end.
        rewrite (proj2 (ts_check s)) by assumption. reflexivity.
    - (* duration *) split.
      + destruct (transcode_to t m 2) as [x| | |] eqn:Ex; try discriminate. cbn [jbind]. destruct (CO x eq_refl) as (C1 & C2 & C3).
        destruct (time_ok 2 x (or_intror eq_refl) C2 C3) as (s & n & T1 & T2 & T3 & T4 & _). rewrite T1, T2. cbn [as_Z].
        destruct (check_duration s n) eqn:Ec; [|discriminate]. intros [= <-]. apply du_check in Ec. destruct Ec. eapply gs_duration; eauto.
      + intros H. destruct H; try congruence. match goal with H : content t _ _ ?y |- _ => rename y into x; pose proof H as Hx end. destruct (CN _ Hx) as [y Ey].
        rewrite Ey. cbn [jbind]. assert (Exy := CU _ _ Hx Ey); subst y. destruct (CO _ Ey) as (C1 & C2 & C3).
        destruct (time_ok 2 x (or_intror eq_refl) C2 C3) as (s & n & T1 & T2 & T3 & T4 & T5 & T6). rewrite T1, T2. cbn [as_Z].
        match goal with H : typed_is _ 1 _ |- _ => apply T5 in H; injection H as -> end. match goal with H : typed_is _ 2 _ |- _ => apply T6 in H; injection H as -> end.
        rewrite (proj2 (du_check s n)) by (split; assumption). reflexivity.
    - (* struct *)
      assert (S : forall x, ok_msg wkt_tables x = true -> dm_desc x = 3%nat -> forall j, ser_struct x = JOk j <-> exists ms, values_of_keys (struct_map x) ms /\ j = JObj (sort_members ms)).
      { intros x C2 C3 j'. apply ok_msg_iff in C2. unfold ser_struct. rewrite (struct_ser 5 x [] C3 C2), jmap_iff.
        pose proof (keys_iff (struct_map x)) as K. split; intros (ms & H1 & ->); exists ms; (split; [|reflexivity]).
        - apply K; [|now apply struct_map_ok|exact H1]. apply Forall_forall. intros kv _. apply wvalue_iff.
        - apply K; [|now apply struct_map_ok|exact H1]. apply Forall_forall. intros kv _. apply wvalue_iff. }
      split.
      + destruct (transcode_to t m 3) as [x| | |] eqn:Ex; try discriminate. cbn [jbind]. destruct (CO x eq_refl) as (C1 & C2 & C3).
        intros H. apply S in H; auto. destruct H as (ms & H & ->). eapply gs_struct; eauto. apply typed_struct; auto. now apply ok_msg_iff.
      + intros H. destruct H; try congruence. match goal with H : content t _ _ ?y |- _ => rename y into x; pose proof H as Hx end. destruct (CN _ Hx) as [y Ey].
        rewrite Ey. cbn [jbind]. assert (Exy := CU _ _ Hx Ey); subst y. destruct (CO _ Ey) as (C1 & C2 & C3). apply S; auto.
        match goal with H : typed_is _ 1 _ |- _ => apply typed_struct in H; [subst|exact C3|now apply ok_msg_iff] end. eauto.
    - (* value *)
      assert (S : forall x, ok_msg wkt_tables x = true -> dm_desc x = 5%nat -> forall j, ser_wvalue (VMessage x) = JOk j <-> value_written x j).
      { intros x C2 C3 j'. apply (wvalue_iff (VMessage x)); [reflexivity|]. apply elem_value. eauto. }
      split.
      + destruct (transcode_to t m 5) as [x| | |] eqn:Ex; try discriminate. cbn [jbind]. destruct (CO x eq_refl) as (C1 & C2 & C3).
        intros H. apply S in H; auto. eapply gs_value; eauto.
      + intros H. destruct H; try congruence. match goal with H : content t _ _ ?y |- _ => rename y into x; pose proof H as Hx end. destruct (CN _ Hx) as [y Ey].
        rewrite Ey. cbn [jbind]. assert (Exy := CU _ _ Hx Ey); subst y. destruct (CO _ Ey) as (C1 & C2 & C3). apply S; auto.
    - (* list *)
      assert (S : forall x, ok_msg wkt_tables x = true -> dm_desc x = 6%nat -> forall j, ser_list x = JOk j <-> exists js, values_of_list (list_vals x) js /\ j = JArr js).
      { intros x C2 C3 j'. apply ok_msg_iff in C2. unfold ser_list. rewrite (list_ser 5 x [] C3 C2), jmap_iff.
        pose proof (list_iff (list_vals x)) as K. split; intros (ms & H1 & ->); exists ms; (split; [|reflexivity]).
        - apply K; [|now apply list_vals_ok|exact H1]. apply Forall_forall. intros kv _. apply wvalue_iff.
        - apply K; [|now apply list_vals_ok|exact H1]. apply Forall_forall. intros kv _. apply wvalue_iff. }
      split.
      + destruct (transcode_to t m 6) as [x| | |] eqn:Ex; try discriminate. cbn [jbind]. destruct (CO x eq_refl) as (C1 & C2 & C3).
        intros H. apply S in H; auto. destruct H as (ms & H & ->). eapply gs_list; eauto. apply typed_list; auto. now apply ok_msg_iff.
      + intros H. destruct H; try congruence. match goal with H : content t _ _ ?y |- _ => rename y into x; pose proof H as Hx end. destruct (CN _ Hx) as [y Ey].
        rewrite Ey. cbn [jbind]. assert (Exy := CU _ _ Hx Ey); subst y. destruct (CO _ Ey) as (C1 & C2 & C3). apply S; auto.
        match goal with H : typed_is _ 1 _ |- _ => apply typed_list in H; [subst|exact C3|now apply ok_msg_iff] end. eauto.
    - (* mask *) split.
      + destruct (transcode_to t m 7) as [x| | |] eqn:Ex; try discriminate. cbn [jbind]. destruct (CO x eq_refl) as (C1 & C2 & C3).
        destruct (mask_out [] (mask_paths x)) as [s|] eqn:Em; [|discriminate]. intros [= <-]. apply mask_out_iff in Em. destruct (mask_ok x C2 C3) as [M1 M2]. eapply gs_mask; eauto.
      + intros H. destruct H; try congruence. match goal with H : content t _ _ ?y |- _ => rename y into x; pose proof H as Hx end. destruct (CN _ Hx) as [y Ey].
        rewrite Ey. cbn [jbind]. assert (Exy := CU _ _ Hx Ey); subst y. destruct (CO _ Ey) as (C1 & C2 & C3). destruct (mask_ok x C2 C3) as [M1 M2].
        clear M1. match goal with H : typed_is _ 1 _ |- _ => apply M2 in H; subst end. match goal with H : mask_shown _ _ |- _ => apply mask_out_iff in H; rewrite H end. reflexivity.
    - (* empty *) split; [intros [= <-]; now apply gs_empty|]. intros H. destruct H; congruence.
    - (* wrapper *) pose proof (wrap_range _ _ Hw) as Hr. split.
      + destruct (transcode_to t m d) as [x| | |] eqn:Ex; try discriminate. cbn [jbind]. destruct (CO x eq_refl) as (C1 & C2 & C3).
        destruct (wrap_ok d x Hr C2 C3) as [W1 W2]. intros H. apply wrapped_iff in H; [|exact W1]. eapply gs_wrapper; eauto. now apply W2.
      + intros H. destruct H; try congruence. match goal with H : wkt_of t _ = Some (WWrap i) |- _ => assert (i = d) by congruence; subst i end.
        match goal with H : content t _ _ ?y |- _ => rename y into x; pose proof H as Hx end. destruct (CN _ Hx) as [y Ey].
        rewrite Ey. cbn [jbind]. assert (Exy := CU _ _ Hx Ey); subst y. destruct (CO _ Ey) as (C1 & C2 & C3). destruct (wrap_ok d x Hr C2 C3) as [W1 W2].
        match goal with H : typed_is _ 1 _ |- _ => apply W2 in H; subst end. now apply wrapped_iff.
  Qed.
End Written.
