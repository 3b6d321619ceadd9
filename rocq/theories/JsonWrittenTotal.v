(** C61: the writer does not panic, and a deeper bound on nested Any messages
    changes nothing but running out. *)
From Coq Require Import String.
From Verif Require Import Base BaseProofs Wire Unknown Value Descr Fields Codec DescrOk DescrProofs FieldsProofs MergeProofs ItemRound Float
  TextFormat TextLexProofs Json JsonSer JsonNumbers JsonWkt JsonTree JsonTypedBack JsonRound JsonScalarBack JsonMask JsonMeaning
  JsonMeaningScalars JsonMeaningB64 JsonSafe JsonWritten JsonWrittenScalars JsonWrittenValue JsonWrittenMain JsonWrittenAll Prop_Decode EncBytes.
Open Scope list_scope.
Open Scope N_scope.

(** no panic, and no change with the second result unless out of fuel *)
Definition okr {A} (r r' : jres A) : Prop := r <> JPanic /\ (r = JFuel \/ r' = r).
Definition settled {A} (r : jres A) : Prop := match r with JOk _ | JErr _ => True | _ => False end.
Lemma settled_okr {A} (r : jres A) : settled r -> okr r r.
Proof. intros H. split; [destruct r; try discriminate; destruct H|now right]. Qed.
Lemma okr_bind {A B} (r r' : jres A) (f f' : A -> jres B) : okr r r' -> (forall a, okr (f a) (f' a)) -> okr (let* a := r in f a) (let* a := r' in f' a).
Proof.
  intros [H1 H2] H. destruct H2 as [-> | ->]; [split; [discriminate|now left]|]. destruct r; cbn [jbind]; [apply H| | |]; split; try discriminate; try (now left); try (now right).
  contradiction.
Qed.
Lemma okr_jall {A} (l l' : list (jres A)) : Forall2 okr l l' -> okr (jall l) (jall l').
Proof.
  induction 1 as [|a b l l' H F IH]; [split; [discriminate|now right]|]. cbn [jall]. apply okr_bind; [exact H|]. intros x. apply okr_bind; [exact IH|].
  intros y. split; [discriminate|now right].
Qed.
Lemma settled_bind {A B} (r : jres A) (f : A -> jres B) : settled r -> (forall a, settled (f a)) -> settled (let* a := r in f a).
Proof. intros H Hf. destruct r; try destruct H; cbn [jbind]; [apply Hf|exact I]. Qed.
Lemma settled_jall {A} (l : list (jres A)) : Forall settled l -> settled (jall l).
Proof. induction 1; [exact I|]. cbn [jall]. apply settled_bind; [assumption|]. intros a. apply settled_bind; [assumption|]. intros; exact I. Qed.
Lemma Forall2_map2 {A B C} (P : B -> C -> Prop) (f : A -> B) (g : A -> C) l : Forall (fun a => P (f a) (g a)) l -> Forall2 P (map f l) (map g l).
Proof. induction 1; constructor; auto. Qed.

Lemma wvalue_settled v : value_ok v -> settled (ser_wvalue v).
Proof.
  revert v. apply (value_inside (fun v => value_ok v -> settled (ser_wvalue v))). intros v Hin Hok. pose proof (proj1 (elem_value _) Hok) as (x & -> & Ed & Ho).
  destruct (value_cases x Ed Ho) as [U|n v pre post El Hp U S C].
  - assert (Es : ser_wvalue (VMessage x) = JOk JNull).
    { destruct x as [d fs]. rewrite <- (app_nil_r fs). rewrite ser_skip; [reflexivity|]. apply Forall_forall. intros [n [|v|us]] Hi; cbn; auto.
      apply (U n v). apply set_in; [|exact Hi]. apply (mo_sorted _ _ (proj1 (ok_msg_iff _ _) Ho)). }
    rewrite Es. exact I.
  - assert (Es : ser_wvalue (VMessage x) = ser_wvalue (VMessage (DM (dm_desc x) ((n, SVal v) :: post)))).
    { destruct x as [d fs]. cbn [dm_fields dm_desc] in *. rewrite El. now apply ser_skip. }
    set (P := fun v => value_ok v -> settled (ser_wvalue v)) in *.
    assert (Hv : inside P (VMessage x) -> P v /\ inside P v).
    { destruct x as [d fs]. intros H. eapply inside_slot; [exact H|]. apply (set_in (DM d fs) n v); [|exact S]. apply (mo_sorted _ _ (proj1 (ok_msg_iff _ _) Ho)). }
    rewrite Es. clear Es El.
    destruct C as [->|[(-> & b & ->)|[(-> & s & ->)|[(-> & b & ->)|[(-> & y & -> & Ey & Hy)|(-> & y & -> & Ey & Hy)]]]]]; try exact I.
    + assert (Eq : ser_wvalue (VMessage (DM (dm_desc x) ((2, SVal (VF64 b)) :: post))) = if f64_finite b then JOk (JF64 b) else JErr XNonFinite) by reflexivity.
      rewrite Eq. destruct (f64_finite b); exact I.
    + apply ok_msg_iff in Hy. rewrite (struct_ser _ y post Ey Hy). apply settled_bind; [|intros; exact I]. apply settled_jall.
      pose proof (struct_map_inside P y Ey Hy (proj2 (Hv Hin))) as H1. pose proof (struct_map_ok y Ey Hy) as H2. rewrite Forall_forall in *.
      intros r Hr. apply in_map_iff in Hr. destruct Hr as (kv & <- & Hkv). apply settled_bind; [|intros; exact I]. apply (H1 kv Hkv). now apply H2.
    + apply ok_msg_iff in Hy. rewrite (list_ser _ y post Ey Hy). apply settled_bind; [|intros; exact I]. apply settled_jall.
      pose proof (list_vals_inside P y Ey Hy (proj2 (Hv Hin))) as H1. pose proof (list_vals_ok y Ey Hy) as H2. rewrite Forall_forall in *.
      intros r Hr. apply in_map_iff in Hr. destruct Hr as (w & <- & Hw). apply (H1 w Hw). now apply H2.
Qed.

Section Total.
  Variables (E : json_externs) (t : tables) (o : jopt).
  Hypothesis Hwf : wf t.

  Lemma scalar_written k v : sc_okb k v = true -> exists j, ser_scalar E t o v k = Some (JOk j).
  Proof.
    intros H. destruct v; try (destruct k; discriminate H); cbn [ser_scalar]; eauto.
    destruct k; try discriminate H. eauto.
  Qed.
  Lemma transcode_settled m w : ok_msg t m = true -> (w < 18)%nat -> settled (transcode_to t m w).
  Proof.
    intros Ho Hw. unfold transcode_to. destruct (ok_msg_enc t m Hwf Ho) as (b & -> & Hb). cbn [jdec jbind].
    pose proof (C04_decode_total wkt_tables w b wkt_wf Hw Hb) as C. destruct (msg_decode wkt_tables w b); cbn [jdec]; exact I || destruct C.
  Qed.
  Lemma wkt_settled any w m : w <> WAny -> wkt_of t (dm_desc m) = Some w -> ok_msg t m = true -> settled (ser_wkt E t o any w m).
  Proof.
    intros Hna Hw Ho. pose proof (wkt_bound t o _ _ Hw) as Hb. pose proof (transcode_settled m (wkt_desc w) Ho Hb) as Ts.
    assert (CO : forall x, transcode_to t m (wkt_desc w) = JOk x -> ok_msg wkt_tables x = true /\ dm_desc x = wkt_desc w).
    { intros x Hx. apply content_iff in Hx. eapply content_ok; eauto. }
    destruct w; try contradiction; cbn [wkt_desc ser_wkt] in *; try exact I;
      (destruct (transcode_to t m _) as [x| | |] eqn:Ex; try exact Ts; cbn [jbind]; destruct (CO x eq_refl) as [C2 C3]).
    - destruct (check_timestamp _); exact I.
    - destruct (check_duration _ _); exact I.
    - unfold ser_struct. rewrite (struct_ser 5 x [] C3) by (now apply ok_msg_iff). apply settled_bind; [|intros; exact I]. apply settled_jall, Forall_forall.
      intros r Hr. apply in_map_iff in Hr. destruct Hr as (kv & <- & Hkv). apply settled_bind; [|intros; exact I]. apply wvalue_settled.
      apply ok_msg_iff in C2. pose proof (struct_map_ok x C3 C2) as H2. rewrite Forall_forall in H2. now apply H2.
    - apply wvalue_settled. apply elem_value. eauto.
    - unfold ser_list. rewrite (list_ser 5 x [] C3) by (now apply ok_msg_iff). apply settled_bind; [|intros; exact I]. apply settled_jall, Forall_forall.
      intros r Hr. apply in_map_iff in Hr. destruct Hr as (v & <- & Hv). apply wvalue_settled.
      apply ok_msg_iff in C2. pose proof (list_vals_ok x C3 C2) as H2. rewrite Forall_forall in H2. now apply H2.
    - destruct (mask_out _ _); exact I.
    - pose proof (wrap_range t o _ _ Hw) as Hr. destruct (wrap_fields d Hr) as (f & _ & _ & _ & L & M & _ & F & Hk & He & _).
      assert (G : get_field wkt_tables (dm_desc x) 1 = Some f) by (rewrite C3; eapply wkt_in, F).
      destruct (typed_value x 1 f C2 G) as (_ & B & _). unfold ok_field in B. rewrite L, M in B. cbn [negb andb] in B.
      destruct (typed_get x 1) as [q|q|q|q|q|q|q|q|q|q|q|q|q]; try exact I; try discriminate B.
      + destruct (fd_kind f) eqn:Ek; try discriminate B. exfalso. eapply He. reflexivity.
      + rewrite ok_elem_msg, Hk in B. discriminate B.
      + rewrite Hk in B. discriminate B.
  Qed.

  Section Two.
    Variables any any' : dynmsg -> jres json.
    Hypothesis Hany : forall m, ok_msg t m = true -> wkt_of t (dm_desc m) = Some WAny -> okr (any m) (any' m).
    Let S v := forall k, fits t v k -> okr (ser_value E t o any v k) (ser_value E t o any' v k).

    Lemma flat_okr v : flat v -> S v.
    Proof.
      intros Hf k Hk.
      assert (G : (forall m, v <> VMessage m) -> (forall l, v <> VList l) -> (forall l, v <> VMap l) -> okr (ser_value E t o any v k) (ser_value E t o any' v k)).
      { intros N1 N2 N3. assert (Hs : sc_okb k v = true). { apply (scalar_fits t); [|exact N1]. destruct v; try exact Hk; [now destruct (N2 vs)|now destruct (N3 kvs)]. }
        destruct (scalar_written k v Hs) as [j Hj]. assert (G : forall a, ser_value E t o a v k = JOk j).
        { intros a. destruct v; cbn [ser_value]; rewrite ?Hj; try reflexivity; [now destruct (N1 m)|now destruct (N2 vs)|now destruct (N3 kvs)]. }
        rewrite !G. split; [discriminate|now right]. }
      destruct v; try (apply G; discriminate).
      - destruct Hf.
      - destruct vs; [|destruct Hf]. split; [discriminate|now right].
      - destruct kvs; [|destruct Hf]. destruct Hk as (e & vf & K1 & K2 & K3 & _). cbn [ser_value map jall]. rewrite K1, K2. unfold entry_value, MAP_VALUE_NUMBER.
        rewrite K3. split; [discriminate|now right].
    Qed.
    Lemma mems_okr name l : (forall f v, In (f, v) l -> fits t v (fd_kind f) /\ S v) -> okr (mems E t o any name l) (mems E t o any' name l).
    Proof.
      induction l as [|[f v] l IH]; intros Hl; [split; [discriminate|now right]|]. cbn [mems]. destruct (Hl f v (or_introl eq_refl)) as [H1 H2].
      apply okr_bind; [now apply H2|]. intros j. apply okr_bind; [apply IH; intros; apply Hl; now right|]. intros js. split; [discriminate|now right].
    Qed.
    Lemma fields_okr m : ok_msg t m = true -> (forall n v, In (n, SVal v) (dm_fields m) -> S v) -> okr (ser_fields E t o any m) (ser_fields E t o any' m).
    Proof.
      intros Ho Hs. rewrite !(ser_fields_mems E t o Hwf).
      assert (G : forall f v, In (f, v) (field_rows t o m) \/ In (f, v) (ext_rows t m) -> fits t v (fd_kind f) /\ S v).
      { intros f v Hin. destruct (rows_in t o Hwf m f v Ho Hin) as [G1 [G2|G2]]; split; auto; [eapply Hs; eauto|now apply flat_okr]. }
      apply okr_bind; [apply mems_okr; auto|]. intros a. apply okr_bind; [apply mems_okr; auto|]. intros b. split; [discriminate|now right].
    Qed.
    Lemma msg_okr m k : ok_msg t m = true -> (forall n v, In (n, SVal v) (dm_fields m) -> S v) -> okr (ser_value E t o any (VMessage m) k) (ser_value E t o any' (VMessage m) k).
    Proof.
      intros Ho Hs. rewrite !ser_message. destruct (wkt_of t (dm_desc m)) as [w|] eqn:Ew.
      - assert (D : w = WAny \/ w <> WAny) by (destruct w; auto; right; discriminate). destruct D as [->|D]; [now apply Hany|].
        pose proof (wkt_settled any w m D Ew Ho) as H. assert (Es : ser_wkt E t o any' w m = ser_wkt E t o any w m) by (destruct w; try contradiction; reflexivity).
        rewrite Es. now apply settled_okr.
      - apply okr_bind; [now apply fields_okr|]. intros ms. split; [discriminate|now right].
    Qed.
    Lemma value_okr v : S v.
    Proof.
      revert v. apply value_inside. intros v Hi. destruct v; try (apply flat_okr; exact I).
      - intros k Hk. apply msg_okr; [eapply elem_msg; exact Hk|]. destruct m as [d fs]. intros n w Hw. exact (proj1 (inside_slot S d fs n w Hi Hw)).
      - intros k Hk. cbn [ser_value]. apply okr_bind; [|intros; split; [discriminate|now right]]. apply okr_jall, Forall2_map2. apply inside_list in Hi. cbn [fits] in Hk.
        rewrite Forall_forall in *. intros v Hv. apply (Hi v Hv). apply elem_fits. now apply Hk.
      - intros k Hk. destruct Hk as (e & vf & K1 & K2 & K3 & K4). cbn [ser_value]. rewrite K1, K2. unfold entry_value, MAP_VALUE_NUMBER. rewrite K3.
        apply okr_bind; [|intros; split; [discriminate|now right]]. apply okr_jall, Forall2_map2. apply inside_map in Hi.
        rewrite Forall_forall in *. intros kv Hv. apply okr_bind; [|intros; split; [discriminate|now right]]. apply (Hi kv Hv). apply elem_fits. now apply K4.
    Qed.
  End Two.

  Lemma any_okr n : forall m, ok_msg t m = true -> wkt_of t (dm_desc m) = Some WAny -> okr (ser_any E t o n m) (ser_any E t o (S n) m).
  Proof.
    induction n as [|n IH]; intros m Ho Hw; [split; [discriminate|now left]|].
    remember (S n) as n1 eqn:En1. cbn [ser_any]. rewrite En1 at 1. cbn [ser_any]. rewrite En1 in *.
    pose proof (transcode_settled m 0 Ho ltac:(lia)) as Ts.
    destruct (transcode_to t m 0) as [x| | |] eqn:Ex; try destruct Ts; cbn [jbind]; [|split; [discriminate|now right]]. apply content_iff in Ex.
    destruct (any_ok t Hwf m x Ho Ex) as (url & b & T1 & T2 & Hb & _). rewrite T1, T2. cbn [val_bytes].
    destruct (type_url_name url) as [name|]; [|split; [discriminate|now right]]. destruct (find_msg t name) as [i|] eqn:Ei; [|split; [discriminate|now right]].
    pose proof (C04_decode_total t i b Hwf (find_msg_lt _ _ _ Ei) Hb) as Q.
    destruct (msg_decode t i b) as [body| | |] eqn:Eb; cbn [jdec jbind]; [|split; [discriminate|now right]|destruct Q|destruct Q]. destruct Q as [Hob Hdb].
    destruct (wkt_named name) as [w|].
    - apply okr_bind; [|intros; split; [discriminate|now right]]. apply msg_okr; [exact IH|exact Hob|]. intros; now apply value_okr.
    - apply okr_bind; [|intros; split; [discriminate|now right]]. apply fields_okr; [exact Hob|]. intros; now apply value_okr.
  Qed.
  Theorem to_json_okr n m : ok_msg t m = true -> okr (to_json E t o n m) (to_json E t o (S n) m).
  Proof.
    intros Ho. unfold to_json. apply msg_okr; [apply any_okr|exact Ho|]. intros n' v _. apply value_okr. apply any_okr.
  Qed.
  Theorem to_json_deeper n n' m : ok_msg t m = true -> (n <= n')%nat -> to_json E t o n m <> JFuel -> to_json E t o n' m = to_json E t o n m.
  Proof.
    intros Ho Hn Hf. induction Hn as [|n' Hn IH]; [reflexivity|]. destruct (to_json_okr n' m Ho) as [_ [H|H]]; [congruence|congruence].
  Qed.
End Total.
