(** The normal form of a message cannot be told apart from it. *)
From Verif Require Import Base BaseProofs Wire WireProofs LoopProofs Unknown UnknownProofs
  Value Descr Fields Codec DescrOk DescrProofs FieldsProofs LenProofs MergeProofs RoundSpec RoundProofs
  RoundMain.

Section Same.
  Variable t : tables.
  Hypothesis Hwf : wf t.
  Let Ht : tables_ok t := proj1 Hwf.

  Lemma zero_kept_eq f v :
    scalar v = true -> fd_presence f = false -> value_eqb v (fd_default_value t f) = true ->
    zero_kept t f v = true -> v = fd_default_value t f.
  Proof.
    intros Hs Hp He Hz. unfold zero_kept in Hz. rewrite Hp in Hz. cbn [orb] in Hz.
    destruct v; try discriminate Hs; destruct (fd_default_value t f) eqn:Ed; cbn in He; try discriminate He.
    - apply eqb_prop in He. congruence.
    - apply Z.eqb_eq in He. congruence.
    - apply Z.eqb_eq in He. congruence.
    - apply N.eqb_eq in He. congruence.
    - apply N.eqb_eq in He. congruence.
    - unfold f32_eqb in He. rewrite !andb_true_iff in He. destruct He as [_ He].
      apply orb_true_iff in He. apply orb_true_iff in Hz.
      destruct Hz as [Hz|Hz]; [apply N.eqb_eq in Hz; congruence|].
      destruct He as [He|He]; [apply N.eqb_eq in He; congruence|]. rewrite He in Hz. discriminate.
    - unfold f64_eqb in He. rewrite !andb_true_iff in He. destruct He as [_ He].
      apply orb_true_iff in He. apply orb_true_iff in Hz.
      destruct Hz as [Hz|Hz]; [apply N.eqb_eq in Hz; congruence|].
      destruct He as [He|He]; [apply N.eqb_eq in He; congruence|]. rewrite He in Hz. discriminate.
    - apply bytes_eqb_eq in He. congruence.
    - apply bytes_eqb_eq in He. congruence.
    - apply Z.eqb_eq in He. congruence.
  Qed.

  Lemma not_repeated f : fd_is_list f = false -> fd_is_map f = false -> is_repeated f = false.
  Proof.
    unfold fd_is_list. intros H1 H2. rewrite H2, andb_true_r in H1. exact H1.
  Qed.

  Lemma ok_field_msg f m : fdl_ok t f -> ok_field t f (VMessage m) = true -> fd_presence f = true.
  Proof.
    intros Hf H. rewrite ok_field_plain in H by reflexivity. rewrite !andb_true_iff, !negb_true_iff in H.
    destruct H as [[H1 H2] H3]. apply (fo_msg _ _ Hf); [|now apply not_repeated].
    rewrite ok_elem_msg in H3. unfold is_msg_kind. now destruct (kind_msg (fd_kind f)).
  Qed.

  Lemma ok_field_list f vs : ok_field t f (VList vs) = true -> fd_default_value t f = VList [].
  Proof. cbn. rewrite andb_true_iff. intros [H _]. apply fd_default_list, H. Qed.
  Lemma ok_field_map f kvs : ok_field t f (VMap kvs) = true -> fd_default_value t f = VMap [].
  Proof.
    cbn. destruct (kind_msg (fd_kind f)); [|discriminate]. destruct (fd_is_map f) eqn:E; [|discriminate].
    intros _. unfold fd_default_value, fd_is_list. rewrite E, andb_false_r. reflexivity.
  Qed.

  Lemma omitted_default f v :
    fdl_ok t f -> ok_field t f v = true -> zero_kept t f v = true -> omitted t f v = true ->
    v = fd_default_value t f.
  Proof.
    intros Hf Hok Hz Ho. unfold omitted, is_default_for in Ho. apply andb_true_iff in Ho.
    destruct Ho as [Hp He]. apply negb_true_iff in Hp.
    destruct v; try (apply zero_kept_eq; auto; fail).
    - rewrite (ok_field_msg _ _ Hf Hok) in Hp. discriminate.
    - rewrite (ok_field_list _ _ Hok) in *. destruct vs; [reflexivity|discriminate He].
    - rewrite (ok_field_map _ _ Hok) in *. destruct kvs; [reflexivity|discriminate He].
  Qed.

  Lemma norm_scalar v f : scalar v = true -> norm t v f = v.
  Proof. destruct v; intros H; try discriminate H; reflexivity. Qed.

  Lemma has_norm f v : fdl_ok t f -> ok_field t f v = true -> fd_has t f (norm t v f) = fd_has t f v.
  Proof.
    intros Hf Hok. destruct (scalar v) eqn:Es; [rewrite norm_scalar by exact Es; reflexivity|].
    destruct v; try discriminate Es.
    - rewrite norm_message. unfold fd_has. rewrite (ok_field_msg _ _ Hf Hok). reflexivity.
    - unfold fd_has, is_default_for. rewrite (ok_field_list _ _ Hok). cbn [norm].
      destruct vs; reflexivity.
    - unfold fd_has, is_default_for. rewrite (ok_field_map _ _ Hok). cbn [norm].
      destruct (kind_msg (fd_kind f)); [|reflexivity]. destruct (entry_value t n); [|reflexivity].
      destruct kvs; reflexivity.
  Qed.

  Definition same_as_norm (v : value) : Prop :=
    forall f, (exists d n, find_desc t d n = Some f) -> ok_field t f v = true ->
      zeros_kept t v f = true -> same t v (norm t v f).
  Definition same_as_norm_elem (v : value) : Prop :=
    forall f k, plain v = true -> ok_elem t v k = true ->
      zeros_kept t v f = true -> same t v (norm t v f).

  Lemma flat_unknown m :
    fs_iter_unknown (flat_map (norm_slot t (dm_desc m)) (dm_fields m)) = fs_iter_unknown (dm_fields m).
  Proof.
    generalize (dm_fields m) as l. unfold fs_iter_unknown.
    induction l as [|[k s] l IH]; cbn [flat_map]; [reflexivity|].
    rewrite flat_map_app, IH. f_equal. unfold norm_slot. cbn [fst snd].
    destruct s; cbn; [reflexivity| |now rewrite app_nil_r].
    destruct (find_desc t (dm_desc m) k); [|reflexivity]. destruct (fd_has t f v); reflexivity.
  Qed.

  Lemma same_message_norm m :
    msg_ok t m -> Forall (fun kv => slot_all same_as_norm (snd kv)) (dm_fields m) ->
    zeros_kept_msg t m = true -> same_msg t m (norm_msg t m).
  Proof.
    intros Hm HI Hz.
    assert (Hstored : forall f v, find_desc t (dm_desc m) (fd_number f) = Some f ->
       bt_get (fd_number f) (dm_fields m) = Some (SVal v) ->
       ok_field t f v = true /\ zero_kept t f v = true /\ zeros_kept t v f = true).
    { intros f v Hf Hb. pose proof (mo_slots _ _ Hm _ _ Hb) as S. cbn in S. rewrite Hf in S.
      unfold zeros_kept_msg in Hz. rewrite forallb_forall in Hz. specialize (Hz _ (bt_get_In _ _ _ Hb)).
      cbn in Hz. rewrite Hf in Hz. apply andb_true_iff in Hz. tauto. }
    apply same_message; [reflexivity| | | |].
    - intros n f Hf. pose proof (find_desc_ok _ _ _ _ Ht Hf) as Hfo.
      rewrite <- (find_desc_number _ _ _ _ Ht Hf) in Hf.
      unfold has_field, fs_has, fs_get_value. rewrite norm_get by apply (mo_sorted _ _ Hm). rewrite Hf.
      destruct (bt_get (fd_number f) (dm_fields m)) as [[|v|us]|] eqn:Eb; try reflexivity.
      destruct (Hstored f v Hf Eb) as (H1 & H2 & H3).
      destruct (fd_has t f v) eqn:Eh; [|reflexivity]. symmetry. rewrite has_norm; auto.
    - intros n f Hf. pose proof (find_desc_ok _ _ _ _ Ht Hf) as Hfo. pose proof Hf as Hf0.
      rewrite <- (find_desc_number _ _ _ _ Ht Hf) in Hf.
      unfold get_field_value, has_field, fs_has, fs_get, fs_get_value.
      rewrite norm_get by apply (mo_sorted _ _ Hm). rewrite Hf.
      destruct (bt_get (fd_number f) (dm_fields m)) as [[|v|us]|] eqn:Eb; try discriminate.
      destruct (Hstored f v Hf Eb) as (H1 & H2 & H3). intros ->.
      rewrite Forall_forall in HI. pose proof (HI _ (bt_get_In _ _ _ Eb)) as HIv. cbn in HIv.
      apply HIv; eauto.
    - intros n f Hf. pose proof (find_desc_ok _ _ _ _ Ht Hf) as Hfo.
      rewrite <- (find_desc_number _ _ _ _ Ht Hf) in Hf.
      unfold get_field_value, has_field, fs_has, fs_get, fs_get_value.
      rewrite norm_get by apply (mo_sorted _ _ Hm). rewrite Hf.
      destruct (bt_get (fd_number f) (dm_fields m)) as [[|v|us]|] eqn:Eb; try reflexivity.
      destruct (Hstored f v Hf Eb) as (H1 & H2 & H3). intros Eh. rewrite Eh.
      apply omitted_default; auto. rewrite has_omitted in Eh. now apply negb_false_iff in Eh.
    - unfold msg_unknown_fields. cbn [norm_msg dm_fields]. symmetry. apply flat_unknown.
  Qed.

  Lemma map_get_entry vf l k :
    map_get k (map (norm_entry t vf) l)
    = option_map (fun v => if omitted t vf v then fd_default_value t vf else norm t v vf) (map_get k l).
  Proof.
    induction l as [|[k' v] l IH]; cbn; [reflexivity|]. destruct (mk_eqb k k'); [reflexivity|exact IH].
  Qed.

  Lemma map_get_In k l (v : value) : map_get k l = Some v -> In (k, v) l.
  Proof.
    induction l as [|[k' v'] l IH]; cbn; [discriminate|]. destruct (mk_eqb k k') eqn:E.
    - apply mk_eqb_eq in E. subst. injection 1 as ->. left; reflexivity.
    - intros H. right; apply IH, H.
  Qed.

  Lemma value_same v : same_as_norm v /\ same_as_norm_elem v.
  Proof.
    induction v as [b|z|z|n|n|n|n|s|s|z|d fs IH|vs IH|kvs IH] using value_ind'.
    11: { assert (H : zeros_kept_msg t (DM d fs) = true -> ok_msg t (DM d fs) = true ->
             same t (VMessage (DM d fs)) (VMessage (norm_msg t (DM d fs)))).
      { intros Hz Hok. apply same_message_norm; [now apply ok_msg_iff| |exact Hz].
        eapply Forall_impl; [|exact IH]. intros [k s] H. destruct s; cbn in *; tauto. }
      split.
      - intros f _ Hok Hz. rewrite norm_message. rewrite ok_field_plain in Hok by reflexivity.
        rewrite andb_true_iff in Hok. destruct Hok as [_ Hok]. rewrite ok_elem_msg in Hok.
        destruct (kind_msg (fd_kind f)); [|discriminate]. apply andb_true_iff in Hok. apply H; [exact Hz|tauto].
      - intros f k _ Hok Hz. rewrite norm_message. rewrite ok_elem_msg in Hok.
        destruct (kind_msg k); [|discriminate]. apply andb_true_iff in Hok. apply H; [exact Hz|tauto]. }
    11: { split; [|discriminate]. intros f Hf Hok Hz. cbn [norm ok_field zeros_kept] in *.
      apply andb_true_iff in Hok. destruct Hok as [_ Hok]. apply same_list.
      induction vs as [|v vs IHl]; cbn [map]; constructor.
      - inversion_clear IH as [|? ? [_ H] _]. cbn [forallb] in *. apply andb_true_iff in Hok, Hz.
        eapply H; [eapply ok_elem_plain|..]; apply Hok || apply Hz.
      - inversion_clear IH. cbn [forallb] in *. apply andb_true_iff in Hok, Hz.
        apply IHl; tauto. }
    11: { split; [|discriminate]. intros f (d & n & Hf) Hok Hz.
      pose proof (find_desc_shape _ _ _ _ Hwf Hf) as Hsh. cbn [norm ok_field zeros_kept] in *.
      destruct (kind_msg (fd_kind f)) as [e|] eqn:Ekm; [|discriminate].
      destruct (fd_is_map f) eqn:EM; [|discriminate].
      destruct (fs_map _ _ Hsh EM) as (e' & kf & vf & k0 & Ekm' & Ek & Ev & E0 & Hrk & Hrv).
      rewrite Ekm in Ekm'. injection Ekm' as <-. rewrite Ek, Ev in *.
      apply andb_true_iff in Hok. destruct Hok as [_ Hok].
      change (map (fun kv => (fst kv, if omitted t vf (snd kv) then fd_default_value t vf else norm t (snd kv) vf)) kvs)
        with (map (norm_entry t vf) kvs).
      apply same_map.
      - rewrite map_length. reflexivity.
      - intros k. rewrite map_get_entry. destruct (map_get k kvs); cbn; split; intros; congruence.
      - intros k a b Ha. rewrite map_get_entry, Ha. cbn [option_map]. intros Hb.
        apply map_get_In in Ha. rewrite forallb_forall in Hok, Hz. specialize (Hok _ Ha). specialize (Hz _ Ha).
        rewrite Forall_forall in IH. destruct (IH _ Ha) as [_ H]. cbn [fst snd] in *.
        apply andb_true_iff in Hok, Hz. destruct Hok as [_ Hok], Hz as [Hz1 Hz2].
        pose proof (get_field_ok _ _ _ _ Ht Ev) as Hvo.
        assert (HnL : fd_is_list vf = false) by (apply is_list_repeated, Hrv).
        assert (HnM : fd_is_map vf = false) by (eapply get_field_map; eassumption).
        assert (Hokf : ok_field t vf a = true).
        { rewrite ok_field_plain by (eapply ok_elem_plain, Hok). rewrite HnL, HnM. exact Hok. }
        destruct (omitted t vf a) eqn:Eo.
        + injection Hb as <-. rewrite <- (omitted_default vf a) by assumption.
          apply same_scalar.
          destruct a; try reflexivity; try discriminate Hok.
          unfold omitted in Eo. rewrite (ok_field_msg _ _ Hvo Hokf) in Eo. discriminate.
        + injection Hb as <-. eapply H; eauto. eapply ok_elem_plain, Hok. }
    all: unfold same_as_norm, same_as_norm_elem; split; intros; rewrite norm_scalar by reflexivity; apply same_scalar; reflexivity.
  Qed.

  Theorem norm_same m :
    ok_msg t m = true -> zeros_kept_msg t m = true -> same_msg t m (norm_msg t m).
  Proof.
    intros Hm Hz. apply same_message_norm; [now apply ok_msg_iff| |exact Hz].
    apply Forall_forall. intros [k s] _. destruct s; cbn; auto. apply value_same.
  Qed.
End Same.
