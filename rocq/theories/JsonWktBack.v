(** What the well-known types become when they are read back: the typed message
    and the message of the pool. *)
From Coq Require Import String Permutation.
From Verif Require Import Base BaseProofs Wire WireProofs Unknown UnknownProofs Value Descr Fields
  Codec DescrOk DescrProofs FieldsProofs LenProofs EncBytes MergeProofs RoundSpec RoundProofs RoundMain RoundSame
  ItemRound CompatSpec Compat Prop_Decode Prop_Transcode AgreeProofs Float TextFormat Json JsonSer JsonDe JsonWkt Bulk.
Open Scope list_scope.
Open Scope N_scope.

(** ** There and back *)
Section Inverse.
  Variables (t t' : tables) (D : nat -> bool) (rho back : nat -> nat).
  Hypothesis Hw : wf t.
  Hypothesis Hw' : wf t'.
  Hypothesis C : compatible t t' D rho.
  Hypothesis Hb : forall i, D i = true -> back (rho i) = i.

  Definition goes_back (v : value) : Prop :=
    (forall k, kindD D k -> ok_elem t v k = true -> ren back (ren rho v) = v) /\
    (forall f, kindD D (fd_kind f) -> (forall e vf, fd_is_map f = true -> kind_msg (fd_kind f) = Some e -> entry_value t e = Some vf -> kindD D (fd_kind vf)) ->
       ok_field t f v = true -> ren back (ren rho v) = v).
  Lemma find_kindD d n f : D d = true -> find_desc t d n = Some f -> kindD D (fd_kind f).
  Proof.
    intros Hd Hf. destruct (like_find_some t t' D rho Hw Hw' C d n f Hd Hf) as (f' & _ & Hl).
    eapply like_kindD, (fl_kind _ _ _ _ _ _ Hl).
  Qed.
  Lemma entry_kindD f e vf : kindD D (fd_kind f) -> kind_msg (fd_kind f) = Some e -> entry_value t e = Some vf -> kindD D (fd_kind vf).
  Proof.
    unfold kindD at 1. intros Hd Ee Ev. rewrite Ee in Hd. unfold entry_value in Ev. eapply (find_kindD e); [exact Hd|].
    unfold find_desc. rewrite Ev. reflexivity.
  Qed.
  Lemma goes_back_all v : goes_back v.
  Proof.
    induction v as [b|z|z|n|n|n|n|s|s|z|d fs IH|vs IH|kvs IH] using value_ind'; try (split; intros; reflexivity).
    - assert (K : forall k, kindD D k -> ok_elem t (VMessage (DM d fs)) k = true -> ren back (ren rho (VMessage (DM d fs))) = VMessage (DM d fs)).
      { intros k Hk Ho. rewrite ok_elem_msg in Ho. unfold kindD in Hk. destruct (kind_msg k) as [i|]; [|discriminate Ho].
        rewrite andb_true_iff, ok_msg_iff in Ho. destruct Ho as [Hd Hm]. apply Nat.eqb_eq in Hd. cbn [dm_desc] in Hd. subst i.
        rewrite !ren_message. unfold ren_msg. cbn [dm_desc dm_fields]. rewrite (Hb d Hk). do 2 f_equal. rewrite map_map.
        rewrite <- (map_id fs) at 2. apply map_ext_in. intros [n s] Hin. cbn [fst snd]. f_equal. rewrite Forall_forall in IH. pose proof (IH _ Hin) as I1.
        destruct s as [|v|us]; cbn [ren_slot]; auto. f_equal. cbn in I1.
        pose proof (mo_slots _ _ Hm _ _ (bt_In_get _ _ _ (mo_sorted _ _ Hm) Hin)) as Ho. unfold ok_slot in Ho. cbn [fst snd dm_desc] in Ho.
        destruct (find_desc t d n) as [g|] eqn:Eg; [|discriminate Ho]. apply (proj2 I1 g); [eapply find_kindD; eassumption| |exact Ho].
        intros e vf _ Ee Ev. eapply entry_kindD; [eapply find_kindD; eassumption|exact Ee|exact Ev]. }
      split; [exact K|]. intros f Hk _ Ho. rewrite ok_field_plain in Ho by reflexivity. rewrite !andb_true_iff in Ho. eapply K; [exact Hk|tauto].
    - split; [intros k _ Ho; discriminate Ho|]. intros f Hk _ Ho. cbn [ok_field] in Ho. rewrite andb_true_iff, forallb_forall in Ho.
      cbn [ren]. f_equal. rewrite map_map. rewrite <- (map_id vs) at 2. apply map_ext_in. intros x Hx. rewrite Forall_forall in IH.
      apply (proj1 (IH x Hx) (fd_kind f) Hk). apply Ho, Hx.
    - split; [intros k _ Ho; discriminate Ho|]. intros f Hk Hv Ho. cbn [ok_field] in Ho.
      destruct (kind_msg (fd_kind f)) as [e|] eqn:Ek; [|discriminate Ho]. destruct (fd_is_map f) eqn:Em; [|discriminate Ho].
      destruct (entry_key t e) as [kf|] eqn:Ekf; [|discriminate Ho]. destruct (entry_value t e) as [vf|] eqn:Evf; [|discriminate Ho].
      rewrite andb_true_iff, forallb_forall in Ho. destruct Ho as [_ Ho].
      cbn [ren]. f_equal. rewrite map_map. rewrite <- (map_id kvs) at 2. apply map_ext_in. intros [k v] Hx. cbn [fst snd]. f_equal.
      rewrite Forall_forall in IH. specialize (Ho _ Hx). apply andb_true_iff in Ho. apply (proj1 (IH _ Hx) (fd_kind vf)); [|apply Ho].
      eapply Hv; [reflexivity|reflexivity|exact Evf].
  Qed.
  Lemma ren_inverse m : D (dm_desc m) = true -> ok_msg t m = true -> ren_msg back (ren_msg rho m) = m.
  Proof.
    intros Hd Hm. pose proof (proj1 (goes_back_all (VMessage m)) (KMessage (dm_desc m)) Hd) as H.
    rewrite ok_elem_msg in H. cbn [kind_msg] in H. rewrite Nat.eqb_refl in H. specialize (H Hm). rewrite !ren_message in H. congruence.
  Qed.
End Inverse.

Lemma norm_ok t m b : wf t -> ok_msg t m = true -> (msg_depth m <= 100)%nat -> enc_msg t m = Ok b -> N.of_nat (length b) < 2 ^ 64 ->
  ok_msg t (norm_msg t m) = true.
Proof.
  intros Hw Hm Hdp He Hfit. destruct (ok_msg_enc t m Hw Hm) as (b' & He' & Hbb). assert (b' = b) by congruence. subst b'.
  pose proof (decode_encode_norm t Hw m b Hm Hdp He Hfit) as Dn.
  pose proof (C04_decode_total t (dm_desc m) b Hw) as G. rewrite Dn in G. apply G; [|exact Hbb].
  apply ok_msg_iff in Hm. apply (mo_desc _ _ Hm).
Qed.

(** Transcoding into the typed message, and what comes of one that agrees with
    it. *)
Lemma wkt_there_and_back t d w m : wf t -> standard t d w -> ok_msg t m = true -> dm_desc m = d ->
  (msg_depth m <= 100)%nat -> bulk_msg m < 2 ^ 64 -> zeros_kept_msg t m = true ->
  exists x, transcode_to t m w = JOk x /\ ok_msg wkt_tables x = true /\ dm_desc x = w /\
    (msg_depth x <= 100)%nat /\ bulk_msg x < 2 ^ 64 /\
    forall x', agree_msg wkt_tables x x' -> ok_msg wkt_tables x' = true -> zeros_kept_msg wkt_tables x' = true ->
      (msg_depth x' <= 100)%nat -> bulk_msg x' < 2 ^ 64 ->
      exists m', make_message t d x' = JOk (Some (VMessage m')) /\ ok_msg t m' = true /\ dm_desc m' = d /\ agree_msg t m m'.
Proof.
  intros Hw (D & rho & D' & sig & C1 & C2 & Hd & Hr & Hd' & Hs & I1 & I2) Hm Em Hdp Hbk Hz. clear Hs. subst d. subst w.
  destruct (ok_msg_enc t m Hw Hm) as (b & He & _).
  pose proof (bulk_fits t Hw m Hm Hbk b He) as Hfit.
  destruct (transcoded t wkt_tables D rho Hw wkt_wf C1 m b Hd Hm Hdp He Hfit) as [T1 _].
  pose proof (norm_ok t m b Hw Hm Hdp He Hfit) as Hn. pose proof (ren_msg_ok t wkt_tables D rho Hw wkt_wf C1 (norm_msg t m) Hd Hn) as Hx.
  destruct (norm_msg_bulk t Hw m Hm) as [B1 B2].
  exists (ren_msg rho (norm_msg t m)). unfold transcode_to. rewrite He. cbn [jdec jbind]. rewrite T1.
  split; [reflexivity|]. split; [exact Hx|]. split; [reflexivity|]. split; [rewrite ren_msg_depth; lia|].
  split. { pose proof (ren_bulk rho (VMessage (norm_msg t m))) as R. rewrite ren_message, !bulk_message in R. lia. }
  intros x' A Hx' Hz' Hdp' Hbk'.
  assert (Ed : dm_desc x' = rho (dm_desc m)) by (inversion A; subst; [discriminate|cbn in *; congruence]).
  assert (Hd2 : D' (dm_desc x') = true) by (rewrite Ed; apply I1, Hd).
  destruct (ok_msg_enc wkt_tables x' wkt_wf Hx') as (b' & He' & _).
  pose proof (bulk_fits wkt_tables wkt_wf x' Hx' Hbk' b' He') as Hfit'.
  destruct (transcoded wkt_tables t D' sig wkt_wf Hw C2 x' b' Hd2 Hx' Hdp' He' Hfit') as [T2 _].
  pose proof (norm_ok wkt_tables x' b' wkt_wf Hx' Hdp' He' Hfit') as Hn'.
  pose proof (ren_msg_ok wkt_tables t D' sig wkt_wf Hw C2 (norm_msg wkt_tables x') Hd2 Hn') as Hm'.
  assert (Es : sig (dm_desc x') = dm_desc m) by (rewrite Ed; apply I1, Hd).
  exists (ren_msg sig (norm_msg wkt_tables x')). unfold make_message. rewrite He'. cbn [jdec jbind].
  unfold msg_decode in T2. rewrite Es in T2. destruct (msg_merge t (new_msg (dm_desc m)) b') as [m' r| | |] eqn:Emm; try discriminate T2.
  injection T2 as ->. split; [reflexivity|]. split; [exact Hm'|]. split; [exact Es|].
  apply agree_trans with (VMessage (norm_msg t m)).
  - apply same_agree. apply norm_same; assumption.
  - apply (agree_ren_back t wkt_tables D rho Hw wkt_wf C1); [exact Hd|exact Hn|exact Hm'|symmetry; exact Es|].
    assert (R : ren_msg rho (ren_msg sig (norm_msg wkt_tables x')) = norm_msg wkt_tables x').
    { apply (ren_inverse wkt_tables t D' sig rho wkt_wf Hw C2); auto. intros i Hi. apply I2, Hi. }
    rewrite R. eapply agree_trans; [exact A|]. apply same_agree. apply norm_same; [exact wkt_wf|assumption|assumption].
Qed.
