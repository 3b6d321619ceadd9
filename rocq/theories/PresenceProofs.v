(** The encoding of a message is a sequence of records, and the numbers that
    occur are those of the fields that are set (for C12). *)
From Verif Require Import Base BaseProofs Wire WireProofs LoopProofs Unknown UnknownProofs Value Descr
  Fields Codec DescrOk DescrProofs FieldsProofs LenProofs MergeProofs RoundSpec RoundProofs RoundMain EntryProofs UnkMerge.
Open Scope N_scope.

Section Presence.
  Variable t : tables.
  Hypothesis Hwf : wf t.
  Let Ht : tables_ok t := proj1 Hwf.

  (** [b] is a sequence of well-formed records that satisfy [P] *)
  Definition recs (P : ufield -> Prop) (b : bytes) : Prop :=
    exists us, b = ufs_encode us /\ Forall (fun u => uf_ok u /\ P u) us.

  Lemma recs_nil P : recs P [].
  Proof. exists []. split; [reflexivity|constructor]. Qed.
  Lemma recs_app P a b : recs P a -> recs P b -> recs P (a ++ b).
  Proof.
    intros (u & -> & Hu) (v & -> & Hv). exists (u ++ v). split.
    - unfold ufs_encode. rewrite flat_map_app. reflexivity.
    - apply Forall_app. split; assumption.
  Qed.
  Lemma recs_one (P : ufield -> Prop) u : uf_ok u -> P u -> recs P (uf_encode u).
  Proof.
    intros Hu Hp. exists [u]. split; [cbn; rewrite app_nil_r; reflexivity|]. constructor; [split; assumption|constructor].
  Qed.
  Lemma recs_bytes P b : recs P b -> bytes_ok b.
  Proof.
    intros (us & -> & H). apply ufs_encode_ok. eapply Forall_impl; [|exact H]. intros u [Hu _]. exact Hu.
  Qed.
  Lemma recs_impl (P Q : ufield -> Prop) b : (forall u, P u -> Q u) -> recs P b -> recs Q b.
  Proof.
    intros HPQ (us & -> & H). exists us. split; [reflexivity|]. eapply Forall_impl; [|exact H].
    intros u [Hu Hp]. auto.
  Qed.
  Lemma recs_rcat {A} P (g : A -> res bytes) l b :
    rcat g l = Ok b -> (forall a c, In a l -> g a = Ok c -> recs P c) -> recs P b.
  Proof.
    revert b. induction l as [|a l IH]; intros b He H.
    - injection He as <-. apply recs_nil.
    - apply rcat_cons in He. destruct He as (x & y & Ex & Ey & ->). apply recs_app.
      + eapply H; [left; reflexivity|exact Ex].
      + apply IH; [exact Ey|]. intros a' c Hin. apply H. right; exact Hin.
  Qed.
  Lemma rcat_part {A} (g : A -> res bytes) l b a :
    rcat g l = Ok b -> In a l -> exists c, g a = Ok c /\ (length c <= length b)%nat.
  Proof.
    revert b. induction l as [|x l IH]; intros b He Hin; [contradiction|].
    apply rcat_cons in He. destruct He as (x' & y & Ex & Ey & ->). rewrite app_length. destruct Hin as [->|Hin].
    - exists x'. split; [exact Ex|lia].
    - destruct (IH y Ey Hin) as (c & Ec & Hl). exists c. split; [exact Ec|lia].
  Qed.

  Definition numbered (n : N) (u : ufield) : Prop := uf_number u = n.

  (** a length-delimited or fixed or varint record *)
  Lemma scalar_rec k v w bs n :
    tag_ok n -> sc_okb k v = true -> enc_scalar k v = Some (w, bs) -> recs (numbered n) (encode_key n w ++ bs).
  Proof.
    intros Hn Hs. destruct v; cbn [enc_scalar]; destruct k; intros H; try discriminate H;
      apply some_pair_inj in H; destruct H as [<- <-];
      first
        [ apply (recs_one (numbered n) (UVarint n _)); [|reflexivity]; split; [exact Hn|];
          first [apply bool_small | apply zu64_bound | apply zz32_64 | apply zigzag64_bound
                | apply u32_ok_64; exact Hs | apply u64_ok_64; exact Hs]
        | apply (recs_one (numbered n) (U32 n _)); [|reflexivity]; split; [exact Hn|]; split;
          [apply le_encode_ok|apply le_encode_length]
        | apply (recs_one (numbered n) (U64 n _)); [|reflexivity]; split; [exact Hn|]; split;
          [apply le_encode_ok|apply le_encode_length]
        | apply (recs_one (numbered n) (ULen n _)); [|reflexivity]; split; [exact Hn|] ].
    - cbn in Hs. apply andb_true_iff in Hs. apply bytes_okb_ok, Hs.
    - apply bytes_okb_ok, Hs.
  Qed.
  Lemma delim_rec n body :
    tag_ok n -> bytes_ok body -> recs (numbered n) (encode_key n WLen ++ encode_varint (N.of_nat (length body)) ++ body).
  Proof.
    intros Hn Hb. change (encode_varint (N.of_nat (length body)) ++ body) with (write_delimited body).
    apply (recs_one (numbered n) (ULen n body)); [split; assumption|reflexivity].
  Qed.
  Lemma key_nonempty n w b : encode_key n w ++ b <> [].
  Proof. destruct (key_app_nonempty n w b) as (x & r & ->). discriminate. Qed.

  Definition enc_shape (v : value) (f : fdl) (b : bytes) : Prop :=
    recs (numbered (fd_number f)) b /\ (b = [] <-> omitted t f v = true).
  Definition shape_elem (v : value) : Prop :=
    forall f b, fdl_ok t f -> ok_elem t v (fd_kind f) = true -> enc_value t v f = Ok b ->
      N.of_nat (length b) < two64 -> enc_shape v f b.
  Definition shape_field (v : value) : Prop :=
    forall d f b, find_desc t d (fd_number f) = Some f -> ok_field t f v = true -> enc_value t v f = Ok b ->
      N.of_nat (length b) < two64 -> enc_shape v f b.

  Definition item_shape (it : item value) (b : bytes) : Prop :=
    recs (numbered (inum it)) b /\ b <> [].

  Lemma items_shape m b :
    msg_ok t m -> Forall (fun kv => slot_all shape_field (snd kv)) (dm_fields m) ->
    enc_msg t m = Ok b -> N.of_nat (length b) < two64 ->
    forall it, In it (fs_iter t (dm_desc m) false false (dm_fields m)) ->
      exists c, enc_item t it = Ok c /\ item_shape it c.
  Proof.
    intros Hm Hall He HL it Hin.
    destruct (rcat_part _ _ _ _ He Hin) as (c & Ec & Hc). exists c. split; [exact Ec|].
    pose proof (iter_is_item t Hwf m it Hm Hin) as [Hs Hd Hh].
    rewrite Forall_forall in Hall.
    assert (Hv : forall f v, find_desc t (dm_desc m) (fd_number f) = Some f -> fd_has t f v = true ->
              bt_get (fd_number f) (dm_fields m) = Some (SVal v) -> enc_value t v f = Ok c ->
              recs (numbered (fd_number f)) c /\ c <> []).
    { intros f v Hf Hhas Hb Hev. pose proof (mo_slots _ _ Hm _ _ Hb) as S. cbn [ok_slot snd fst] in S. rewrite Hf in S.
      pose proof (Hall _ (bt_get_In _ _ _ Hb)) as A. cbn [snd slot_all] in A.
      destruct (A _ f c Hf S Hev ltac:(lia)) as [A1 A2].
      split; [exact A1|]. rewrite A2. rewrite has_omitted in Hhas. destruct (omitted t f v); [discriminate|congruence]. }
    destruct it as [f v|f v|us]; cbn [inum islot idesc ihas enc_item item_shape] in *.
    - apply (Hv f v); auto. unfold find_desc. rewrite Hd. reflexivity.
    - apply (Hv f v); auto. unfold find_desc. destruct Hd as [Hd1 Hd2]. rewrite Hd2. exact Hd1.
    - destruct (unk_num _ _ _ _ Hm Hs) as (_ & _ & Hne & Hall').
      injection Ec as <-. split.
      + exists us. split; [reflexivity|]. eapply Forall_impl; [|exact Hall']. intros u [H1 H2]. split; [exact H2|exact H1].
      + destruct us as [|u us]; [congruence|]. cbn [ufs_encode flat_map]. rewrite uf_encode_body, <- app_assoc.
        apply key_nonempty.
  Qed.

  Lemma msg_recs m b :
    msg_ok t m -> Forall (fun kv => slot_all shape_field (snd kv)) (dm_fields m) ->
    enc_msg t m = Ok b -> N.of_nat (length b) < two64 -> recs (fun _ => True) b.
  Proof.
    intros Hm Hall He HL. eapply recs_rcat; [exact He|]. intros it c Hin Hc.
    destruct (items_shape m b Hm Hall He HL it Hin) as (c' & Hc' & Hr & _). rewrite Hc in Hc'. injection Hc' as <-.
    eapply recs_impl; [|exact Hr]. auto.
  Qed.

  Lemma elem_field_shape v : plain v = true -> shape_elem v -> shape_field v.
  Proof.
    intros Hp H d f b Hd Ho. pose proof (find_desc_ok _ _ _ _ Ht Hd) as Hf. rewrite ok_field_plain in Ho by exact Hp. rewrite !andb_true_iff in Ho.
    destruct Ho as [_ Ho]. apply H; assumption.
  Qed.

  Lemma scalar_shape v : scalar v = true -> shape_elem v.
  Proof.
    intros Hs f b Hf Hok He HL.
    assert (E : enc_value t v f = (if omitted t f v then Ok [] else
       let! wb := of_opt (enc_scalar (fd_kind f) v) in
         Ok (encode_key (fd_number f) (fst wb) ++ snd wb))).
    { destruct v; try discriminate Hs; reflexivity. }
    rewrite E in He. clear E. unfold enc_shape. destruct (omitted t f v) eqn:Hom.
    - injection He as <-. split; [apply recs_nil|tauto].
    - destruct (enc_scalar (fd_kind f) v) as [[w bs]|] eqn:Es; [|discriminate He].
      cbn [of_opt rbind fst snd] in He. injection He as <-. split.
      + eapply scalar_rec; [apply (fo_tag _ _ Hf)| |exact Es].
        destruct v; try discriminate Hs; exact Hok.
      + split; [intros H; exfalso; exact (key_nonempty _ _ _ H)|discriminate].
  Qed.

  Lemma message_shape d fs :
    Forall (fun kv => slot_all shape_field (snd kv)) fs -> shape_elem (VMessage (DM d fs)).
  Proof.
    intros Hall f b Hf Hok He HL. rewrite enc_value_msg in He.
    change (negb (fd_presence f) && is_default_for t f (VMessage (DM d fs))) with (omitted t f (VMessage (DM d fs))) in He.
    unfold enc_shape. destruct (omitted t f (VMessage (DM d fs))) eqn:Hom.
    { injection He as <-. split; [apply recs_nil|tauto]. }
    rewrite ok_elem_msg in Hok. destruct (kind_msg (fd_kind f)) as [i|] eqn:Ek; [|discriminate].
    apply andb_true_iff in Hok. destruct Hok as [_ Hok].
    pose proof (proj1 (ok_msg_iff _ _) Hok) as Hm.
    apply rbind_ok in He. destruct He as (body & Eb & He).
    pose proof (fo_tag _ _ Hf) as Hn.
    destruct (fd_is_group f) eqn:Eg.
    - injection He as <-. rewrite !app_length in HL.
      destruct (msg_recs _ _ Hm Hall Eb ltac:(lia)) as (us & -> & Hus). split.
      + apply (recs_one (numbered (fd_number f)) (UGroup (fd_number f) us)); [|reflexivity].
        apply uf_ok_group. split; [exact Hn|]. eapply Forall_impl; [|exact Hus]. intros u [Hu _]. exact Hu.
      + split; [intros H; exfalso; exact (key_nonempty _ _ _ H)|discriminate].
    - apply rbind_ok in He. destruct He as (l & El & He). injection He as <-. rewrite !app_length in HL.
      assert (Hl : l = N.of_nat (length body)).
      { pose proof (msg_agree t (DM d fs) Ht (proj1 (ok_msg_encodes t _ Hwf Hok))) as A. rewrite El, Eb in A.
        apply A. lia. }
      subst l. pose proof (recs_bytes _ _ (msg_recs _ _ Hm Hall Eb ltac:(lia))) as Hb. split.
      + apply delim_rec; assumption.
      + split; [intros H; exfalso; exact (key_nonempty _ _ _ H)|discriminate].
  Qed.

  Lemma list_shape vs : Forall shape_elem vs -> shape_field (VList vs).
  Proof.
    intros Hall d f b Hd Hok He HL.
    pose proof (find_desc_ok _ _ _ _ Ht Hd) as Hf. pose proof (find_desc_shape _ _ _ _ Hwf Hd) as Hsh. cbn [ok_field] in Hok. apply andb_true_iff in Hok. destruct Hok as [HiL Hok].
    cbn [enc_value] in He.
    change (negb (fd_presence f) && is_default_for t f (VList vs)) with (omitted t f (VList vs)) in He.
    unfold enc_shape. destruct (omitted t f (VList vs)) eqn:Hom.
    { injection He as <-. split; [apply recs_nil|tauto]. }
    pose proof (fo_tag _ _ Hf) as Hn. rewrite HiL in He. destruct (fd_packed f) eqn:Ep.
    - destruct (negb (fd_is_packable f)); [discriminate|].
      apply rbind_ok in He. destruct He as (l & El & He).
      apply rbind_ok in He. destruct He as (body & Eb & He). injection He as <-. rewrite !app_length in HL.
      rewrite forallb_forall in Hok.
      assert (Hl : l = N.of_nat (length body)).
      { assert (A : agree (rsum (fun x => of_opt (len_packed (fd_kind f) x)) vs)
                         (rcat (fun x => of_opt (enc_packed (fd_kind f) x)) vs)).
        { apply agree_sum. intros x Hx. apply agree_of_opt, packed_agree.
          exact (proj1 (ok_rust t x) _ (Hok _ Hx)). }
        rewrite El, Eb in A. apply A. lia. }
      subst l.
      assert (Hb : bytes_ok body).
      { clear - Eb Hok. revert body Eb. induction vs as [|x vs IH]; intros body Eb.
        - injection Eb as <-. constructor.
        - apply rcat_cons in Eb. destruct Eb as (x1 & y & Ex & Ey & ->).
          destruct (enc_packed (fd_kind f) x) as [bs|] eqn:E; [|discriminate]. injection Ex as <-.
          apply bytes_ok_app. split; [|apply IH; [intros z Hz; apply Hok; right; exact Hz|exact Ey]].
          pose proof (Hok x (or_introl eq_refl)) as Hx.
          assert (Hk : is_msg_kind (fd_kind f) = false) by (destruct x, (fd_kind f); try discriminate E; reflexivity).
          apply ok_elem_scalar in Hx; [|exact Hk].
          eapply enc_scalar_bytes_ok; [exact Hx|apply packed_scalar, E]. }
      split; [apply delim_rec; assumption|].
      split; [intros H; exfalso; exact (key_nonempty _ _ _ H)|discriminate].
    - rewrite forallb_forall in Hok. rewrite Forall_forall in Hall. split.
      + eapply recs_rcat; [exact He|]. intros x c Hin Hc.
        destruct (rcat_part _ _ _ _ He Hin) as (c' & Hc' & Hlen). rewrite Hc in Hc'. injection Hc' as <-.
        apply (Hall x Hin f c Hf (Hok x Hin) Hc). lia.
      + split; [|discriminate]. intros ->.
        destruct vs as [|x vs].
        * unfold omitted, is_default_for in Hom. rewrite (fd_default_list _ _ HiL) in Hom. cbn in Hom.
          rewrite andb_true_r in Hom. apply negb_false_iff in Hom.
          rewrite (fs_nopres _ _ Hsh) in Hom; [discriminate|].
          unfold fd_is_list in HiL. apply andb_true_iff in HiL. apply HiL.
        * apply rcat_cons in He. destruct He as (c1 & c2 & E1 & _ & E).
          symmetry in E. apply app_eq_nil in E. destruct E as [-> _].
          destruct (Hall x (or_introl eq_refl) f [] Hf (Hok x (or_introl eq_refl)) E1 HL) as [_ A].
          rewrite <- (proj1 A eq_refl).
          assert (Hp : plain x = true).
          { pose proof (Hok x (or_introl eq_refl)) as Hx. destruct x; try reflexivity; discriminate Hx. }
          symmetry. apply not_omitted_elem; assumption.
  Qed.

  Lemma mk_encode_bytes kf k bk : mk_okb (fd_kind kf) k = true -> mk_encode kf k = Ok bk -> bytes_ok bk.
  Proof.
    intros Hk H. unfold mk_encode in H. apply rbind_ok in H. destruct H as (om & _ & H). destruct om.
    - injection H as <-. constructor.
    - apply rbind_ok in H. destruct H as ([w bs] & E & H). cbn [fst snd] in H. injection H as <-.
      destruct (mk_enc_scalar (fd_kind kf) k) as [[w' bs']|] eqn:Em; [|discriminate]. injection E as -> ->.
      apply bytes_ok_app. split; [apply encode_key_ok|]. rewrite mk_enc_value in Em. rewrite mk_value_ok in Hk.
      eapply enc_scalar_bytes_ok; eassumption.
  Qed.

  Lemma map_repeated d f :
    find_desc t d (fd_number f) = Some f -> fd_is_map f = true -> is_repeated f = true.
  Proof.
    intros Hf H. unfold find_desc in Hf. destruct (get_field t d (fd_number f)) eqn:E.
    - injection Hf as ->. destruct (get_field_inv _ _ _ _ Ht E) as (m & i & fi & _ & _ & -> & _).
      cbn in H. unfold is_map_kind in H. apply andb_true_iff in H. apply H.
    - destruct (get_ext_inv _ _ _ _ Ht Hf) as (_ & Hin & _).
      destruct (msg_exts_inv _ _ _ Ht Hin) as (m & x & e & _ & _ & _ & _ & -> & _).
      cbn in H. unfold is_map_kind in H. apply andb_true_iff in H. apply H.
  Qed.

  Lemma map_shape kvs : Forall (fun kv => shape_elem (snd kv)) kvs -> shape_field (VMap kvs).
  Proof.
    intros Hall d f b Hd Hok He HL.
    pose proof (find_desc_ok _ _ _ _ Ht Hd) as Hf. pose proof (find_desc_shape _ _ _ _ Hwf Hd) as Hsh. cbn [ok_field enc_value] in Hok, He.
    change (negb (fd_presence f) && is_default_for t f (VMap kvs)) with (omitted t f (VMap kvs)) in He.
    unfold enc_shape. destruct (omitted t f (VMap kvs)) eqn:Hom.
    { injection He as <-. split; [apply recs_nil|tauto]. }
    destruct (kind_msg (fd_kind f)) as [e|] eqn:Ekm; [|discriminate].
    destruct (fd_is_map f) eqn:HM; [|discriminate].
    destruct (entry_key t e) as [kf|] eqn:Ek; [|discriminate].
    destruct (entry_value t e) as [vf|] eqn:Ev; [|discriminate].
    apply andb_true_iff in Hok. destruct Hok as [_ Hok]. rewrite forallb_forall in Hok. rewrite Forall_forall in Hall.
    pose proof (fo_tag _ _ Hf) as Hn. split.
    - eapply recs_rcat; [exact He|]. intros [k v] c Hin Hc. cbn [fst snd] in Hc.
      destruct (rcat_part _ _ _ _ He Hin) as (c' & Hc' & Hlen). cbn [fst snd] in Hc'. rewrite Hc in Hc'. injection Hc' as <-.
      pose proof (Hok _ Hin) as Ho. cbn [fst snd] in Ho. apply andb_true_iff in Ho. destruct Ho as [Hokk Hokv].
      apply rbind_ok in Hc. destruct Hc as (lk & Elk & Ex).
      apply rbind_ok in Ex. destruct Ex as (lv & Elv & Ex).
      apply rbind_ok in Ex. destruct Ex as (bk & Ebk & Ex).
      apply rbind_ok in Ex. destruct Ex as (bv & Ebv & Ex). injection Ex as <-.
      rewrite !app_length in Hlen.
      assert (Hlk : lk = N.of_nat (length bk)).
      { pose proof (mk_agree kf k (entry_number _ _ _ Ht Ek) (mk_ok_rust _ _ Hokk)) as A.
        rewrite Elk, Ebk in A. apply A. lia. }
      assert (Hlv : lv = N.of_nat (length bv)).
      { pose proof (value_agree t Ht v (proj1 (ok_rust t v) _ Hokv) vf (entry_vnumber _ _ _ Ht Ev)) as A.
        rewrite Elv, Ebv in A. apply A. lia. }
      replace (lk + lv) with (N.of_nat (length (bk ++ bv))) by (rewrite app_length; lia).
      apply delim_rec; [exact Hn|]. apply bytes_ok_app. split; [eapply mk_encode_bytes; eassumption|].
      destruct (Hall _ Hin vf bv (get_field_ok _ _ _ _ Ht Ev) Hokv Ebv ltac:(lia)) as [A _].
      eapply recs_bytes; exact A.
    - split; [|discriminate]. intros ->. exfalso.
      destruct kvs as [|[k v] kvs].
      + unfold omitted, is_default_for, fd_default_value in Hom. unfold fd_is_list in Hom. rewrite HM in Hom.
        rewrite andb_false_r in Hom. cbn in Hom.
        rewrite andb_true_r in Hom. apply negb_false_iff in Hom.
        rewrite (fs_nopres _ _ Hsh) in Hom; [discriminate|].
        exact (map_repeated d f Hd HM).
      + apply rcat_cons in He. destruct He as (c1 & c2 & E1 & _ & E). cbn [fst snd] in E1.
        symmetry in E. apply app_eq_nil in E. destruct E as [-> _].
        apply rbind_ok in E1. destruct E1 as (lk & Elk & Ex).
        apply rbind_ok in Ex. destruct Ex as (lv & Elv & Ex).
        apply rbind_ok in Ex. destruct Ex as (bk & Ebk & Ex).
        apply rbind_ok in Ex. destruct Ex as (bv & Ebv & Ex). injection Ex as Ex. exact (key_nonempty _ _ _ Ex).
  Qed.

  Definition shapes (v : value) : Prop := shape_elem v /\ shape_field v.
  Lemma shapes_plain v : plain v = true -> shape_elem v -> shapes v.
  Proof. intros Hp H. split; [auto|apply elem_field_shape; assumption]. Qed.
  Lemma shapes_all v : shapes v.
  Proof.
    induction v as [b|z|z|n|n|n|n|s|s|z|d fs IH|vs IH|kvs IH] using value_ind';
      try (apply shapes_plain; [reflexivity|apply scalar_shape; reflexivity]).
    - apply shapes_plain; [reflexivity|]. apply message_shape.
      eapply Forall_impl; [|exact IH]. intros [k s]; destruct s; cbn [snd slot_all]; auto. intros [_ Hw]; exact Hw.
    - split; [intros f b _ H; discriminate H|]. apply list_shape.
      eapply Forall_impl; [|exact IH]. intros x [H _]; exact H.
    - split; [intros f b _ H; discriminate H|]. apply map_shape.
      eapply Forall_impl; [|exact IH]. intros x [H _]; exact H.
  Qed.

  (** the records written for one item *)
  Record item_recs (it : item value) (us : list ufield) : Prop := {
    ir_enc : enc_item t it = Ok (ufs_encode us);
    ir_all : Forall (fun u => uf_ok u /\ uf_number u = inum it) us;
    ir_ne : us <> [];
    ir_unk : forall ws, it = IUnk ws -> us = ws
  }.
  Lemma items_recs m b :
    ok_msg t m = true -> enc_msg t m = Ok b -> N.of_nat (length b) < two64 ->
    forall it, In it (fs_iter t (dm_desc m) false false (dm_fields m)) -> exists us, item_recs it us.
  Proof.
    intros Hok He HL it Hin. pose proof (proj1 (ok_msg_iff _ _) Hok) as Hm.
    assert (Hall : Forall (fun kv => slot_all shape_field (snd kv)) (dm_fields m)).
    { apply Forall_forall. intros [k s] _. destruct s; cbn [snd slot_all]; auto. apply shapes_all. }
    destruct (items_shape m b Hm Hall He HL it Hin) as (c & Ec & (us & -> & Hus) & Hne).
    destruct it as [f v|f v|ws].
    - exists us. constructor; [exact Ec|exact Hus| |discriminate]. intros ->. apply Hne; reflexivity.
    - exists us. constructor; [exact Ec|exact Hus| |discriminate]. intros ->. apply Hne; reflexivity.
    - pose proof (iter_is_item t Hwf m _ Hm Hin) as [Hs _ _]. cbn [islot] in Hs.
      destruct (unk_num _ _ _ _ Hm Hs) as (_ & _ & Hne' & Hall').
      exists ws. constructor; [reflexivity| |exact Hne'|intros ? [= ->]; reflexivity].
      eapply Forall_impl; [|exact Hall']. intros u [H1 H2]. split; assumption.
  Qed.
  Lemma items_all its :
    (forall it, In it its -> exists us, item_recs it us) -> exists uss, Forall2 item_recs its uss.
  Proof.
    induction its as [|it its IH]; intros H; [exists []; constructor|].
    destruct (H it (or_introl eq_refl)) as (us & Hu).
    destruct IH as (uss & Hs); [intros x Hx; apply H; right; exact Hx|].
    exists (us :: uss). constructor; assumption.
  Qed.
  Lemma items_concat its uss b :
    Forall2 item_recs its uss -> rcat (enc_item t) its = Ok b -> b = ufs_encode (concat uss).
  Proof.
    intros H. revert b. induction H as [|it us its uss Hi Hr IH]; intros b He.
    - injection He as <-. reflexivity.
    - apply rcat_cons in He. destruct He as (x & y & Ex & Ey & ->). rewrite (ir_enc _ _ Hi) in Ex. injection Ex as <-.
      rewrite (IH _ Ey). cbn [concat]. unfold ufs_encode. rewrite flat_map_app. reflexivity.
  Qed.
  Lemma items_ok its uss : Forall2 item_recs its uss -> Forall uf_ok (concat uss).
  Proof.
    intros H. induction H as [|it us its uss Hi Hr IH]; [constructor|]. cbn [concat]. apply Forall_app. split; [|exact IH].
    eapply Forall_impl; [|exact (ir_all _ _ Hi)]. intros u [Hu _]; exact Hu.
  Qed.
  Lemma items_numbers its uss n :
    Forall2 item_recs its uss -> (In n (map uf_number (concat uss)) <-> In n (map inum its)).
  Proof.
    intros H. induction H as [|it us its uss Hi Hr IH]; [reflexivity|]. cbn [concat map]. rewrite map_app, in_app_iff, IH.
    cbn [In]. apply or_iff_compat_r. pose proof (ir_all _ _ Hi) as A. pose proof (ir_ne _ _ Hi) as B. split.
    - intros Hin. apply in_map_iff in Hin. destruct Hin as (u & <- & Hu). rewrite Forall_forall in A.
      symmetry. apply (A u Hu).
    - intros <-. destruct us as [|u us]; [congruence|]. inversion A as [|? ? [_ E] _]; subst. left. exact E.
  Qed.
  Lemma items_none its uss n :
    Forall2 item_recs its uss -> ~ In n (map inum its) -> with_number n (concat uss) = [].
  Proof.
    intros H Hn. apply filter_none. intros u Hu. apply N.eqb_neq. intros E. apply Hn.
    apply (proj1 (items_numbers _ _ n H)). apply in_map_iff. exists u. split; [exact E|exact Hu].
  Qed.
  Lemma items_with its uss us :
    Forall2 item_recs its uss -> NoDup (map inum its) -> us <> [] -> In (IUnk us) its ->
    with_number (inum (@IUnk value us)) (concat uss) = us.
  Proof.
    intros H. induction H as [|it ws its uss Hi Hr IH]; intros Hnd Hne Hin; [contradiction|].
    cbn [concat]. inversion Hnd as [|? ? Hnin Hnd']; subst. unfold with_number. rewrite filter_app. destruct Hin as [->|Hin].
    - pose proof (ir_unk _ _ Hi us eq_refl) as ->. pose proof (ir_all _ _ Hi) as A. rewrite Forall_forall in A.
      fold (with_number (inum (@IUnk value us)) (concat uss)). rewrite (items_none _ _ _ Hr Hnin), app_nil_r.
      apply filter_all. intros u Hu. apply N.eqb_eq. apply (A u Hu).
    - fold (with_number (inum (@IUnk value us)) (concat uss)). rewrite (IH Hnd' Hne Hin).
      rewrite (filter_none _ ws); [reflexivity|]. intros u Hu. apply N.eqb_neq. intros E.
      pose proof (ir_all _ _ Hi) as A. rewrite Forall_forall in A. destruct (A u Hu) as [_ E'].
      apply Hnin. rewrite <- E', E. apply in_map. exact Hin.
  Qed.

  (** The encoding of a valid message is a sequence of records; the number
      of a declared field or extension occurs iff the field is set, and the
      records with any other number are exactly the unknown fields. *)
  Lemma enc_msg_records m b :
    ok_msg t m = true -> enc_msg t m = Ok b -> N.of_nat (length b) < two64 ->
    exists us, b = ufs_encode us /\ Forall uf_ok us /\
      (forall n f, find_desc t (dm_desc m) n = Some f ->
        (has_field t m f = true <-> In n (map uf_number us))) /\
      (forall n, find_desc t (dm_desc m) n = None ->
        with_number n us = with_number n (msg_unknown_fields m)).
  Proof.
    intros Hok He HL. pose proof (proj1 (ok_msg_iff _ _) Hok) as Hm.
    destruct (items_all _ (items_recs m b Hok He HL)) as (uss & Huss).
    exists (concat uss). split; [exact (items_concat _ _ _ Huss He)|]. split; [exact (items_ok _ _ Huss)|]. split.
    - intros n f Hf. rewrite (items_numbers _ _ n Huss). pose proof (find_desc_number _ _ _ _ Ht Hf) as En.
      unfold has_field, fs_has. split.
      + intros H. destruct (fs_get_value (dm_fields m) (fd_number f)) as [v|] eqn:Ev; [|discriminate].
        assert (Hb : bt_get (fd_number f) (dm_fields m) = Some (SVal v)).
        { unfold fs_get_value in Ev. destruct (bt_get (fd_number f) (dm_fields m)) as [[]|]; congruence. }
        unfold find_desc in Hf. destruct (get_field t (dm_desc m) n) as [f'|] eqn:Eg.
        * injection Hf as ->. apply in_map_iff. exists (IField f v). split; [exact En|].
          apply iter_complete; [exact Hwf|exact Hm|]. constructor; cbn [inum islot idesc ihas]; auto. rewrite En; exact Eg.
        * apply in_map_iff. exists (IExt f v). split; [exact En|].
          apply iter_complete; [exact Hwf|exact Hm|]. constructor; cbn [inum islot idesc ihas]; auto.
          rewrite En. split; [exact Hf|exact Eg].
      + intros Hin. apply in_map_iff in Hin. destruct Hin as (it & <- & Hin).
        pose proof (iter_is_item t Hwf m it Hm Hin) as [Hs Hd Hh].
        destruct it as [g v|g v|us]; cbn [inum islot idesc ihas] in *.
        * unfold find_desc in Hf. rewrite Hd in Hf. injection Hf as ->. unfold fs_get_value. rewrite Hs. exact Hh.
        * destruct Hd as [Hd1 Hd2]. unfold find_desc in Hf. rewrite Hd2, Hd1 in Hf. injection Hf as ->.
          unfold fs_get_value. rewrite Hs. exact Hh.
        * destruct (unk_num _ _ _ _ Hm Hs) as (_ & Hn & _). congruence.
    - intros n Hn. rewrite (unknown_with_number t m n Hok). unfold unk_at.
      destruct (bt_get n (dm_fields m)) as [[|v|us]|] eqn:Hb.
      3: { destruct (unk_num _ _ _ _ Hm Hb) as (En & _ & Hne & _).
        assert (Hin : In (IUnk us) (fs_iter t (dm_desc m) false false (dm_fields m))).
        { apply iter_complete; [exact Hwf|exact Hm|]. constructor; cbn [islot idesc ihas]; rewrite ?En; auto. }
        pose proof (items_with _ _ us Huss (iter_nodup t Hwf m Hm) Hne Hin) as W. rewrite En in W. exact W. }
      all: apply (items_none _ _ _ Huss); intros Hin; apply in_map_iff in Hin; destruct Hin as (it & <- & Hin);
        pose proof (iter_is_item t Hwf m it Hm Hin) as [Hs Hd Hh];
        destruct it as [g w|g w|us]; cbn [inum islot idesc ihas] in *; unfold find_desc in Hn;
        [rewrite Hd in Hn; discriminate|destruct Hd as [Hd1 Hd2]; rewrite Hd2, Hd1 in Hn; discriminate|congruence].
  Qed.
End Presence.
