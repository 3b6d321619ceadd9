(** C67: what is read back from the encoding of an Any message is no longer
    than what the message holds. *)
From Coq Require Import List Arith Lia.
From Verif Require Import Base BaseProofs Wire WireProofs Unknown UnknownProofs LoopProofs Value Descr Fields Codec DescrOk DescrProofs FieldsProofs
  LenProofs MergeProofs RoundProofs ItemRound WireSpec WireSpecScalars WireSpecRead WireSpecWrite Prop_WireSpec EncBytes Float TextFormat EndsSize.
Open Scope list_scope.
Open Scope N_scope.

(** ** Unknown fields one after the other *)
Definition short (u : ufield) : Prop := N.of_nat (longest_unknown u) < two64.
Lemma group_short n us u : short (UGroup n us) -> In u us -> short u.
Proof.
  unfold short. cbn [longest_unknown]. intros H Hi. pose proof (proj1 (max_le longest_unknown us _) (le_n _) u Hi). lia.
Qed.
Lemma body_read u : forall ctx rest, uf_ok u -> short u -> (uf_depth u <= ctx)%nat ->
  uf_decode_value ctx (uf_number u) (uf_wire_type u) (uf_body u ++ rest) = Ok (u, rest).
Proof.
  induction u as [n v|n bs|n bs|n fs IH|n bs] using ufield_ind'; intros ctx rest Hok Hlen Hd.
  - destruct ctx; cbn [uf_decode_value uf_number uf_wire_type uf_body];
      rewrite decode_encode_varint by apply Hok; reflexivity.
  - destruct Hok as [_ [Hb HL]].
    assert (Hv : le_decode 8 (bs ++ rest) = Ok (le_value bs, rest)).
    { unfold le_decode. rewrite take_bytes_app by (rewrite HL; reflexivity). reflexivity. }
    destruct ctx; cbn [uf_decode_value uf_number uf_wire_type uf_body];
      rewrite Hv; cbn [rbind]; rewrite <- HL, le_encode_value by exact Hb; reflexivity.
  - assert (Hr : read_delimited (write_delimited bs ++ rest) = Ok (bs, rest)) by now apply read_write_delimited.
    destruct ctx; cbn [uf_decode_value uf_number uf_wire_type uf_body];
      rewrite Hr; reflexivity.
  - apply uf_ok_group in Hok. destruct Hok as [Ht Hok].
    cbn [uf_depth] in Hd. destruct ctx as [|ctx]; [lia|].
    cbn [uf_decode_value uf_number uf_wire_type uf_body].
    rewrite <- app_assoc.
    match goal with |- context [group_loop _ ?st _ _ _] => set (step := st) end.
    assert (He : forall l acc, (forall u, In u l -> In u fs) ->
                 eats step acc (ufs_encode l) (acc ++ l)).
    { induction l as [|u l IHl]; intros acc Hin.
      - rewrite app_nil_r. constructor.
      - cbn [ufs_encode flat_map]. rewrite uf_encode_body, <- app_assoc.
        assert (Hu : In u fs) by (apply Hin; left; reflexivity).
        rewrite Forall_forall in IH, Hok.
        eapply eats_cons with (s1 := acc ++ [u]).
        + apply uf_ok_tag, Hok, Hu.
        + apply uf_wire_type_not_end.
        + intros rest'. subst step. cbn beta.
          rewrite (IH u Hu); [reflexivity|apply Hok, Hu| |].
          * eapply group_short; eassumption.
          * apply uf_depth_In in Hu. unfold ufs_depth in Hu. lia.
        + replace (acc ++ u :: l) with ((acc ++ [u]) ++ l) by (rewrite <- app_assoc; reflexivity).
          apply IHl. intros u' Hu'. apply Hin. right; exact Hu'. }
    rewrite (group_loop_eats step n [] (ufs_encode fs) fs rest);
      [reflexivity| |exact Ht|lia].
    apply (He fs []). auto.
  - destruct Hok as [_ [Hb HL]].
    assert (Hv : le_decode 4 (bs ++ rest) = Ok (le_value bs, rest)).
    { unfold le_decode. rewrite take_bytes_app by (rewrite HL; reflexivity). reflexivity. }
    destruct ctx; cbn [uf_decode_value uf_number uf_wire_type uf_body];
      rewrite Hv; cbn [rbind]; rewrite <- HL, le_encode_value by exact Hb; reflexivity.
Qed.

Lemma raw_more : (forall n u pl, raw n u pl -> forall n', (n <= n')%nat -> raw n' u pl) /\
  (forall n us b, raws n us b -> forall n', (n <= n')%nat -> raws n' us b).
Proof.
  apply (raw_both (fun n u pl _ => forall n', (n <= n')%nat -> raw n' u pl) (fun n us b _ => forall n', (n <= n')%nat -> raws n' us b)); intros.
  - now constructor.
  - now constructor.
  - now constructor.
  - destruct n' as [|n']; [lia|]. constructor; [apply H; lia|assumption].
  - now constructor.
  - constructor.
  - constructor; auto.
Qed.

(** what follows the key is read in one way only *)
Lemma raw_aligned n u u' pl r r' : raw n u' pl -> bytes_ok pl -> uf_ok u -> short u ->
  uf_number u' = uf_number u -> uf_wire_type u' = uf_wire_type u -> pl ++ r' = uf_body u ++ r -> u' = u /\ r' = r.
Proof.
  intros R Hb Ho Hs En Ew E.
  pose proof (proj1 raw_complete _ _ _ (proj1 raw_more _ _ _ R (Nat.max n (uf_depth u)) ltac:(lia)) Hb r') as H1.
  pose proof (body_read u (Nat.max n (uf_depth u)) r Ho Hs ltac:(lia)) as H2. rewrite E, En, Ew, H2 in H1. injection H1 as -> ->. auto.
Qed.
Lemma key_aligned num w kb r u r' : record_key num w kb -> uf_ok u -> kb ++ r = uf_encode u ++ r' ->
  num = uf_number u /\ w = uf_wire_type u /\ r = uf_body u ++ r'.
Proof.
  intros K Ho E. pose proof (key_read _ _ _ r K) as H1. rewrite E, uf_encode_body, <- app_assoc, decode_encode_key in H1 by now apply uf_ok_tag.
  injection H1 as -> -> ->. auto.
Qed.

(** ** A message of two fields read from such records *)
Definition two_fields (T : tables) (w : nat) : Prop := forall n f, find_desc T w n = Some f ->
  fd_is_list f = false /\ fd_is_map f = false /\ (n = 1 /\ fd_kind f = KString \/ n = 2 /\ fd_kind f = KBytes).
Definition vals_below (k : nat) (m : dynmsg) : Prop := forall n v, bt_get n (dm_fields m) = Some (SVal v) -> (own_length v <= k)%nat.

Lemma string_or_bytes T ew n f v w pl v' : fd_is_list f = false -> fd_is_map f = false -> fd_kind f = KString \/ fd_kind f = KBytes ->
  reads_value T ew n f v w pl v' -> w = WLen /\ exists s, delimited s pl /\ own_length v' = length s.
Proof.
  intros Hl Hm Hk R. destruct R; try congruence; try (destruct Hk as [Hk|Hk]; congruence).
  destruct H0; destruct Hk as [Hk|Hk]; try discriminate Hk; eauto.
Qed.

Lemma records_read T w ew n k us : tables_ok T -> two_fields T w -> (forall u, In u us -> uf_ok u /\ short u /\ (longest_unknown u <= k)%nat) ->
  forall m m', dm_desc m = w -> vals_below k m -> reads_message T ew n m (ufs_encode us) m' -> vals_below k m'.
Proof.
  intros HT H2. induction us as [|u us IH]; intros Hus m m' Ed Hm R.
  - remember (ufs_encode []) as b eqn:Eb. destruct R as [|? ? kb ? ? ? ? ? ? K|? ? kb ? ? ? ? ? K]; [exact Hm| |];
      apply key_nonempty in K; destruct kb; cbn in K; [lia|discriminate Eb|lia|discriminate Eb].
  - assert (Hb : bytes_ok (ufs_encode (u :: us))) by (apply ufs_encode_ok, Forall_forall; intros x Hx; now destruct (Hus x Hx)).
    destruct (Hus u (or_introl eq_refl)) as (Ho & Hs & Hk). assert (Hus' : forall x, In x us -> uf_ok x /\ short x /\ (longest_unknown x <= k)%nat) by (intros; apply Hus; now right).
    specialize (IH Hus'). remember (ufs_encode (u :: us)) as b eqn:Eb. cbn [ufs_encode flat_map] in Eb. change (flat_map uf_encode us) with (ufs_encode us) in Eb.
    destruct R as [|? m kb w' pl rest f v m' K Hf Rv R|? m kb u' pl rest fs m' K Hf Rr A R].
    + exact Hm.
    + destruct (key_aligned _ _ _ _ _ _ K Ho Eb) as (En & Ew & Er). subst w.
      destruct (H2 _ _ Hf) as (Hl & Hmp & Hkd). destruct (string_or_bytes _ _ _ _ _ _ _ _ Hl Hmp ltac:(tauto) Rv) as (-> & s & D & El).
      destruct u as [? ?|? ?|num bs|? ?|? ?]; try discriminate Ew. cbn [uf_body longest_unknown] in *.
      pose proof (delim_read _ _ rest D) as Q. rewrite Er, read_write_delimited in Q by exact Hs. assert (s = bs) by congruence. assert (rest = ufs_encode us) by congruence. subst s rest.
      refine (IH _ _ _ _ R); [reflexivity|]. intros x y Hy. cbn [dm_fields with_fields] in Hy. rewrite set_get in Hy.
      destruct (x =? fd_number f); [injection Hy as <-; lia|]. destruct (siblingb f x); [discriminate|]. eauto.
    + destruct (key_aligned _ _ _ _ _ _ K Ho Eb) as (En & Ew & Er).
      assert (Hbp : bytes_ok pl). { unfold bytes_ok in *. rewrite Forall_forall in Hb |- *. intros x Hx. apply Hb. rewrite !in_app_iff. auto. }
      destruct (raw_aligned _ _ _ _ _ _ Rr Hbp Ho Hs En Ew Er) as [-> ->].
      refine (IH _ _ _ _ R); [exact Ed|]. intros x y Hy. cbn [dm_fields with_fields] in Hy. unfold fs_add_unknown in A.
      assert (G : forall us', Ok (bt_set (uf_number u) (SUnk us') (dm_fields m)) = Ok fs -> (own_length y <= k)%nat).
      { intros us' [= <-]. destruct (N.eq_dec x (uf_number u)) as [->|Hne]; [rewrite bt_get_set_same in Hy; discriminate|].
        rewrite bt_get_set_other in Hy by exact Hne. eauto. }
      destruct (bt_get (uf_number u) (dm_fields m)) as [[|?|?]|]; try discriminate A; eauto.
Qed.

(** ** What an Any message is encoded as *)
Lemma string_record t f s : fd_kind f = KString -> enc_value t (VString s) f = Ok [] \/ enc_value t (VString s) f = Ok (uf_encode (ULen (fd_number f) s)).
Proof. intros H. cbn [enc_value]. destruct (negb (fd_presence f) && is_default_for t f (VString s)); [auto|]. rewrite H. auto. Qed.
Lemma bytes_record t f s : fd_kind f = KBytes -> enc_value t (VBytes s) f = Ok [] \/ enc_value t (VBytes s) f = Ok (uf_encode (ULen (fd_number f) s)).
Proof. intros H. cbn [enc_value]. destruct (negb (fd_presence f) && is_default_for t f (VBytes s)); [auto|]. rewrite H. auto. Qed.

Definition records_below (k : nat) (c : bytes) : Prop :=
  exists us, c = ufs_encode us /\ forall u, In u us -> uf_ok u /\ (longest_unknown u <= k)%nat.
Lemma no_records k : records_below k [].
Proof. exists []. split; [reflexivity|intros ? []]. Qed.
Lemma one_record k u : uf_ok u -> (longest_unknown u <= k)%nat -> records_below k (uf_encode u).
Proof. intros H1 H2. exists [u]. split; [cbn [ufs_encode flat_map]; now rewrite app_nil_r|]. intros x [<-|[]]; auto. Qed.
Lemma records_app k a b : records_below k a -> records_below k b -> records_below k (a ++ b).
Proof.
  intros (us & -> & H1) (us' & -> & H2). exists (us ++ us'). split; [unfold ufs_encode; now rewrite flat_map_app|].
  intros u Hu. apply in_app_iff in Hu. destruct Hu; auto.
Qed.

Lemma any_value t m f v c : wf t -> msg_ok t m -> two_fields t (dm_desc m) -> find_desc t (dm_desc m) (fd_number f) = Some f ->
  In (fd_number f, SVal v) (dm_fields m) -> enc_value t v f = Ok c -> records_below (longest (VMessage m)) c.
Proof.
  intros Hw Ho H2 Hf Hin Ev. pose proof (proj1 (longest_msg m _) (le_n _) _ _ Hin) as Hlen. cbn [slot_longest] in Hlen.
  pose proof (mo_slots _ _ Ho _ _ (bt_In_get _ _ _ (mo_sorted _ _ Ho) Hin)) as So. unfold ok_slot in So. cbn [fst snd] in So. rewrite Hf in So.
  destruct (H2 _ _ Hf) as (Hl & Hmp & Hkd). pose proof (fo_tag _ _ (find_desc_ok _ _ _ _ (proj1 Hw) Hf)) as Htag.
  assert (R : forall s, bytes_ok s -> (length s <= longest (VMessage m))%nat -> enc_value t v f = Ok [] \/ enc_value t v f = Ok (uf_encode (ULen (fd_number f) s)) ->
    records_below (longest (VMessage m)) c).
  { intros s Hs Hsl [Q|Q]; rewrite Q in Ev; apply ok_eq in Ev; subst c; [apply no_records|]. apply one_record; [split; assumption|exact Hsl]. }
  destruct v; cbn in So; rewrite ?Hl, ?Hmp in So; destruct Hkd as [[_ Hk]|[_ Hk]]; rewrite Hk in So; try discriminate So.
  - apply (R s); [|cbn [own_length] in Hlen; lia|now apply string_record]. apply bytes_okb_ok. rewrite ?andb_true_iff in So. tauto.
  - apply (R s); [|cbn [own_length] in Hlen; lia|now apply bytes_record]. apply bytes_okb_ok. rewrite ?andb_true_iff in So. tauto.
  - destruct m0; cbn in So; discriminate So.
  - destruct m0; cbn in So; discriminate So.
Qed.

Lemma any_records t m b : wf t -> ok_msg t m = true -> two_fields t (dm_desc m) -> enc_msg t m = Ok b -> records_below (longest (VMessage m)) b.
Proof.
  intros Hw Ho H2 E. pose proof (proj1 Hw) as Ht. apply ok_msg_iff in Ho. unfold enc_msg in E.
  assert (G : forall it, In it (fs_iter t (dm_desc m) false false (dm_fields m)) -> forall c, enc_item t it = Ok c -> records_below (longest (VMessage m)) c).
  { intros it Hit c Ec. pose proof (iter_items _ _ _ _ _ Ht Hit) as Hi.
    destruct it as [f v|f v|us]; cbn [enc_item] in Ec.
    - destruct Hi as (Hf & Hb & _). apply bt_get_In in Hb. eapply any_value; eauto. unfold find_desc. now rewrite Hf.
    - destruct Hi as (Hf & Hb & _). eapply any_value; eauto. unfold find_desc. now rewrite (field_ext_disjoint _ _ _ _ Hw Hf).
    - destruct Hi as (n & Hb). injection Ec as <-. exists us. split; [reflexivity|]. intros u Hu.
      pose proof (proj1 (longest_msg m _) (le_n _) _ _ Hb) as Hlen. cbn [slot_longest] in Hlen. rewrite max_le in Hlen. split; [|auto].
      pose proof (mo_slots _ _ Ho _ _ (bt_In_get _ _ _ (mo_sorted _ _ Ho) Hb)) as So. unfold ok_slot in So. cbn [fst snd] in So.
      destruct (find_desc t (dm_desc m) n); [discriminate|]. rewrite !andb_true_iff, forallb_forall in So. destruct So as [_ So]. specialize (So u Hu).
      rewrite andb_true_iff in So. apply uf_okb_ok. apply So. }
  revert b E. induction (fs_iter t (dm_desc m) false false (dm_fields m)) as [|it l IH]; intros b E; cbn [rcat] in E.
  - injection E as <-. apply no_records.
  - destruct (enc_item t it) as [c| | |] eqn:Ec; try discriminate E. cbn [rbind] in E. destruct (rcat (enc_item t) l) as [c'| | |] eqn:El; try discriminate E.
    cbn [rbind] in E. injection E as <-. apply records_app; [eapply G; [now left|exact Ec]|]. apply IH; [|reflexivity]. intros it' Hi. apply G. now right.
Qed.

(** What an Any message of its own definition holds, read with the definition
    of two fields. *)
Theorem any_read_back t m b T w x : wf t -> wf T -> ok_msg t m = true -> two_fields t (dm_desc m) -> two_fields T w ->
  N.of_nat (longest (VMessage m)) < two64 -> enc_msg t m = Ok b -> msg_decode T w b = Ok x ->
  vals_below (longest (VMessage m)) x.
Proof.
  intros Hw HW Ho H2 HT Hs E D. destruct (any_records t m b Hw Ho H2 E) as (us & -> & Hus).
  eapply (records_read T w _ 100 _ us (proj1 HW) HT); [| | |eapply C54_decode_reads; [exact (proj1 HW)| |exact D]].
  - intros u Hu. destruct (Hus u Hu). split; [assumption|]. split; [unfold short; lia|assumption].
  - reflexivity.
  - intros n v H. discriminate H.
  - apply ufs_encode_ok, Forall_forall. intros u Hu. now apply Hus.
Qed.
