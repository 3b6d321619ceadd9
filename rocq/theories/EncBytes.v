(** Encoding a valid message gives bytes. *)
From Verif Require Import Base BaseProofs Wire WireProofs LoopProofs Unknown UnknownProofs
  Value Descr Fields Codec DescrOk DescrProofs FieldsProofs LenProofs MergeProofs RoundSpec RoundProofs.
Open Scope N_scope.

Definition mk_bytes (k : mapkey) : bool := match k with MKString s => bytes_okb s | _ => true end.
Fixpoint strings_ok (v : value) : bool :=
  match v with
  | VString s | VBytes s => bytes_okb s
  | VList vs => forallb strings_ok vs
  | VMap kvs => forallb (fun kv => mk_bytes (fst kv) && strings_ok (snd kv)) kvs
  | VMessage (DM _ fs) =>
      forallb (fun kv =>
        match snd kv with
        | SVal v' => strings_ok v'
        | SUnk us => forallb uf_okb us
        | Taken => true
        end) fs
  | _ => true
  end.

Lemma sc_strings k v : sc_okb k v = true -> strings_ok v = true.
Proof. destruct v, k; cbn; intros H; try discriminate; try reflexivity; try exact H. now apply andb_true_iff in H. Qed.
Lemma mk_strings k key : mk_okb k key = true -> mk_bytes key = true.
Proof. destruct key, k; cbn; intros H; try discriminate; try reflexivity. now apply andb_true_iff in H. Qed.

Lemma ok_strings t v :
  (forall k, ok_elem t v k = true -> strings_ok v = true) /\
  (forall f, ok_field t f v = true -> strings_ok v = true).
Proof.
  induction v as [b|z|z|n|n|n|n|s|s|z|d fs IH|vs IH|kvs IH] using value_ind'.
  11: { assert (A : forall k, ok_elem t (VMessage (DM d fs)) k = true -> strings_ok (VMessage (DM d fs)) = true).
    { intros k H. rewrite ok_elem_msg in H. destruct (kind_msg k); [|discriminate].
      apply andb_true_iff in H. destruct H as [_ H]. unfold ok_msg in H.
      rewrite !andb_true_iff in H. destruct H as [_ H]. cbn [dm_desc dm_fields] in H.
      cbn [strings_ok]. revert H. apply forallb_impl_in. intros [k0 s] Hin. cbn.
      rewrite Forall_forall in IH. specialize (IH _ Hin). destruct s; cbn in *; auto.
      - destruct (find_desc t d k0); [|discriminate]. apply IH.
      - destruct (find_desc t d k0); [discriminate|]. rewrite !andb_true_iff. intros [_ H].
        revert H. apply forallb_impl_in. intros u _. rewrite andb_true_iff. tauto. }
    split; [exact A|]. intros f H. rewrite ok_field_plain in H by reflexivity.
    rewrite !andb_true_iff in H. eapply A. apply H. }
  11: { split; [discriminate|]. intros f H. cbn [ok_field] in H. apply andb_true_iff in H.
    destruct H as [_ H]. cbn [strings_ok]. revert H. apply forallb_impl_in. intros x Hx.
    rewrite Forall_forall in IH. apply (IH _ Hx). }
  11: { split; [discriminate|]. intros f H. cbn [ok_field] in H.
    destruct (kind_msg (fd_kind f)); [|discriminate]. destruct (fd_is_map f); [|discriminate].
    destruct (entry_key t n) as [kf|]; [|discriminate].
    destruct (entry_value t n) as [vf|]; [|discriminate].
    apply andb_true_iff in H. destruct H as [_ H]. cbn [strings_ok]. revert H. apply forallb_impl_in.
    intros x Hx. rewrite !andb_true_iff. intros [H1 H2]. split; [eapply mk_strings; exact H1|].
    rewrite Forall_forall in IH. exact (proj1 (IH _ Hx) _ H2). }
  all: split; [intros k H; eapply sc_strings; exact H|];
    intros f H; rewrite ok_field_plain in H by reflexivity; rewrite !andb_true_iff in H;
    eapply sc_strings; apply H.
Qed.

Definition gives (r : res bytes) : Prop := match r with Ok b => bytes_ok b | _ => True end.
Lemma gives_cat {A} (h : A -> res bytes) l : (forall x, In x l -> gives (h x)) -> gives (rcat h l).
Proof.
  induction l as [|a l IH]; intros H; [constructor|]. cbn [rcat].
  change ((fix go (l : list A) : res bytes := _) l) with (rcat h l).
  pose proof (H a (or_introl eq_refl)) as Ha. pose proof (IH (fun x Hx => H x (or_intror Hx))) as Hl.
  destruct (h a) as [b| | |]; cbn [rbind]; try exact I.
  destruct (rcat h l) as [b'| | |]; cbn [rbind]; try exact I. cbn in *. apply bytes_ok_app. split; assumption.
Qed.
Ltac enc_bytes := first [exact I | apply encode_varint_ok | apply le_encode_ok | apply write_delimited_ok, bytes_okb_ok; assumption].
Lemma enc_scalar_bytes k v : strings_ok v = true -> match enc_scalar k v with Some (_, b) => bytes_ok b | None => True end.
Proof. intros H. destruct v, k; cbn [enc_scalar strings_ok] in *; enc_bytes. Qed.
Lemma enc_packed_bytes k v : match enc_packed k v with Some b => bytes_ok b | None => True end.
Proof. destruct k, v; cbn [enc_packed]; enc_bytes. Qed.
Lemma mk_scalar_bytes k key : mk_bytes key = true -> match mk_enc_scalar k key with Some (_, b) => bytes_ok b | None => True end.
Proof. intros H. destruct key, k; cbn [mk_enc_scalar mk_bytes] in *; enc_bytes. Qed.
Lemma mk_encode_bytes f k : mk_bytes k = true -> gives (mk_encode f k).
Proof.
  intros H. unfold mk_encode. destruct (mk_omitted f k) as [[]| | |]; cbn [rbind]; try exact I; [constructor|].
  pose proof (mk_scalar_bytes (fd_kind f) k H) as E.
  destruct (mk_enc_scalar (fd_kind f) k) as [[w b]|]; cbn [of_opt rbind fst snd]; [|exact I].
  cbn [gives]. apply bytes_ok_app. split; [apply encode_key_ok|exact E].
Qed.

Lemma items_bytes t m : tables_ok t ->
  Forall (fun kv => slot_all (fun v => strings_ok v = true -> forall f, gives (enc_value t v f)) (snd kv)) (dm_fields m) ->
  strings_ok (VMessage m) = true -> gives (enc_msg t m).
Proof.
  intros Ht IH Hr. unfold enc_msg. apply gives_cat. intros it Hit.
  destruct m as [d fs]. cbn [dm_desc dm_fields strings_ok] in *.
  rewrite forallb_forall in Hr. rewrite Forall_forall in IH.
  pose proof (iter_items _ _ _ _ _ Ht Hit) as Hi.
  destruct it as [f v|f v|us]; cbn [enc_item].
  - destruct Hi as (Hf & Hb & _). apply bt_get_In in Hb. apply (IH _ Hb). exact (Hr _ Hb).
  - destruct Hi as (Hf & Hb & _). apply (IH _ Hb). exact (Hr _ Hb).
  - destruct Hi as (n & Hb). pose proof (Hr _ Hb) as Hu. cbn in Hu. cbn [gives]. apply ufs_encode_ok.
    apply Forall_forall. intros u Hu'. rewrite forallb_forall in Hu. apply uf_okb_ok. auto.
Qed.
Lemma value_bytes t : tables_ok t -> forall v, strings_ok v = true -> forall f, gives (enc_value t v f).
Proof.
  intros Ht v. induction v as [b|z|z|n|n|n|n|s|s|z|d fs IH|vs IH|kvs IH] using value_ind'; intros Hr f.
  11: { rewrite enc_value_msg.
    destruct (negb (fd_presence f) && is_default_for t f (VMessage (DM d fs))); [constructor|].
    destruct (kind_msg (fd_kind f)); [|exact I].
    pose proof (items_bytes t (DM d fs) Ht IH Hr) as A.
    destruct (enc_msg t (DM d fs)) as [b| | |]; cbn [rbind]; try exact I.
    destruct (fd_is_group f); cbn [gives].
    - rewrite !bytes_ok_app. auto using encode_key_ok.
    - destruct (len_msg t (DM d fs)) as [l| | |]; cbn [rbind]; try exact I. cbn [gives].
      rewrite !bytes_ok_app. auto using encode_key_ok, encode_varint_ok. }
  11: { cbn [enc_value].
    destruct (negb (fd_presence f) && is_default_for t f (VList vs)); [constructor|].
    destruct (fd_is_list f); [|exact I].
    cbn in Hr. rewrite forallb_forall in Hr. rewrite Forall_forall in IH.
    destruct (fd_packed f).
    - destruct (negb (fd_is_packable f)); [exact I|].
      destruct (rsum _ vs) as [l| | |]; cbn [rbind]; try exact I.
      assert (A : gives (rcat (fun x => of_opt (enc_packed (fd_kind f) x)) vs)).
      { apply gives_cat. intros x Hx. pose proof (enc_packed_bytes (fd_kind f) x) as E. destruct (enc_packed (fd_kind f) x); exact E. }
      destruct (rcat _ vs) as [b| | |]; cbn [rbind]; try exact I. cbn [gives] in *.
      rewrite !bytes_ok_app. auto using encode_key_ok, encode_varint_ok.
    - apply gives_cat. intros x Hx. apply IH; auto. }
  11: { cbn [enc_value].
    destruct (negb (fd_presence f) && is_default_for t f (VMap kvs)); [constructor|].
    destruct (kind_msg (fd_kind f)) as [e|]; [|exact I]. destruct (fd_is_map f); [|exact I].
    destruct (entry_key t e) as [kf|] eqn:Ek; [|exact I].
    destruct (entry_value t e) as [vf|] eqn:Ev; [|exact I].
    cbn in Hr. rewrite forallb_forall in Hr. rewrite Forall_forall in IH.
    apply gives_cat. intros [k v] Hx. cbn [fst snd].
    specialize (Hr _ Hx) as Hrx. cbn in Hrx. apply andb_true_iff in Hrx. destruct Hrx as [Hk Hv].
    pose proof (mk_encode_bytes kf k Hk) as A1. pose proof (IH _ Hx Hv vf) as A2. cbn [snd] in A2.
    destruct (mk_len kf k) as [lk| | |]; cbn [rbind]; try exact I.
    destruct (len_value t v vf) as [lv| | |]; cbn [rbind]; try exact I.
    destruct (mk_encode kf k) as [bk| | |]; cbn [rbind]; try exact I.
    destruct (enc_value t v vf) as [bv| | |]; cbn [rbind]; try exact I. cbn [gives] in *.
    rewrite !bytes_ok_app. auto using encode_key_ok, encode_varint_ok. }
  all: match goal with |- gives (enc_value ?t ?v ?f) =>
         destruct (negb (fd_presence f) && is_default_for t f v) eqn:E;
         cbn [enc_value]; rewrite E; [constructor|];
         pose proof (enc_scalar_bytes (fd_kind f) v Hr) as Es;
         destruct (enc_scalar (fd_kind f) v) as [[w b']|];
         cbn [of_opt rbind fst snd]; [|exact I]
       end; cbn [gives]; apply bytes_ok_app; split; [apply encode_key_ok|exact Es].
Qed.
Lemma enc_msg_bytes t m b : tables_ok t -> ok_msg t m = true -> enc_msg t m = Ok b -> bytes_ok b.
Proof.
  intros Ht Hok E.
  assert (S : strings_ok (VMessage m) = true).
  { apply (proj1 (ok_strings t (VMessage m)) (KMessage (dm_desc m))). rewrite ok_elem_msg. cbn. rewrite Nat.eqb_refl. exact Hok. }
  pose proof (items_bytes t m Ht) as A. rewrite E in A. apply A; [|exact S].
  apply Forall_forall. intros [n s] _. cbn. destruct s; cbn; auto. intros Hv f. now apply value_bytes.
Qed.
Lemma ok_msg_enc t m : wf t -> ok_msg t m = true -> exists b, enc_msg t m = Ok b /\ bytes_ok b.
Proof.
  intros Hw Hok. destruct (ok_msg_encodes t m Hw Hok) as [R D].
  destruct (msg_encode_fine t m (proj1 Hw) D R) as (b & l & E & _). exists b. split; [exact E|].
  eapply enc_msg_bytes; [exact (proj1 Hw)|exact Hok|exact E].
Qed.
