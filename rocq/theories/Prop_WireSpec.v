(** C54: the bytes read and written are those of the protobuf wire format, as
    written down in WireSpec.v. *)
From Verif Require Import Base BaseProofs Wire WireProofs Unknown UnknownProofs Value Descr Fields Codec
  DescrOk DescrProofs FieldsProofs LenProofs MergeProofs DepthProofs RoundSpec RoundProofs RoundMain RoundSame EncBytes
  WireSpec WireSpecScalars WireSpecRead WireSpecWrite ExampleSchema.
Open Scope N_scope.

(** What merging accepts is a sequence of records of the grammar, and the
    message becomes what the grammar says; messages and groups are nested at
    most 100 deep.  The only liberty is the wire type of a map field's record
    (here: any). *)
Theorem C54_merge_reads t m b m' r :
  tables_ok t -> bytes_ok b -> msg_merge t m b = DOk m' r ->
  r = [] /\ reads_message t (fun _ => True) 100 m b m'.
Proof. intros Ht. exact (merge_sound t Ht m b m' r). Qed.
Print Assumptions C54_merge_reads.

Theorem C54_decode_reads t d b m :
  tables_ok t -> bytes_ok b -> msg_decode t d b = Ok m -> reads_message t (fun _ => True) 100 (new_msg d) b m.
Proof.
  intros Ht Hb. unfold msg_decode. destruct (msg_merge t (new_msg d) b) as [m' r| | |] eqn:E; try discriminate.
  intros H. apply ok_eq in H. subst m'. exact (proj2 (C54_merge_reads _ _ _ _ _ Ht Hb E)).
Qed.
Print Assumptions C54_decode_reads.

(** Everything the grammar allows is accepted, with the result the grammar
    gives: field order, repeated occurrences, padded varints, packed and
    unpacked lists, unknown fields and groups included.  Also where the record
    of a map field carries any other wire type but end-group. *)
Theorem C54_reads_merge t m b m' :
  wf t -> ok_msg t m = true -> bytes_ok b ->
  reads_message t (fun w => w <> WEnd) 100 m b m' -> msg_merge t m b = DOk m' [].
Proof. intros. eapply merge_complete; try eassumption. auto. Qed.
Print Assumptions C54_reads_merge.

Theorem C54_reads_decode t d b m :
  wf t -> (d < length (t_messages t))%nat -> bytes_ok b ->
  reads_message t (eq WLen) 100 (new_msg d) b m -> msg_decode t d b = Ok m.
Proof.
  intros Hw Hd Hb H. unfold msg_decode. erewrite merge_complete; [reflexivity| |exact Hw| |exact Hb|exact H].
  - intros w <-. discriminate.
  - now apply ok_msg_iff, new_msg_ok.
Qed.
Print Assumptions C54_reads_decode.

(** Hence the specification gives at most one meaning to a sequence of bytes. *)
Theorem C54_reading_unique t m b m1 m2 :
  wf t -> ok_msg t m = true -> bytes_ok b ->
  reads_message t (eq WLen) 100 m b m1 -> reads_message t (eq WLen) 100 m b m2 -> m1 = m2.
Proof.
  intros Hw Hm Hb H1 H2.
  assert (He : forall w, WLen = w -> w <> WEnd) by (intros w <-; discriminate).
  pose proof (merge_complete t _ He _ _ _ Hw Hm Hb H1) as E1.
  pose proof (merge_complete t _ He _ _ _ Hw Hm Hb H2) as E2. congruence.
Qed.
Print Assumptions C54_reading_unique.

(** The wire type of a map field's record is not looked at: bytes that are no
    record of the field according to the specification are decoded as one. *)
Theorem C54_map_wire_type_refuted :
  exists b m, bytes_ok b /\ msg_decode ex 0 b = Ok m /\ m <> new_msg 0 /\
    forall n m', ~ reads_message ex (eq WLen) n (new_msg 0) b m'.
Proof.
  exists [32; 3; 10; 1; 107]. eexists. split; [repeat constructor|]. split; [vm_compute; reflexivity|].
  split; [discriminate|].
  assert (K : forall num w kb pl rest, record_key num w kb -> kb ++ pl ++ rest = [32; 3; 10; 1; 107] ->
    num = 4 /\ w = WVarint).
  { intros num w kb pl rest K E. pose proof (key_read num w kb (pl ++ rest) K) as D. rewrite E in D.
    change (decode_key [32; 3; 10; 1; 107]) with (Ok (4, WVarint, [3; 10; 1; 107])) in D. split; congruence. }
  intros n m' H. inversion H as [|n0 m0 kb w pl rest f v m1 Hk Hf Hv Hr En Em Eb|n0 m0 kb u pl rest fs m1 Hk Hf Hv Ha Hr En Em Eb]; subst.
  - destruct (K _ _ _ _ _ Hk Eb) as [Hn ->]. rewrite Hn in Hf. apply some_eq in Hf. subst f.
    change (get_field_value ex (new_msg 0) _) with (VMap []) in Hv. inversion Hv; subst; try discriminate.
    match goal with H : holds _ (VMap _) |- _ => inversion H end.
  - destruct (K _ _ _ _ _ Hk Eb) as [Hn _]. rewrite Hn in Hf. discriminate Hf.
Qed.
Print Assumptions C54_map_wire_type_refuted.

(** Strings are accepted exactly when they are a sequence of Unicode scalar
    values in UTF-8. *)
Theorem C54_utf8 s : utf8_valid s = true <-> utf8_text s.
Proof. split; [apply valid_text|apply text_valid]. Qed.
Print Assumptions C54_utf8.

(** What is written: the set fields in order of iteration, each in its one form
    with the shortest varints, packed lists as one record, map entries as
    records with key and value, and lengths that are those of what follows. *)
Theorem C54_encode_writes t m b :
  wf t -> ok_msg t m = true -> enc_msg t m = Ok b -> N.of_nat (length b) < 2 ^ 64 -> writes_message t m b.
Proof. intros. now apply msg_wrote. Qed.
Print Assumptions C54_encode_writes.

(** And the bytes written mean the message that was encoded. *)
Theorem C54_encoding_means t m :
  wf t -> ok_msg t m = true -> zeros_kept_msg t m = true -> (msg_depth m <= 100)%nat ->
  exists b, enc_msg t m = Ok b /\
    (N.of_nat (length b) < 2 ^ 64 ->
     exists m', reads_message t (fun _ => True) 100 (new_msg (dm_desc m)) b m' /\ same_msg t m m').
Proof.
  intros Hwf Hm Hz Hd. destruct (ok_msg_enc t m Hwf Hm) as (b & Hb & Hok). exists b. split; [exact Hb|].
  intros HL. exists (norm_msg t m). split; [|apply norm_same; assumption].
  apply C54_decode_reads; [exact (proj1 Hwf)|exact Hok|]. apply decode_encode_norm; assumption.
Qed.
Print Assumptions C54_encoding_means.

(** Bytes with a padded varint, an unpacked element of a packed list, a string
    of two bytes and an unknown group, read by the grammar. *)
Example C54_example :
  reads_message ex (eq WLen) 100 (new_msg 0)
    [8; 255; 128; 0; 24; 3; 18; 2; 195; 169; 147; 3; 148; 3]
    (DM 0 [(1, SVal (VI32 127)); (2, SVal (VString [195; 169])); (3, SVal (VList [VI32 (-2)])); (50, SUnk [UGroup 50 []])]) /\
  exists b, enc_msg ex ex_m = Ok b /\ writes_message ex ex_m b.
Proof.
  split.
  - assert (V1 : forall n, n < 128 -> varint64 n [n]).
    { intros n Hn. split; [now constructor|]. split; [cbn; lia|lia]. }
    assert (K1 : forall num w n, 1 <= num < 536870912 -> n < 128 -> n = 8 * num + wt_num w -> record_key num w [n]).
    { intros num w n H1 H2 ->. split; [exact H1|]. now apply V1. }
    assert (K2 : forall num w a c, 1 <= num < 536870912 -> a < 128 -> c < 128 -> a + 128 * c = 8 * num + wt_num w -> record_key num w [128 + a; c]).
    { intros num w a c H1 H2 H3 E. split; [exact H1|]. rewrite <- E. split; [apply vi_more; [exact H2|now apply vi_last]|]. split; [cbn; lia|lia]. }
    apply (rm_field ex (eq WLen) 100 (new_msg 0) [8] WVarint [255; 128; 0] [24; 3; 18; 2; 195; 169; 147; 3; 148; 3] (ex_f 1) (VI32 127)).
    { apply K1; vm_compute; intuition congruence. }
    { reflexivity. }
    { apply rv_scalar; [constructor|]. apply sc_int32 with (n := 127); [|split; [lia|reflexivity]].
      split; [|split; [cbn; lia|lia]].
      apply (vi_more 127 0 [128; 0]); [lia|]. apply (vi_more 0 0 [0]); [lia|]. apply vi_last; lia. }
    apply (rm_field ex (eq WLen) 100 _ [24] WVarint [3] [18; 2; 195; 169; 147; 3; 148; 3] (ex_f 3) (VList ([] ++ [VI32 (-2)]))).
    { apply K1; vm_compute; intuition congruence. }
    { reflexivity. }
    { apply rv_element; [reflexivity|intros [F _]; discriminate F|].
      apply rv_scalar; [constructor|]. apply sc_sint32 with (n := 3); [apply V1; lia|reflexivity]. }
    apply (rm_field ex (eq WLen) 100 _ [18] WLen [2; 195; 169] [147; 3; 148; 3] (ex_f 2) (VString [195; 169])).
    { apply K1; vm_compute; intuition congruence. }
    { reflexivity. }
    { apply rv_scalar; [constructor|]. apply sc_string.
      - exists [2]. split; [apply V1; lia|reflexivity].
      - exists [233]. split; [constructor; [left; lia|constructor]|reflexivity]. }
    apply (rm_unknown ex (eq WLen) 100 _ [147; 3] (UGroup 50 []) [148; 3] []
      [(1, SVal (VI32 127)); (2, SVal (VString [195; 169])); (3, SVal (VList [VI32 (-2)])); (50, SUnk [UGroup 50 []])]).
    { apply (K2 50 WStart 19 3); vm_compute; intuition congruence. }
    { reflexivity. }
    { apply (raw_group 99 50 [] [] [148; 3]); [constructor|]. apply (K2 50 WEnd 20 3); vm_compute; intuition congruence. }
    { reflexivity. }
    constructor.
  - destruct (ok_msg_enc ex ex_m ex_wf ex_m_ok) as (b & Hb & _). exists b. split; [exact Hb|].
    apply C54_encode_writes; [exact ex_wf|exact ex_m_ok|exact Hb|].
    vm_compute in Hb. apply ok_eq in Hb. subst b. vm_compute. reflexivity.
Qed.
