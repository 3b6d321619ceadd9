(** C67: writing a message always ends. *)
From Coq Require Import String.
From Verif Require Import Base BaseProofs Wire Unknown Value Descr Fields Codec DescrOk DescrProofs FieldsProofs MergeProofs ItemRound RoundProofs Float
  TextFormat TextRound Prop_TextSafe Prop_TextRound JsonMeaning Json JsonSer JsonWkt JsonWritten JsonWrittenAll JsonWrittenTotal Prop_JsonRound Prop_JsonWritten
  TextWritten TextWrittenRows TextWrittenAll TextWrittenDeeper Prop_TextWritten ExampleSchema ExampleJson EndsSize EndsAny EndsText EndsJson.
Open Scope list_scope.
Open Scope N_scope.

(** ** C67 *)

(** [longest (VMessage m)] is the length of the longest string or bytes held
    by a singular field of [m], or of a message inside it, known or unknown.
    A message of type google.protobuf.Any can be shown as the message it packs,
    which can pack another one, and so on: the bound of [to_text] and [to_json]
    is how many times.  [any_fields t] is that a type with the name
    google.protobuf.Any has no other fields than the string 1 and the bytes 2. *)

(** Every message has a text, and only one, found at a depth that the size of
    the message gives. *)
Theorem C67_text_ends : forall E t o m, wf t -> any_fields t -> ok_msg t m = true ->
  N.of_nat (longest (VMessage m)) < 2 ^ 64 ->
  exists b, text_of E t o m b /\ (forall b', text_of E t o m b' -> b' = b) /\
    forall n, (longest (VMessage m) < n)%nat -> to_text E t o n m = Ok b.
Proof.
  intros E t o m Hw Ha Hm Hs. set (n0 := S (longest (VMessage m))).
  pose proof (to_text_ends E t o Hw Ha n0 m Hm Hs (le_n _)) as H0.
  destruct (C66_never_fails E t o m n0 Hw Hm) as [F|(b & Eb & Hb)]; [now destruct H0|]. exists b. split; [exact Hb|]. split.
  - intros b' Hb'. symmetry. eapply C66_one_text; eauto.
  - intros n Hn. rewrite (C66_depth E t o m n0 n Hw Hm Hn H0). exact Eb.
Qed.
Print Assumptions C67_text_ends.

(** Every message is written in JSON or refused, at a depth that the size of
    the message gives; it is written exactly when a document shows it. *)
Theorem C67_json_ends : forall E t o m, wf t -> any_fields t -> ok_msg t m = true ->
  N.of_nat (longest (VMessage m)) < 2 ^ 64 ->
  (exists j, msg_shown E t o m j /\ (forall j', msg_shown E t o m j' -> j' = j) /\
     forall n, (longest (VMessage m) < n)%nat -> to_json E t o n m = JOk j) \/
  (exists e, (forall j, ~ msg_shown E t o m j) /\
     forall n, (longest (VMessage m) < n)%nat -> to_json E t o n m = JErr e).
Proof.
  intros E t o m Hw Ha Hm Hs. set (n0 := S (longest (VMessage m))).
  pose proof (to_json_ends E t o Hw Ha n0 m Hm Hs (le_n _)) as H0.
  assert (HF : to_json E t o n0 m <> JFuel) by (intros F; now rewrite F in H0).
  assert (HD : forall n, (longest (VMessage m) < n)%nat -> to_json E t o n m = to_json E t o n0 m).
  { intros n Hn. apply C61_depth; auto. }
  destruct (to_json E t o n0 m) as [j|e| |] eqn:Ej; try destruct H0.
  - left. exists j. assert (Hj : msg_shown E t o m j) by (apply C61_writes; eauto). split; [exact Hj|]. split; [|exact HD].
    intros j' Hj'. eapply C61_one_document; eauto.
  - right. exists e. split; [|exact HD]. exact (proj2 (C61_fails E t o m n0 Hw Hm) e Ej).
Qed.
Print Assumptions C67_json_ends.

(** ** No fixed depth is enough *)

Definition any_url : bytes := s2b "y/google.protobuf.Any".
(** The bytes of an Any message that packs an Any message, and so on, [n]
    times. *)
Fixpoint nested (n : nat) : bytes :=
  match n with
  | O => 10 :: 21 :: any_url
  | S n => 10 :: 21 :: any_url ++ 18 :: encode_varint (N.of_nat (length (nested n))) ++ nested n
  end.
Definition nested_msg (n : nat) : dynmsg :=
  match n with O => DM 0 [(1, SVal (VString any_url))] | S n => packed any_url (nested n) end.
Lemma nested_length n : (length (nested n) <= 64 * S n)%nat.
Proof.
  induction n as [|n IH]; [vm_compute; lia|]. cbn [nested length]. rewrite app_length. cbn [length]. rewrite app_length.
  pose proof (varint_len (N.of_nat (length (nested n)))). change (length any_url) with 21%nat. lia.
Qed.
Lemma nested_enc n : enc_msg any_tables (nested_msg n) = Ok (nested n).
Proof.
  destruct n as [|n]; [vm_compute; reflexivity|]. cbn [nested_msg nested].
  assert (H : forall c r, enc_msg any_tables (packed any_url (c :: r)) = Ok (10 :: 21 :: any_url ++ 18 :: encode_varint (N.of_nat (length (c :: r))) ++ c :: r)).
  { intros c r. cbn -[encode_varint N.of_nat]. rewrite ?app_nil_r. reflexivity. }
  destruct n; apply H.
Qed.
Lemma nested_bytes n : bytes_ok (nested n).
Proof.
  assert (U : Forall (fun b => b < 256) any_url) by (repeat (constructor; [reflexivity|]); constructor).
  induction n as [|n IH]; unfold bytes_ok in *; cbn [nested]; (constructor; [reflexivity|]); (constructor; [reflexivity|]); [exact U|].
  rewrite Forall_app. split; [exact U|]. constructor; [reflexivity|]. rewrite Forall_app. split; [apply WireProofs.encode_varint_ok|exact IH].
Qed.
Lemma nested_ok n : ok_msg any_tables (nested_msg n) = true.
Proof.
  destruct n as [|n]; [vm_compute; reflexivity|]. pose proof (nested_bytes n) as B. cbn [nested_msg]. unfold packed.
  generalize dependent (nested n). intros b B.
  assert (Hb : bytes_okb b = true) by (apply bytes_okb_ok; exact B).
  unfold ok_msg. cbn [dm_desc dm_fields forallb].
  assert (S1 : ok_slot any_tables 0 (1, SVal (VString any_url)) = true) by (vm_compute; reflexivity).
  assert (S2 : ok_slot any_tables 0 (2, SVal (VBytes b)) = true) by exact Hb.
  rewrite S1, S2. reflexivity.
Qed.
Lemma nested_decode n : N.of_nat n < 2 ^ 57 -> msg_decode any_tables 0 (nested n) = Ok (nested_msg n).
Proof.
  intros Hn. pose proof (nested_length n) as L.
  assert (D : (msg_depth (nested_msg n) <= 100)%nat) by (destruct n; vm_compute; lia).
  assert (Ed : dm_desc (nested_msg n) = 0%nat) by (destruct n; reflexivity).
  assert (F : N.of_nat (length (nested n)) < two64) by (unfold two64; change (2 ^ 64) with (2 ^ 57 * 128); lia).
  pose proof (RoundMain.decode_encode_norm any_tables any_wf (nested_msg n) (nested n) (nested_ok n) D (nested_enc n) F) as H.
  rewrite Ed in H. rewrite H. f_equal. destruct n as [|n]; [vm_compute; reflexivity|]. cbn [nested_msg]. 
  assert (G : forall c r, norm_msg any_tables (packed any_url (c :: r)) = packed any_url (c :: r)) by reflexivity. destruct n; apply G.
Qed.
Lemma nested_as_any n : N.of_nat (S n) < 2 ^ 57 -> as_any any_tables (nested_msg (S n)) = Ok (Some (any_url, nested_msg n)).
Proof.
  intros Hn. unfold as_any. replace (negb (bytes_eqb (full_name any_tables (dm_desc (nested_msg (S n)))) any_name)) with false by reflexivity.
  rewrite nested_enc. cbn [rbind]. rewrite (nested_decode (S n)) by exact Hn. cbv zeta.
  assert (G1 : get_field_by_number any_tables (nested_msg (S n)) 1 = Some (VString any_url)) by reflexivity.
  assert (G2 : get_field_by_number any_tables (nested_msg (S n)) 2 = Some (VBytes (nested n))) by reflexivity.
  rewrite G1, G2. cbn [val_bytes]. replace (type_url_name any_url) with (Some any_name) by reflexivity. replace (find_msg any_tables any_name) with (Some 0%nat) by reflexivity.
  rewrite nested_decode by lia. reflexivity.
Qed.
Lemma nested_rows o n : row_list any_tables o (nested_msg n) <> [].
Proof.
  assert (G : forall c r, row_list any_tables o (packed any_url (c :: r)) <> []) by (destruct o as [[] [] [] [] []]; intros c r; vm_compute; discriminate).
  destruct n as [|[|n]]; [destruct o as [[] [] [] [] []]; vm_compute; discriminate|apply G|apply G].
Qed.
(** Bytes of length proportional to [n] are read as a message that needs more
    than [n] levels of Any messages to be written, although no message field is
    set in it.  The limit on the nesting of what is read does
    not limit how deep writing goes. *)
Theorem C67_no_depth_enough : forall E o n, o_expand_any o = true -> N.of_nat n < 2 ^ 57 ->
  exists b m, (length b <= 64 * S n)%nat /\ msg_decode any_tables 0 b = Ok m /\ msg_depth m = 0%nat /\ to_text E any_tables o n m = Fuel.
Proof.
  intros E o n Ho Hn. exists (nested n), (nested_msg n). split; [apply nested_length|]. split; [now apply nested_decode|]. split; [now destruct n|].
  assert (G : forall n i, N.of_nat n < 2 ^ 57 -> fmt_any E any_tables o n i (nested_msg n) = Some Fuel).
  { clear n Hn. induction n as [|n IH]; intros i Hn.
    - cbn [fmt_any]. rewrite Ho. reflexivity.
    - rewrite fmt_any_eq, Ho. replace (negb (bytes_eqb (full_name any_tables (dm_desc (nested_msg (S n)))) any_name)) with false by reflexivity.
      cbn [negb orb]. rewrite nested_as_any by exact Hn.
      rewrite (value_rows E any_tables o any_wf _ _ _ _ (nested_ok n)). pose proof (nested_rows o n) as Hr.
      destruct (row_list any_tables o (nested_msg n)); [now destruct Hr|].
      unfold braces, msg_fmt. rewrite !IH by lia. destruct (o_pretty o); reflexivity. }
  unfold to_text, fmt_message. now rewrite G.
Qed.
Print Assumptions C67_no_depth_enough.

(** ** The conditions are met *)

Lemma any_fieldsb t : tables_ok t -> forallb (fun d => negb (bytes_eqb (full_name t d) any_name) || two_fieldsb t d) (seq 0 (length (t_messages t))) = true -> any_fields t.
Proof.
  intros Ht H d En. rewrite forallb_forall in H. destruct (Nat.lt_ge_cases d (length (t_messages t))) as [L|L].
  - specialize (H d). rewrite in_seq in H. specialize (H ltac:(lia)). rewrite En in H. rewrite (proj2 (bytes_eqb_eq _ _) eq_refl) in H. now apply two_fieldsb_ok.
  - unfold full_name in En. rewrite (proj2 (nth_error_None _ _) L) in En. discriminate En.
Qed.
(** The types of prost-types and the example schemas of C60 and C66 have the
    fields of Any, and no more. *)
Example C67_plain : any_fields any_tables /\ any_fields wkt_tables /\ any_fields jex /\ any_fields (ex_any Optional).
Proof.
  split; [|split; [|split]]; apply any_fieldsb; try (vm_compute; reflexivity).
Qed.
(** An Any message in an Any message: the longest string is the outer type URL
    of 21 bytes, and two levels are needed. *)
Example C67_applies :
  wf (ex_any Optional) /\ ok_msg (ex_any Optional) packed_twice = true /\ longest (VMessage packed_twice) = 21%nat /\
  to_text ex_E (ex_any Optional) topt_default 22 packed_twice = Ok (s2b "[y/google.protobuf.Any]{[x/N]{a:1}}").
Proof. split; [split; vm_compute; reflexivity|]. vm_compute. repeat split. Qed.
(** The same in JSON, and one whose type is not known, which is refused. *)
Definition jpacked (url v : bytes) : dynmsg := DM 0 [(1, SVal (VString url)); (2, SVal (VBytes v))].
Example C67_json_applies :
  ok_msg jex (jpacked (s2b "y/google.protobuf.Any") (10 :: 15 :: s2b "z/google.x.Nope")) = true /\
  (exists e, to_json jex_externs jex jopt_default 22 (jpacked (s2b "y/google.protobuf.Any") (10 :: 15 :: s2b "z/google.x.Nope")) = JErr e) /\
  (exists j, to_json jex_externs jex jopt_default 23 (jpacked (s2b "y/google.protobuf.Any") (10 :: 23 :: s2b "z/google.protobuf.Empty")) = JOk j).
Proof.
  split; [vm_compute; reflexivity|]. split.
  - destruct (to_json jex_externs jex jopt_default 22 (jpacked (s2b "y/google.protobuf.Any") (10 :: 15 :: s2b "z/google.x.Nope"))) as [j|e| |] eqn:F; vm_compute in F; try discriminate F. now exists e.
  - destruct (to_json jex_externs jex jopt_default 23 (jpacked (s2b "y/google.protobuf.Any") (10 :: 23 :: s2b "z/google.protobuf.Empty"))) as [j|e| |] eqn:F; vm_compute in F; try discriminate F. now exists j.
Qed.
