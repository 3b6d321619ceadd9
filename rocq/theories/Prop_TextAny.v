(** C38, C41 and C70 for messages with expanded Any messages inside. *)
From Coq Require Import String.
From Verif Require Import Base BaseProofs Wire Unknown Value Descr Fields Codec DescrOk DescrProofs MergeProofs RoundSpec RoundSame Bulk CompatSpec
  ItemRound TextLex TextFormat TextParse TextLexProofs TextScalars TextRound Json JsonRound Prop_TextRound Prop_Text TextWritten RenewAny TextAny
  Prop_TextSafe Build Prop_Named.
Open Scope list_scope.
Open Scope N_scope.

(** ** C38

    Any messages that hold a message of a type in the pool are written as
    [[domain/name] { ... }] and read back: the message read agrees with the one
    written on every field at every depth ([jagree]), where an Any may hold
    other bytes if they are the encoding of a message that agrees with the one
    held before (C38_expanded_any_refuted shows that they can differ).
    Conditions beyond those of C38_text_round_trip: google.protobuf.Any is
    declared as in any.proto, and every expanded Any inside ([each_message], at
    every depth) has a type URL that can stand between the brackets and holds a
    message that itself can be read back ([any_readable]; C49_unusual_url_refuted
    is why).  [n] bounds how deep Any messages are nested in each other. *)
Theorem C38_any_round_trip E t o n m :
  wf t -> text_okb t = true -> search_finds E -> o_skip_unknown o = true -> o_expand_any o = true -> zero_reads E o -> any_declared t ->
  ok_msg t m = true -> floats_back E (VMessage m) = true ->
  zeros_shown t (negb (o_skip_default o)) (VMessage m) = true ->
  each_message (any_readable E t (negb (o_skip_default o)) n) (VMessage m) ->
  exists b m', to_text E t o n m = Ok b /\ parse_text t (dm_desc m) b = MOk m' [] /\
    jagree t (VMessage m) (VMessage m') /\ ok_msg t m' = true /\ dm_desc m' = dm_desc m.
Proof.
  intros Hw Ht Hs Hu Hx Hz Hd Hm Hf Hzs Ha. destruct (text_okb_ok t Hw Ht) as [H1 H2 H3 H4 H5 H6].
  destruct o as [p u x s i]. cbn [o_skip_unknown o_expand_any o_skip_default] in *. subst u x.
  assert (Hzero : negb s = true -> reads32 E 0 = true /\ reads64 E 0 = true) by (intros Hn; apply Hz; now apply negb_true_iff in Hn).
  destruct (text_any_parses E t Hw p (negb s) i) with (n := n) (m := m) as (b & Eb & Pb); auto.
  destruct (reread_good E t Hw p (negb s) i) with (n := n) (m := m) as (G1 & G2 & G3); auto.
  rewrite negb_involutive in Eb. exists b. eexists. split; [exact Eb|]. split; [exact Pb|]. split; [exact (G3 Hzs)|]. split; [exact G2|exact G1].
Qed.
Print Assumptions C38_any_round_trip.

(** ** C41: the layout of the text does not matter there either *)
Theorem C41_any_layout E t o o' n m :
  wf t -> text_okb t = true -> search_finds E -> same_fields o o' -> o_skip_unknown o = true -> o_expand_any o = true -> zero_reads E o -> any_declared t ->
  ok_msg t m = true -> floats_back E (VMessage m) = true ->
  each_message (any_readable E t (negb (o_skip_default o)) n) (VMessage m) ->
  exists b b' m', to_text E t o n m = Ok b /\ to_text E t o' n m = Ok b' /\
    parse_text t (dm_desc m) b = MOk m' [] /\ parse_text t (dm_desc m) b' = MOk m' [].
Proof.
  intros Hw Ht Hs (S1 & S2 & S3 & S4) Hu Hx Hz Hd Hm Hf Ha. destruct (text_okb_ok t Hw Ht) as [H1 H2 H3 H4 H5 H6].
  destruct o as [p u x s i]. destruct o' as [p' u' x' s' i']. cbn [o_skip_unknown o_expand_any o_skip_default o_index_order] in *. subst u' x' s' i'. subst u x.
  assert (Hzero : negb s = true -> reads32 E 0 = true /\ reads64 E 0 = true) by (intros Hn; apply Hz; now apply negb_true_iff in Hn).
  destruct (text_any_parses E t Hw p (negb s) i) with (n := n) (m := m) as (b & Eb & Pb); auto.
  destruct (text_any_parses E t Hw p' (negb s) i) with (n := n) (m := m) as (b' & Eb' & Pb'); auto.
  rewrite negb_involutive in Eb, Eb'. exists b, b'. eexists. split; [exact Eb|]. split; [exact Eb'|]. split; [exact Pb|exact Pb'].
Qed.
Print Assumptions C41_any_layout.

(** ** C70: for every pool built from files protoc accepts *)
Theorem C70_text_any X p E o n d m :
  from_protoc X p -> made p d m ->
  search_finds E -> o_skip_unknown o = true -> o_expand_any o = true -> zero_reads E o -> any_declared (p_tables p) ->
  floats_back E (VMessage m) = true -> zeros_shown (p_tables p) (negb (o_skip_default o)) (VMessage m) = true ->
  each_message (any_readable E (p_tables p) (negb (o_skip_default o)) n) (VMessage m) ->
  exists b m', to_text E (p_tables p) o n m = Ok b /\ parse_text (p_tables p) (dm_desc m) b = MOk m' [] /\
    jagree (p_tables p) (VMessage m) (VMessage m') /\ ok_msg (p_tables p) m' = true /\ dm_desc m' = dm_desc m.
Proof.
  intros F M. intros. apply C38_any_round_trip; auto;
    [exact (from_protoc_wf _ _ F)|exact (from_protoc_text _ _ F)|exact (made_ok _ _ _ _ F M)].
Qed.
Print Assumptions C70_text_any.

(** ** The conditions can be met: an Any in an Any, in both layouts *)
Definition any_n : dynmsg := DM 0 [(1, SVal (VString (s2b "x.y/N"))); (2, SVal (VBytes [8; 1; 16; 5]))].
Definition any_any : dynmsg := DM 0
  [(1, SVal (VString (s2b "z/google.protobuf.Any"))); (2, SVal (VBytes ([10; 5] ++ s2b "x.y/N" ++ [18; 4; 8; 1; 16; 5])))].
Definition ex_t : tables := ex_any Optional.
Lemma ex_t_wf : wf ex_t. Proof. split; vm_compute; reflexivity. Qed.
Lemma ex_declared : any_declared ex_t.
Proof.
  intros d Hd d' Hd'. apply Nat.eqb_eq in Hd'. subst d'.
  assert (d = 0%nat) as ->. { destruct d as [|[|d]]; [reflexivity|discriminate Hd|]. cbn in Hd. destruct d; discriminate Hd. }
  split; [cbn; lia|]. split; [|intros n; exact I].
  repeat constructor.
Qed.
Lemma ex_expands m url body url' body' : ok_msg ex_t m = true -> as_any ex_t m = Ok (Some (url', body')) -> expands ex_t m url body -> url = url' /\ body = body'.
Proof.
  intros Hm H He. pose proof (proj1 (TextWrittenRows.expands_as_any ex_t topt_default ex_t_wf m url body Hm He)) as H'. rewrite H in H'. injection H' as -> ->. auto.
Qed.
Lemma ex_readable : each_message (any_readable ex_E ex_t false 2) (VMessage any_any).
Proof.
  split; [|repeat split]. intros _ url body He.
  apply (ex_expands any_any url body (s2b "z/google.protobuf.Any") any_n) in He; [|vm_compute; reflexivity|vm_compute; reflexivity]. destruct He as [-> ->].
  split; [vm_compute; repeat constructor|]. split; [vm_compute; reflexivity|].
  split; [exists (s2b "z"), (s2b "google.protobuf.Any"); split; [reflexivity|]; split; [cbn; intros H; repeat (destruct H as [H|H]; [discriminate H|]); exact H|split; reflexivity]|].
  split; [reflexivity|]. split; [reflexivity|].
  split; [|repeat split]. intros _ url body He.
  apply (ex_expands any_n url body (s2b "x.y/N") (DM 1 [(1, SVal (VI32 1)); (2, SUnk [UVarint 2 5])])) in He; [|vm_compute; reflexivity|vm_compute; reflexivity]. destruct He as [-> ->].
  split; [vm_compute; repeat constructor|]. split; [vm_compute; reflexivity|].
  split; [exists (s2b "x.y"), (s2b "N"); split; [reflexivity|]; split; [cbn; intros H; repeat (destruct H as [H|H]; [discriminate H|]); exact H|split; reflexivity]|].
  split; [reflexivity|]. split; [reflexivity|].
  split; [|repeat split]. discriminate.
Qed.
Example C38_any_applies : exists m',
  to_text ex_E ex_t topt_default 2 any_any = Ok (s2b "[z/google.protobuf.Any]{[x.y/N]{a:1}}") /\
  to_text ex_E ex_t (TOpt true true true true false) 2 any_any = Ok (s2b "[z/google.protobuf.Any] {
  [x.y/N] {
    a: 1
  }
}") /\
  parse_text ex_t 0 (s2b "[z/google.protobuf.Any]{[x.y/N]{a:1}}") = MOk m' [] /\ jagree ex_t (VMessage any_any) (VMessage m').
Proof.
  destruct (C38_any_round_trip ex_E ex_t topt_default 2 any_any) as (b & m' & Eb & Pb & A & _).
  - exact ex_t_wf.
  - vm_compute; reflexivity.
  - exact ex_search_finds.
  - reflexivity.
  - reflexivity.
  - discriminate.
  - exact ex_declared.
  - vm_compute; reflexivity.
  - vm_compute; reflexivity.
  - vm_compute; reflexivity.
  - exact ex_readable.
  - assert (T : to_text ex_E ex_t topt_default 2 any_any = Ok (s2b "[z/google.protobuf.Any]{[x.y/N]{a:1}}")) by (vm_compute; reflexivity).
    exists m'. split; [exact T|]. split; [vm_compute; reflexivity|]. split; [|exact A].
    rewrite T in Eb. injection Eb as <-. exact Pb.
Qed.
