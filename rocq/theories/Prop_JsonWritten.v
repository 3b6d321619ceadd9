(** C61: a message is written as JSON the way the mapping says.  The
    specification is JsonWritten.v. *)
From Coq Require Import String Sorted.
From Verif Require Import Base BaseProofs Wire Unknown Value Descr Fields Codec DescrOk DescrProofs FieldsProofs MergeProofs Float
  TextFormat Json JsonSer JsonDe Prop_JsonRound JsonWritten JsonWrittenAll JsonWrittenTotal ExampleSchema ExampleJson.
Open Scope list_scope.
Open Scope N_scope.

(** ** C61 *)

(** A message is written as a document exactly if the document shows it. *)
Theorem C61_writes : forall E t o m j, wf t -> ok_msg t m = true ->
  (exists n, to_json E t o n m = JOk j) <-> msg_shown E t o m j.
Proof. intros E t o m j Hw Hm. now apply written_iff. Qed.
Print Assumptions C61_writes.

(** How deep Any messages may be nested changes nothing but whether writing
    ends. *)
Theorem C61_depth : forall E t o m n n', wf t -> ok_msg t m = true -> (n <= n')%nat ->
  to_json E t o n m <> JFuel -> to_json E t o n' m = to_json E t o n m.
Proof. intros. now apply to_json_deeper. Qed.
Print Assumptions C61_depth.

(** There is at most one such document. *)
Theorem C61_one_document : forall E t o m j j', wf t -> ok_msg t m = true ->
  msg_shown E t o m j -> msg_shown E t o m j' -> j = j'.
Proof.
  intros E t o m j j' Hw Hm H1 H2. apply C61_writes in H1; auto. apply C61_writes in H2; auto. destruct H1 as [n H1], H2 as [n' H2].
  pose proof (C61_depth E t o m n (Nat.max n n') Hw Hm ltac:(lia)) as D1. pose proof (C61_depth E t o m n' (Nat.max n n') Hw Hm ltac:(lia)) as D2.
  rewrite H1 in D1. rewrite H2 in D2. rewrite D1 in D2 by discriminate. injection (D2 ltac:(discriminate)). auto.
Qed.
Print Assumptions C61_one_document.

(** Writing does not panic, and when it fails no document shows the message. *)
Theorem C61_fails : forall E t o m n, wf t -> ok_msg t m = true ->
  to_json E t o n m <> JPanic /\ forall e, to_json E t o n m = JErr e -> forall j, ~ msg_shown E t o m j.
Proof.
  intros E t o m n Hw Hm. split; [apply (proj1 (to_json_okr E t o Hw n m Hm))|]. intros e He j Hj. apply C61_writes in Hj; auto. destruct Hj as [n' Hj].
  pose proof (C61_depth E t o m n (Nat.max n n') Hw Hm ltac:(lia)) as D1. pose proof (C61_depth E t o m n' (Nat.max n n') Hw Hm ltac:(lia)) as D2.
  rewrite He in D1. rewrite Hj in D2. rewrite D1 in D2 by discriminate. discriminate (D2 ltac:(discriminate)).
Qed.
Print Assumptions C61_fails.

(** The name shown for the number of an enum is that of one of the values
    with the number, and there is none only if no value has the number. *)
Definition json_search_spec (E : json_externs) : Prop := forall l z, Sorted (fun a b => (fst a <= fst b)%Z) l ->
  match jx_search E l z with Some i => exists j, nth_error l i = Some (z, j) | None => forall j, ~ In (z, j) l end.
(** the index of an enum lists its values by number *)
Definition numbers_listed (en : enum_inner) : Prop :=
  Sorted (fun a b => (fst a <= fst b)%Z) (e_numbers en) /\
  forall z j, In (z, j) (e_numbers en) <-> exists v, nth_error (e_values en) j = Some v /\ ev_number v = z.
Theorem C61_enum_names : forall E t e en z, json_search_spec E -> nth_error (t_enums t) e = Some en -> numbers_listed en ->
  match json_enum_name E t e z with
  | Some s => exists v, In v (e_values en) /\ ev_number v = z /\ id_name (ev_id v) = s
  | None => forall v, In v (e_values en) -> ev_number v <> z
  end.
Proof.
  intros E t e en z HS He [Hs Hn]. unfold json_enum_name, enum_name. rewrite He. cbn [tx_search]. specialize (HS (e_numbers en) z Hs).
  destruct (jx_search E (e_numbers en) z) as [i|].
  - destruct HS as [j Hj]. rewrite Hj. pose proof (nth_error_In _ _ Hj) as Hin. apply Hn in Hin. destruct Hin as (v & Hv & Hz). rewrite Hv. cbn [option_map].
    exists v. split; [eapply nth_error_In; eauto|auto].
  - intros v Hv Hz. apply In_nth_error in Hv. destruct Hv as [j Hj]. apply (HS j). apply Hn. eauto.
Qed.
Print Assumptions C61_enum_names.

(** ** Examples *)
Definition plain : jopt := {| j_stringify := true; j_enum_numbers := false; j_proto_names := false; j_skip_default := true |}.
Definition full : jopt := {| j_stringify := true; j_enum_numbers := true; j_proto_names := true; j_skip_default := false |}.
Definition shown_m : dynmsg :=
  DM 18 [(1, SVal (VI32 (-7))); (2, SVal (VString (s2b "z"))); (3, SVal (VList [VMessage (DM 5 [(4, SVal (VBool true))])]));
         (9, SVal (VMessage (DM 18 [(8, SVal (VString [])); (100, SVal (VI32 7))]))); (11, SVal (VEnum 1)); (12, SVal (VList [VEnum 1; VEnum 5]));
         (14, SVal (VF32 inf32)); (16, SVal (VBytes [0; 255]));
         (19, SVal (VMap [(MKString (s2b "k"), VMessage (DM 18 []))]))].
Example shown_ok : wf jex /\ ok_msg jex shown_m = true.
Proof. split; [exact jex_wf|vm_compute; reflexivity]. Qed.
Example C61_example : msg_shown jrx jex plain shown_m
  (JObj [(s2b "a", JInt (-7)); (s2b "myName", JStr (s2b "z")); (s2b "vs", JArr [JBool true]);
         (s2b "child", JObj [(s2b "y", JStr []); (s2b "[ext]", JInt 7)]);
         (s2b "e", JStr (s2b "ONE")); (s2b "es", JArr [JStr (s2b "ONE"); JInt 5]); (s2b "f", JStr (s2b "Infinity"));
         (s2b "bs", JStr (s2b "AP8=")); (s2b "mp", JObj [(s2b "k", JObj [])])]).
Proof. destruct shown_ok. apply C61_writes; auto. exists O. vm_compute. reflexivity. Qed.
(** fields without presence are written unless defaults are skipped *)
Example C61_example_full : msg_shown jrx jex full (DM 18 [(11, SVal (VEnum 1))])
  (JObj [(s2b "a", JInt 0); (s2b "my_name", JStr []); (s2b "vs", JArr []); (s2b "ns", JArr []); (s2b "n", JNull); (s2b "e", JInt 1); (s2b "es", JArr []);
         (s2b "ms", JArr []); (s2b "f", JF32 0); (s2b "d", JF64 0); (s2b "bs", JStr []); (s2b "dvs", JArr []); (s2b "mp", JObj [])]).
Proof. apply C61_writes; [exact jex_wf|vm_compute; reflexivity|]. exists O. vm_compute. reflexivity. Qed.
(** an Any in an Any *)
Definition inner_any : dynmsg := DM 0 [(1, SVal (VString (s2b "x/M"))); (2, SVal (VBytes [8; 3]))].
Definition outer_any : dynmsg :=
  DM 0 [(1, SVal (VString (s2b "a/google.protobuf.Any"))); (2, SVal (VBytes ([10; 3] ++ s2b "x/M" ++ [18; 2; 8; 3])))].
Example C61_any : msg_shown jrx jex plain outer_any
  (JObj [(s2b "@type", JStr (s2b "a/google.protobuf.Any")); (s2b "value", JObj [(s2b "@type", JStr (s2b "x/M")); (s2b "a", JInt 3)])]).
Proof. apply C61_writes; [exact jex_wf|vm_compute; reflexivity|]. exists 2%nat. vm_compute. reflexivity. Qed.
(** a message that nothing shows *)
Example C61_nothing : forall j, ~ msg_shown jrx jex plain (DM 18 [(10, SVal (VMessage (DM 1 [(1, SVal (VI64 253402300800))])))]) j.
Proof.
  apply (proj2 (C61_fails jrx jex plain (DM 18 [(10, SVal (VMessage (DM 1 [(1, SVal (VI64 253402300800))])))]) 0 jex_wf eq_refl) XTimestamp). vm_compute. reflexivity.
Qed.
Lemma find_number_none l z : forall k, find_number k l z = None -> forall j, ~ In (z, j) l.
Proof.
  induction l as [|[z' i] l IH]; intros k H j Hin; [destruct Hin|]. cbn [find_number] in H. destruct (Z.eqb_spec z' z) as [->|Hne]; [discriminate|].
  destruct Hin as [E|Hin]; [congruence|]. exact (IH _ H j Hin).
Qed.
Example C61_enum_applies : json_search_spec jrx /\ exists en, nth_error (t_enums jex) 1 = Some en /\ numbers_listed en.
Proof.
  split.
  - intros l z _. pose proof (jrx_search l z) as S. destruct (jx_search jrx l z) as [i|] eqn:Ei; [now apply S|]. exact (find_number_none l z 0 Ei).
  - destruct (nth_error (t_enums jex) 1) as [en|] eqn:E; [|vm_compute in E; discriminate E]. exists en. split; [reflexivity|]. vm_compute in E. injection E as <-.
    split; [repeat constructor; cbn; lia|]. intros z j. cbn [e_numbers e_values In]. split.
    + intros [[= <- <-]|[[= <- <-]|[]]]; eexists; split; reflexivity.
    + intros (v & Hv & <-). destruct j as [|[|j]]; [injection Hv as <-; auto|injection Hv as <-; auto|]. destruct j; discriminate Hv.
Qed.
