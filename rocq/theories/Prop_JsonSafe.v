(** C53: reading a JSON document ends in an error or in a message whose
    contents fit its type; it never panics. *)
From Coq Require Import String.
From Verif Require Import Base BaseProofs Wire Unknown Value Descr Fields Codec DescrOk DescrProofs
  FieldsProofs MergeProofs Float TextFormat TextParse Json JsonSer JsonDe JsonSafe Prop_TextSafe ExampleSchema ExampleJson.
Open Scope list_scope.
Open Scope N_scope.

(** ** What is asked of the pool *)

(** null stands for a value of this field's type *)
Definition takes_null (t : tables) (f : fdl) : bool :=
  match fd_kind f with
  | KMessage d | KGroup d => bytes_eqb (full_name t d) (s2b "google.protobuf.Value")
  | KEnum e => bytes_eqb (enum_full t e) (s2b "google.protobuf.NullValue")
  | _ => false
  end.
(** no two extensions of one message share a number *)
Definition exts_distinctb (t : tables) : bool :=
  forallb (fun d => distinctb (map fd_number (msg_exts t d))) (seq 0 (length (t_messages t))).
(** no repeated field or map has Value or NullValue as its elements' type *)
Definition no_null_listsb (t : tables) : bool :=
  forallb (fun d => forallb (fun f => negb (is_repeated f) || negb (takes_null t f)) (msg_fields t d ++ msg_exts t d))
    (seq 0 (length (t_messages t))).
(** the times that the parsers of prost_types give are Rust integers *)
Definition times_fit (E : json_externs) : Prop :=
  forall s a b, jx_parse_timestamp E s = Some (a, b) \/ jx_parse_duration E s = Some (a, b) ->
  i64_ok a = true /\ i32_ok b = true.

Lemma exts_distinct t : exts_distinctb t = true -> forall d, NoDup (map fd_number (msg_exts t d)).
Proof.
  intros H d. unfold exts_distinctb in H. rewrite forallb_forall in H.
  destruct (nth_error (t_messages t) d) as [m|] eqn:Em.
  - apply distinctb_NoDup, H, in_seq. split; [lia|]. apply nth_error_Some. congruence.
  - unfold msg_exts. rewrite Em. constructor.
Qed.
Lemma no_null_lists t d n f : tables_ok t -> no_null_listsb t = true ->
  find_desc t d n = Some f -> is_repeated f = true -> takes_null t f = false.
Proof.
  intros Ht H Hf Hr. unfold no_null_listsb in H. rewrite forallb_forall in H.
  assert (A : (d < length (t_messages t))%nat /\ In f (msg_fields t d ++ msg_exts t d)).
  { unfold find_desc in Hf. destruct (get_field t d n) as [h|] eqn:Eg.
    - injection Hf as ->. split; [|apply in_or_app; left; exact (get_field_in _ _ _ _ Ht Eg)].
      unfold get_field in Eg. apply nth_error_Some. destruct (nth_error (t_messages t) d); congruence.
    - destruct (get_ext_inv _ _ _ _ Ht Hf) as (_ & Hin & _). split; [|apply in_or_app; right; exact Hin].
      unfold msg_exts in Hin. apply nth_error_Some. destruct (nth_error (t_messages t) d); [congruence|destruct Hin]. }
  destruct A as [A1 A2]. specialize (H d). rewrite forallb_forall in H. specialize (H ltac:(apply in_seq; lia) f A2).
  rewrite Hr in H. cbn in H. now apply negb_true_iff.
Qed.
Lemma no_null t f : takes_null t f = false -> null_field t f = JOk None.
Proof. unfold takes_null, null_field, is_null_enum. destruct (fd_kind f); cbn [kind_msg]; intros H; rewrite ?H; reflexivity. Qed.

(** ** Every document *)

(** Any document that holds valid strings and no null member, and with
    [no_null_listsb] any document at all.  [json_okb true] asks only that
    strings are UTF-8 and that numbers are those of Rust. *)
Theorem C53_json_reading_comes_back : forall E t deny d j,
  wf t -> exts_distinctb t = true -> times_fit E -> (d < length (t_messages t))%nat ->
  json_okb false j = true \/ json_okb true j = true /\ no_null_listsb t = true ->
  match from_json E t deny d j with
  | JOk m => ok_msg t m = true /\ dm_desc m = d
  | JErr _ => True
  | JPanic | JFuel => False
  end.
Proof.
  intros E t deny d j Hw Hx He Hd Hj.
  assert (G : jgood (fun m => ok_msg t m = true /\ dm_desc m = d) (from_json E t deny d j)).
  { destruct Hj as [Hj|[Hj Hn]].
    - apply (from_json_good E t deny false Hw (exts_distinct _ Hx)); auto; try discriminate; intros s a b H; apply (He s); auto.
    - apply (from_json_good E t deny true Hw (exts_distinct _ Hx)); auto; try (intros s a b H; apply (He s); auto).
      intros _ d' n f Hf Hr. apply no_null. eapply no_null_lists; try eassumption. apply Hw. }
  destruct (from_json E t deny d j); auto.
Qed.
Print Assumptions C53_json_reading_comes_back.

(** Without [no_null_listsb] null puts a single value where the field's type
    asks for a list. *)
Theorem C53_null_list_refuted :
  exists t d f j m, wf t /\ exts_distinctb t = true /\ find_desc t d (fd_number f) = Some f /\ fd_is_list f = true /\
    json_okb true j = true /\ from_json jex_externs t true d j = JOk m /\ ok_msg t m = false /\
    match get_field_by_number t m (fd_number f) with Some (VList _) => False | Some _ => True | None => False end.
Proof.
  destruct (get_field jex 18 3) as [f|] eqn:Ef; [|vm_compute in Ef; discriminate Ef].
  exists jex, 18%nat, f, (JObj [(s2b "vs", JNull)]), (DM 18 [(3, SVal (wvalue 1 (VEnum 0)))]).
  vm_compute in Ef. injection Ef as <-.
  split; [exact jex_wf|]. repeat split; vm_compute; reflexivity.
Qed.
Print Assumptions C53_null_list_refuted.

(** ** Examples *)
Example C53_applies : wf ex /\ exts_distinctb ex = true /\ times_fit jex_externs /\ no_null_listsb ex = true.
Proof.
  split; [exact ex_wf|]. split; [vm_compute; reflexivity|]. split; [|vm_compute; reflexivity]. intros s a b [H|H]; discriminate H.
Qed.
Example C53_example :
  from_json jex_externs jex true 18
    (JObj [(s2b "myName", JStr (s2b "z")); (s2b "y", JStr (s2b "q")); (s2b "vs", JArr [JNull; JBool true]);
           (s2b "child", JObj [(s2b "a", JInt 3); (s2b "[ext]", JStr (s2b "7"))]); (s2b "e", JStr (s2b "ONE"))]) =
  JOk (DM 18 [(2, SVal (VString (s2b "z")));
              (3, SVal (VList [wvalue 1 (VEnum 0); wvalue 4 (VBool true)]));
              (8, SVal (VString (s2b "q")));
              (9, SVal (VMessage (DM 18 [(1, SVal (VI32 3)); (100, SVal (VI32 7))])));
              (11, SVal (VEnum 1))]).
Proof. vm_compute. reflexivity. Qed.
