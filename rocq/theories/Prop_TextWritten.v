(** C66: a message is written in the text format the way the specification
    TextWritten.v says. *)
From Coq Require Import String Sorted.
From Verif Require Import Base BaseProofs Wire Unknown Value Descr Fields Codec DescrOk DescrProofs FieldsProofs Float
  TextFormat TextRound Prop_TextSafe Prop_TextRound JsonMeaning Prop_JsonWritten TextWritten TextWrittenAll TextWrittenDeeper ExampleSchema JsonSer Prop_JsonRound.
Open Scope list_scope.
Open Scope N_scope.

(** ** C66 *)

(** The bytes written for a message are exactly those the specification
    gives. *)
Theorem C66_writes : forall E t o m b, wf t -> ok_msg t m = true ->
  (exists n, to_text E t o n m = Ok b) <-> text_of E t o m b.
Proof. intros E t o m b Hw Hm. now apply text_iff. Qed.
Print Assumptions C66_writes.

(** Writing neither fails nor panics. *)
Theorem C66_never_fails : forall E t o m n, wf t -> ok_msg t m = true ->
  to_text E t o n m = Fuel \/ exists b, to_text E t o n m = Ok b /\ text_of E t o m b.
Proof. intros E t o m n Hw Hm. destruct (text_good E t o Hw n m Hm); auto. Qed.
Print Assumptions C66_never_fails.

(** How deep Any messages may be nested changes nothing but whether writing
    ends. *)
Theorem C66_depth : forall E t o m n n', wf t -> ok_msg t m = true -> (n <= n')%nat ->
  to_text E t o n m <> Fuel -> to_text E t o n' m = to_text E t o n m.
Proof.
  intros E t o m n n' Hw Hm Hn H. induction Hn as [|n' Hn IH]; [reflexivity|].
  destruct (to_text_deeper E t o Hw n' m Hm) as [F|F]; congruence.
Qed.
Print Assumptions C66_depth.

(** There is at most one text. *)
Theorem C66_one_text : forall E t o m b b', wf t -> ok_msg t m = true ->
  text_of E t o m b -> text_of E t o m b' -> b = b'.
Proof.
  intros E t o m b b' Hw Hm H1 H2. destruct (text_deep E t o Hw m b Hm H1) as [n1 D1]. destruct (text_deep E t o Hw m b' Hm H2) as [n2 D2].
  specialize (D1 (Nat.max n1 n2) ltac:(lia)). specialize (D2 (Nat.max n1 n2) ltac:(lia)). congruence.
Qed.
Print Assumptions C66_one_text.

(** The name shown for the number of an enum is that of one of the values
    with the number, and there is none only if no value has the number. *)
Definition text_search_spec (E : text_externs) : Prop := forall l z, Sorted (fun a b => (fst a <= fst b)%Z) l ->
  match tx_search E l z with Some i => exists j, nth_error l i = Some (z, j) | None => forall j, ~ In (z, j) l end.
Theorem C66_enum_names : forall E t e en z, text_search_spec E -> nth_error (t_enums t) e = Some en -> numbers_listed en ->
  match enum_name E t e z with
  | Some s => exists v, In v (e_values en) /\ ev_number v = z /\ id_name (ev_id v) = s
  | None => forall v, In v (e_values en) -> ev_number v <> z
  end.
Proof.
  intros E t e en z HS He [Hs Hn]. unfold enum_name. rewrite He. specialize (HS (e_numbers en) z Hs).
  destruct (tx_search E (e_numbers en) z) as [i|].
  - destruct HS as [j Hj]. rewrite Hj. pose proof (nth_error_In _ _ Hj) as Hin. apply Hn in Hin. destruct Hin as (v & Hv & Hz). rewrite Hv. cbn [option_map].
    exists v. split; [eapply nth_error_In; eauto|auto].
  - intros v Hv Hz. apply In_nth_error in Hv. destruct Hv as [j Hj]. apply (HS j). apply Hn. eauto.
Qed.
Print Assumptions C66_enum_names.


(** ** Examples *)

Definition short_all : topt := TOpt false false true true false.
Definition long_all : topt := TOpt true false true true true.
Definition every : topt := TOpt false true true false false.
Definition written_m : dynmsg := DM 0
  [ (1, SVal (VI32 (-5))); (2, SVal (VString [116; 9; 34; 195; 169]));
    (4, SVal (VMap [(MKString (s2b "k"), VMessage ex_leaf); (MKString [], VMessage (new_msg 0))]));
    (8, SVal (VMessage (DM 2 [(1, SVal (VF32 1065353216))])));
    (9, SVal (VList [VString (s2b "p"); VString []])); (11, SVal (VEnum 1));
    (12, SVal (VF64 4611686018427387904));
    (50, SUnk [UVarint 50 7; ULen 50 [8; 1]; ULen 50 [104; 105]; U32 50 [1; 2; 3; 255];
               UGroup 50 [ULen 3 []]]);
    (101, SVal (VI64 7)) ].

(** A message with a map, a group, a list, an enum, unknown fields of every
    sort and an extension, in both layouts. *)
Example written_case :
  ok_msg ex written_m = true /\
  to_text ex_E ex short_all 0 written_m = Ok (s2b
"a:-5,s:""t\t\""\303\251"",mp:[{key:""k"",value{a:-5,y:""yy""}},{key:"""",value{}}],G{f:1.0},names:[""p"",""""],e:ONE,d:2.0,50:7,50{1:1},50{13:105},50:0xff030201,50{3:""""},[ext2]:7") /\
  to_text ex_E ex long_all 0 written_m = Ok (s2b
"a: -5
s: ""t\t\""\303\251""
mp: [{
  key: ""k""
  value {
    a: -5
    y: ""yy""
  }
}, {
  key: """"
  value {}
}]
G {
  f: 1.0
}
names: [""p"", """"]
e: ONE
d: 2.0
50: 7
50 {
  1: 1
}
50 {
  13: 105
}
50: 0xff030201
50 {
  3: """"
}
[ext2]: 7").
Proof. vm_compute. repeat split. Qed.

(** Without the option that leaves unset fields out. *)
Example written_every :
  to_text ex_E ex every 0 ex_leaf =
  Ok (s2b "a:-5,p:[],mp:[],y:""yy"",names:[],bs:"""",e:ZERO,d:0.0,ms:[]").
Proof. vm_compute. reflexivity. Qed.

(** An Any message is shown as the message it packs, at depth 1 but not at
    depth 0; and so is an Any inside an Any. *)
Definition packed (url : bytes) (v : bytes) : dynmsg :=
  DM 0 [(1, SVal (VString url)); (2, SVal (VBytes v))].
Definition packed_n : dynmsg := packed (s2b "x/N") [8; 1; 16; 5].
Definition packed_twice : dynmsg :=
  packed (s2b "y/google.protobuf.Any") (10 :: 3 :: s2b "x/N" ++ [18; 2; 8; 1]).
Example written_any :
  ok_msg (ex_any Optional) packed_twice = true /\
  to_text ex_E (ex_any Optional) topt_default 1 packed_n = Ok (s2b "[x/N]{a:1}") /\
  to_text ex_E (ex_any Optional) topt_default 1 packed_twice = Fuel /\
  to_text ex_E (ex_any Optional) topt_default 2 packed_twice =
    Ok (s2b "[y/google.protobuf.Any]{[x/N]{a:1}}").
Proof. vm_compute. repeat split. Qed.

(** A message is shown as the message it packs only where there is something
    to show: an Any message with no field set, inside another message, is
    shown as an empty pair of braces. *)
Example written_nothing :
  to_text ex_E (ex_any Optional) topt_default 2
    (packed (s2b "y/google.protobuf.Any") []) = Ok (s2b "[y/google.protobuf.Any]{}").
Proof. vm_compute. reflexivity. Qed.

(** The conditions of [C66_enum_names] are met. *)
Definition first_at : text_externs := TextExterns (find_number 0) (tx_show32 ex_E) (tx_show64 ex_E).
Example C66_enum_applies : text_search_spec first_at /\ exists en, nth_error (t_enums ex) 0 = Some en /\ numbers_listed en.
Proof.
  split.
  - intros l z _. pose proof (jrx_search l z) as F. cbn [Json.jx_search jrx] in F. cbn [tx_search first_at]. destruct (find_number 0 l z) as [i|] eqn:Ei; [now apply F|]. exact (find_number_none l z 0 Ei).
  - destruct (nth_error (t_enums ex) 0) as [en|] eqn:F; [|vm_compute in F; discriminate F]. exists en. split; [reflexivity|]. vm_compute in F. injection F as <-.
    split; [repeat constructor; cbn; lia|]. intros z j. cbn [e_numbers e_values In]. split.
    + intros [[= <- <-]|[[= <- <-]|[]]]; eexists; split; reflexivity.
    + intros (v & Hv & <-). destruct j as [|[|j]]; [injection Hv as <-; auto|injection Hv as <-; auto|]. destruct j; discriminate Hv.
Qed.
