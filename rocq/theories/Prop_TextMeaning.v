(** C59: the text format is read as specified.  A text is accepted exactly when
    it has a meaning for the message, and then the message becomes what it
    means; otherwise the message keeps the fields before the error. *)
From Coq Require Import String.
From Verif Require Import Base BaseProofs Wire WireProofs Unknown Value Descr Fields Codec DescrOk DescrProofs
  FieldsProofs MergeProofs EncBytes Float TextLex TextFormat TextParse TextLexProofs TextTokens TextSafe Prop_TextSafe
  TextRegex TextRegexProofs TextRegexLex TextMeaning TextMeaningProofs TextMeaningMain TextMeaningFail ExampleSchema.
Open Scope list_scope.
Open Scope N_scope.

(** The text is cut into tokens by the longest match of the patterns of the
    token definitions, for every text. *)
Theorem C59_tokens s ts : lex s = Ok ts <-> lexed s ts.
Proof. apply lex_spec. Qed.
(** and every text is cut in exactly one way *)
Theorem C59_tokens_unique s : exists ts, lexed s ts /\ forall ts', lexed s ts' -> ts' = ts.
Proof.
  destruct (lex_total s) as [ts L]. exists ts. split; [now apply lex_spec|]. intros ts' H. apply lex_spec in H. congruence.
Qed.

(** [text_means t m s m']: the text [s] turns the message [m] into [m']. *)
Definition text_means (t : tables) (m : dynmsg) (s : bytes) (m' : dynmsg) : Prop :=
  exists ts fs, lexed s ts /\ fields_text fs ts /\ means_fields t m fs m'.

(** Merging a text succeeds exactly if it has a meaning, and gives it. *)
Theorem C59_text_means t m s m' : wf t -> ok_msg t m = true ->
  (exists rest, merge_text t m s = MOk m' rest) <-> text_means t m s m'.
Proof.
  intros Hw Hm. apply ok_msg_iff in Hm. pose proof (mo_sorted _ _ Hm) as S. unfold merge_text, text_means. split.
  - intros (rest & H). destruct (lex s) as [ts| | |] eqn:L; try discriminate. apply (merge_tokens_iff t Hw) in H; [|exact S].
    destruct H as (_ & fs & T & M). exists ts, fs. split; [now apply lex_spec|]. auto.
  - intros (ts & fs & L & T & M). apply lex_spec in L. rewrite L. exists []. apply (merge_tokens_iff t Hw); [exact S|]. split; [reflexivity|]. eauto.
Qed.
(** No text means two things. *)
Theorem C59_one_meaning t m s m1 m2 : wf t -> ok_msg t m = true -> text_means t m s m1 -> text_means t m s m2 -> m1 = m2.
Proof.
  intros Hw Hm H1 H2. apply C59_text_means in H1; try assumption. apply C59_text_means in H2; try assumption.
  destruct H1 as [r1 H1], H2 as [r2 H2]. congruence.
Qed.
(** Parsing into an empty message of a type of the pool. *)
Theorem C59_parse_text_means t d s m' : wf t -> (d < length (t_messages t))%nat ->
  (exists rest, parse_text t d s = MOk m' rest) <-> text_means t (new_msg d) s m'.
Proof. intros Hw Hd. apply C59_text_means; [exact Hw|]. apply ok_msg_iff, new_msg_ok, Hd. Qed.

(** A text without a meaning is rejected, with an error. *)
Theorem C59_rejected t m s : wf t -> text_saneb t = true -> ok_msg t m = true -> Forall (fun b => b < 256) s ->
  (exists e m', merge_text t m s = MErr e m') <-> ~ exists m', text_means t m s m'.
Proof.
  intros Hw Hs Hm Hb. pose proof (C40_text_parsing_comes_back t m s Hw Hs Hm Hb) as C. split.
  - intros (e & m1 & E) (m' & M). apply C59_text_means in M; try assumption. destruct M as [r M]. congruence.
  - intros N. destruct (merge_text t m s) as [m' r|e m'| |] eqn:E; try contradiction; [|eauto].
    exfalso. apply N. exists m'. apply C59_text_means; try assumption. eauto.
Qed.
(** Then the message holds the meaning of some of the fields, from the first on,
    each of them wholly or not at all. *)
Theorem C59_rejected_keeps_the_fields_before t m s e m' : wf t -> text_saneb t = true -> ok_msg t m = true -> Forall (fun b => b < 256) s ->
  (full_name t (dm_desc m) = any_name -> exists f, get_field t (dm_desc m) 2 = Some f /\ forall b, is_valid_for t f (VBytes b) = true) ->
  merge_text t m s = MErr e m' ->
  exists fs pre post, lexed s (pre ++ post) /\ fields_text fs pre /\ means_fields t m fs m'.
Proof.
  intros Hw Hs Hm Hb A H. destruct (text_sane t (proj1 Hw) Hs) as (S1 & S2 & _). unfold merge_text in H. destruct (lex s) as [ts| | |] eqn:L; try discriminate.
  apply (merge_tokens_err t Hw S2 S1) in H; [|now apply ok_msg_iff|exact A|eapply lex_ok; eassumption].
  destruct H as (fs & pre & post & -> & T & M). exists fs, pre, post. split; [now apply lex_spec|]. auto.
Qed.

(** ** Examples *)
Definition ex_text : bytes := s2b "a: -5 # five
  p: [1, 0x10], p: 07;
  child < y: 'y' ""y\x41"" >
  mp { key: ""k"" value { a: 1 } } mp: { key: 'k' }
  e: ONE names: 'n' [ext2]: 7 d: -INF, G { f: 1 }".
Definition ex_text_msg : dynmsg := DM 0
  [ (1, SVal (VI32 (-5))); (3, SVal (VList [VI32 1; VI32 16; VI32 7]));
    (4, SVal (VMap [(MKString (s2b "k"), VMessage (new_msg 0))]));
    (7, SVal (VMessage (DM 0 [(6, SVal (VString (s2b "yyA")))])));
    (8, SVal (VMessage (DM 2 [(1, SVal (VF32 1065353216))])));
    (9, SVal (VList [VString (s2b "n")])); (11, SVal (VEnum 1)); (12, SVal (VF64 (f64_neg inf64))); (101, SVal (VI64 7)) ].
Example C59_example : text_means ex (new_msg 0) ex_text ex_text_msg.
Proof.
  apply C59_text_means; [exact ex_wf|vm_compute; reflexivity|]. exists []. vm_compute. reflexivity.
Qed.
(** by the rules of the specification alone: one field *)
Example C59_example_by_rules : exists fs,
  fields_text fs [TIdent (s2b "a"); TColon; TMinus; TInt (s2b "5") 10; TSemi] /\ means_fields ex (new_msg 0) fs (DM 0 [(1, SVal (VI32 (-5)))]).
Proof.
  exists [TField (FIdent (s2b "a")) (TOne (TLit [TMinus; TInt (s2b "5") 10]))]. split.
  - apply (fst_cons _ _ [TIdent (s2b "a")] [TColon] [TMinus; TInt (s2b "5") 10] [TSemi] [] []); auto; [constructor| |constructor].
    constructor. constructor. apply (lt_int (s2b "5") 10 true).
  - econstructor; [|constructor]. change (DM 0 [(1, SVal (VI32 (-5)))]) with (set_to (new_msg 0) (ex_f 1) (VI32 (-5))).
    apply (mf_one ex (new_msg 0) (FIdent (s2b "a")) (ex_f 1)); try reflexivity.
    + change (s2b "a") with (fd_name (ex_f 1)). apply na_field; [|reflexivity]. vm_compute. left. reflexivity.
    + intros nums k H. discriminate H.
    + apply mv_lit; [reflexivity|]. apply (sy_i32 ex KInt32); [left; reflexivity| |lia]. exists true, 5. split; [|reflexivity]. exists (s2b "5"), 10. split; reflexivity.
Qed.
Definition ex_rejects (s : bytes) (m' : dynmsg) : Prop := (~ exists m, text_means ex (new_msg 0) s m) /\ exists e, merge_text ex (new_msg 0) s = MErr e m'.
Lemma ex_rejected s m' e : forallb (fun b => b <? 256) s = true -> merge_text ex (new_msg 0) s = MErr e m' -> ex_rejects s m'.
Proof.
  intros Hb H. split; [|eauto]. apply C59_rejected; [exact ex_wf|vm_compute; reflexivity|vm_compute; reflexivity| |eauto].
  apply Forall_forall. intros b Hin. rewrite forallb_forall in Hb. apply Hb in Hin. now apply N.ltb_lt.
Qed.
Example C59_rejections :
  ex_rejects (s2b "child { a: 1 >") (new_msg 0) /\
  ex_rejects (s2b "x: 1 y: ''") (DM 0 [(5, SVal (VU32 1))]) /\
  ex_rejects (s2b "a: 1 a: 2") (DM 0 [(1, SVal (VI32 1))]) /\
  ex_rejects (s2b "a: 2147483648") (new_msg 0) /\
  ex_rejects (s2b "x: -1") (new_msg 0) /\
  ex_rejects (s2b "a 1") (new_msg 0) /\
  ex_rejects (s2b "p: [1,]") (new_msg 0) /\
  ex_rejects (s2b "a: 1 'x") (DM 0 [(1, SVal (VI32 1))]).
Proof. repeat split; try (eapply ex_rejected; vm_compute; reflexivity); eexists; vm_compute; reflexivity. Qed.

Print Assumptions C59_tokens.
Print Assumptions C59_tokens_unique.
Print Assumptions C59_text_means.
Print Assumptions C59_one_meaning.
Print Assumptions C59_parse_text_means.
Print Assumptions C59_rejected.
Print Assumptions C59_rejected_keeps_the_fields_before.
