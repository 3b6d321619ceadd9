(** C40: reading the text format comes back without a panic, and gives a
    singular field at most once. *)
From Coq Require Import String.
From Verif Require Import Base BaseProofs Wire WireProofs Unknown Value Descr Fields Codec DescrOk DescrProofs
  FieldsProofs MergeProofs EncBytes Float TextLex TextFormat TextParse TextLexProofs TextTokens TextSafe TextDup ExampleSchema.
Open Scope list_scope.
Open Scope N_scope.

(** ** What is asked of the pool *)

Fixpoint distinctb (l : list N) : bool :=
  match l with
  | [] => true
  | x :: r => negb (existsb (N.eqb x) r) && distinctb r
  end.
Definition single_at (t : tables) (d : nat) (n : N) : bool :=
  match get_field t d n with Some f => negb (is_repeated f) | None => true end.
(** no two extensions of one message share a number; the fields 1 and 2 of a
    message named google.protobuf.Any are not repeated; repeated fields are in
    no oneof *)
Definition text_saneb (t : tables) : bool :=
  forallb (fun d =>
    distinctb (map fd_number (msg_exts t d)) &&
    (negb (bytes_eqb (full_name t d) any_name) || single_at t d 1 && single_at t d 2) &&
    forallb (fun f => negb (is_repeated f) || match fd_oneof f with None => true | Some _ => false end) (msg_fields t d))
    (seq 0 (length (t_messages t))).

Lemma distinctb_NoDup l : distinctb l = true -> NoDup l.
Proof.
  induction l as [|x l IH]; cbn [distinctb]; [constructor|]. intros H. apply andb_true_iff in H. destruct H as [H1 H2].
  constructor; [|auto]. intros Hin. apply negb_true_iff in H1.
  assert (existsb (N.eqb x) l = true) by (apply existsb_exists; exists x; split; [exact Hin|apply N.eqb_refl]). congruence.
Qed.
Lemma get_field_in t d n f : tables_ok t -> get_field t d n = Some f -> In f (msg_fields t d).
Proof.
  unfold get_field, msg_fields. intros Ht. destruct (nth_error (t_messages t) d) as [m|] eqn:E; [|discriminate].
  destruct (bt_get n (m_numbers m)) as [i|] eqn:E2; [|discriminate]. intros H.
  apply bt_get_In in E2. revert H E2. generalize (m_numbers m) as l. induction l as [|[k v] l IH]; intros H; [intros []|].
  cbn [map filter_some]. intros [Hx|Hin].
  - injection Hx as -> ->. cbn [snd]. rewrite H. left. reflexivity.
  - destruct (view_at t m (snd (k, v))); [right|]; apply IH; auto.
Qed.
Lemma text_sane t : tables_ok t -> text_saneb t = true ->
  (forall d, NoDup (map fd_number (msg_exts t d))) /\
  (forall d n f, full_name t d = any_name -> n = 1 \/ n = 2 -> get_field t d n = Some f -> is_repeated f = false) /\
  (forall d n f, get_field t d n = Some f -> is_repeated f = true -> fd_oneof f = None).
Proof.
  intros Ht H. unfold text_saneb in H. rewrite forallb_forall in H.
  assert (A : forall d m, nth_error (t_messages t) d = Some m -> In d (seq 0 (length (t_messages t)))).
  { intros d m E. apply in_seq. split; [lia|]. apply nth_error_Some. congruence. }
  split; [|split].
  - intros d. destruct (nth_error (t_messages t) d) as [m|] eqn:E.
    + specialize (H d (A _ _ E)). apply andb_true_iff in H. destruct H as [H _]. apply andb_true_iff in H. apply distinctb_NoDup, H.
    + unfold msg_exts. rewrite E. constructor.
  - intros d n f En Hn Hf. destruct (nth_error (t_messages t) d) as [m|] eqn:E; [|unfold get_field in Hf; rewrite E in Hf; discriminate].
    specialize (H d (A _ _ E)). apply andb_true_iff in H. destruct H as [H _]. apply andb_true_iff in H. destruct H as [_ H].
    rewrite En, bytes_eqb_refl in H. cbn [negb orb] in H. apply andb_true_iff in H. unfold single_at in H.
    destruct Hn as [-> | ->]; rewrite Hf in H; destruct H; now apply negb_true_iff.
  - intros d n f Hf Hr. destruct (nth_error (t_messages t) d) as [m|] eqn:E; [|unfold get_field in Hf; rewrite E in Hf; discriminate].
    specialize (H d (A _ _ E)). apply andb_true_iff in H. destruct H as [_ H]. rewrite forallb_forall in H.
    specialize (H f (get_field_in _ _ _ _ Ht Hf)). rewrite Hr in H. cbn [negb orb] in H. destruct (fd_oneof f); [discriminate|reflexivity].
Qed.

(** ** Every text, into every message *)

(** For every input and every message whose contents fit its type, reading ends
    in success or in a parse error, and the message, which keeps what was read
    before an error, still fits. *)
Theorem C40_text_parsing_comes_back t m s :
  wf t -> text_saneb t = true -> ok_msg t m = true -> Forall (fun b => b < 256) s ->
  match merge_text t m s with
  | MOk m' rest => ok_msg t m' = true /\ dm_desc m' = dm_desc m /\ rest = []
  | MErr _ m' => ok_msg t m' = true /\ dm_desc m' = dm_desc m
  | MPanic | MFuel => False
  end.
Proof.
  intros Hw Hs Hm Hb. destruct (text_sane t (proj1 Hw) Hs) as (S1 & S2 & _).
  pose proof (merge_text_good t Hw S2 S1 m s (proj1 (ok_msg_iff _ _) Hm) Hb) as G.
  destruct (merge_text t m s); auto; rewrite ok_msg_iff; exact G.
Qed.

(** ** No duplicates *)

(** [steps] lists the fields given, in order, each with the message after it.
    Once a singular field that is then set has been given, which is always the
    case for a field with presence, it is not given again, nor is a member of
    a oneof it is in. *)
Definition at_most_once (t : tables) (steps : list (option fdl * dynmsg)) : Prop :=
  forall i j f g mi mj, (i < j)%nat ->
    nth_error steps i = Some (Some f, mi) -> nth_error steps j = Some (Some g, mj) ->
    singular f -> fd_presence f = true \/ has_field t mi f = true ->
    fd_number g <> fd_number f /\ ~ (exists nums, fd_oneof g = Some nums /\ In (fd_number f) nums).
(** nor is one that the message had before *)
Definition none_already_set (t : tables) (m : dynmsg) (steps : list (option fdl * dynmsg)) : Prop :=
  forall f g mg, find_desc t (dm_desc m) (fd_number f) = Some f -> singular f -> has_field t m f = true ->
    In (Some g, mg) steps -> fd_number g <> fd_number f /\ ~ (exists nums, fd_oneof g = Some nums /\ In (fd_number f) nums).

Lemma run_no_duplicates t pv m ts steps m' r : wf t -> text_saneb t = true -> full_name t (dm_desc m) <> any_name ->
  run t pv m ts steps m' r -> at_most_once t steps /\ none_already_set t m steps.
Proof.
  intros Hw Hs Hn Hr. destruct (text_sane t (proj1 Hw) Hs) as (S1 & _ & S3). split.
  - intros i j f g mi mj Hij Hi Hj Sf Hp. destruct (run_unique t Hw S1 S3 pv _ _ _ _ _ Hr Hn i f mi Hi Sf Hp) as [_ K]. eapply K; eassumption.
  - intros f g mg Hfd Sf Hh Hin. destruct (run_keeps t Hw S1 S3 pv _ _ _ _ _ Hr Hn f Sf Hfd Hh) as [_ K]. eapply K; exact Hin.
Qed.

(** A text that is accepted gives no singular field twice and no two members
    of one oneof, counting what was already in the message. *)
Theorem C40_accepted_text_has_no_duplicates t m s m' rest :
  wf t -> text_saneb t = true -> full_name t (dm_desc m) <> any_name ->
  merge_text t m s = MOk m' rest ->
  exists ts steps, lex s = Ok ts /\ run t (parse_value t (length ts)) m ts steps m' [] /\
    at_most_once t steps /\ none_already_set t m steps.
Proof.
  intros Hw Hs Hn. unfold merge_text. destruct (lex s) as [ts| | |]; try discriminate.
  intros H. destruct (fields_loop_run t _ _ _ _ _ _ H) as (steps & Hr & ->). exists ts, steps.
  split; [reflexivity|]. split; [exact Hr|]. eapply run_no_duplicates; eassumption.
Qed.
(** The same for every message inside it. *)
Theorem C40_nested_messages_have_no_duplicates t n k i ts v rest :
  wf t -> text_saneb t = true -> kind_msg k = Some i -> full_name t i <> any_name ->
  parse_value t (S n) k ts = POk v rest ->
  exists open inner steps m' close, ts = open :: inner /\ v = VMessage m' /\
    run t (parse_value t n) (new_msg i) inner steps m' (close :: rest) /\ at_most_once t steps.
Proof.
  intros Hw Hs Hk Hn. cbn [parse_value]. rewrite Hk. generalize (parse_value t n) as pv. intros pv.
  destruct (message_value (parse_field t pv) (new_msg i) ts) as [m r|e m| |] eqn:E; try discriminate. intros [= <- <-].
  unfold message_value in E. destruct ts as [|op ts]; [discriminate|].
  assert (exists angle, message_loop (S (length ts)) (parse_field t pv) angle (new_msg i) ts = MOk m r) as [angle E'].
  { destruct op; try discriminate; eexists; exact E. }
  destruct (message_loop_run t pv angle _ _ _ _ _ E') as (steps & cl & Hr & _).
  exists op, ts, steps, m, cl. split; [reflexivity|]. split; [reflexivity|]. split; [exact Hr|].
  exact (proj1 (run_no_duplicates t pv (new_msg i) _ _ _ _ Hw Hs Hn Hr)).
Qed.

Example C40_example_sane : text_saneb ex = true.
Proof. vm_compute. reflexivity. Qed.
Example C40_example_duplicates :
  parse_text ex 0 (s2b "s: 'x' s: 'y'") = MErr PAlreadySet (DM 0 [(2, SVal (VString (s2b "x")))])
  /\ parse_text ex 0 (s2b "x: 0 y: 'y'") = MErr POneofSet (DM 0 [(5, SVal (VU32 0))])
  /\ parse_text ex 0 (s2b "child { s: '' s: '' }") = MErr PAlreadySet (new_msg 0)
  /\ merge_text ex ex_m (s2b "ext2: 1") = MErr PFieldNotFound ex_m
  /\ merge_text ex ex_m (s2b "[ext2]: 1") = MErr PAlreadySet ex_m
  /\ merge_text ex ex_leaf (s2b "[ext2]: 1") = MOk (DM 0 (dm_fields ex_leaf ++ [(101, SVal (VI64 1))])) [].
Proof. vm_compute. repeat split. Qed.

(** ** Where the stronger wording fails *)

(** A singular field without presence given its default value first is
    accepted a second time. *)
Theorem C40_default_first_refuted :
  parse_text ex 0 (s2b "a: 0 a: 1") = MOk (DM 0 [(1, SVal (VI32 1))]) []
  /\ parse_text ex 0 (s2b "a: 1 a: 0") = MErr PAlreadySet (DM 0 [(1, SVal (VI32 1))]).
Proof. vm_compute. split; reflexivity. Qed.

(** try_set_field takes a plain string for a repeated string field; reading a
    text that names the field then panics. *)
Theorem C40_ill_typed_content_panics_refuted :
  exists m, try_set_field_by_number ex (new_msg 0) 9 (VString (s2b "x")) = (None, m)
    /\ merge_text ex m (s2b "names: 'y'") = MPanic.
Proof. eexists. split; [vm_compute; reflexivity|]. vm_compute. reflexivity. Qed.

(** Two extensions of one message with the same number are not rejected when a
    pool is built; if one of them is repeated the reader panics. *)
Definition ex_dup : tables := {|
  t_messages := [ ex_msg "M" [] [] [0; 1]%nat false ];
  t_enums := [];
  t_exts := [ ExtI (ex_id "" "e1") None 100 (s2b "[e1]") 0 KString false Optional None;
              ExtI (ex_id "" "e2") None 100 (s2b "[e2]") 0 KString false Repeated None ] |}.
Theorem C40_shared_extension_number_panics_refuted :
  text_saneb ex_dup = false /\
  parse_text ex_dup 0 (s2b "[e1]: 'x' [e2]: 'y'") = MPanic.
Proof. vm_compute. split; reflexivity. Qed.

(** A google.protobuf.Any whose type_url is repeated panics the same way. *)
Definition ex_any_id (name : string) : ident :=
  Ident 0 [] (s2b "google.protobuf.Any" ++ 46 :: s2b name) 20.
Definition ex_any_field (name : string) (num : N) (k : kind) (c : card) : field_inner :=
  FieldI (ex_any_id name) num (s2b name) k None false false c None.
Definition ex_any (c : card) : tables :=
  let fs := [ ex_any_field "type_url" 1 KString c; ex_any_field "value" 2 KBytes Optional ] in {|
  t_messages := [ MessageI (Ident 0 [] any_name 16) None [] fs (ex_index f_number fs 0)
                    (ex_index (fun f => id_name (f_id f)) fs 0) (ex_index f_json fs 0) [] false;
                  ex_msg "N" [ ex_field "N." "a" 1 KInt32 None false false Optional ] [] [] false ];
  t_enums := []; t_exts := [] |}.
Theorem C40_repeated_type_url_panics_refuted :
  wf (ex_any Repeated) /\ text_saneb (ex_any Repeated) = false /\
  parse_text (ex_any Repeated) 0 (s2b "[x/N] {} type_url: 'y'") = MPanic.
Proof. split; [split; vm_compute; reflexivity|]. vm_compute. split; reflexivity. Qed.

(** In an Any, the expanded form can be given several times: the last wins. *)
Theorem C40_any_given_twice_refuted :
  wf (ex_any Optional) /\ text_saneb (ex_any Optional) = true /\
  parse_text (ex_any Optional) 0 (s2b "[x/N] { a: 1 } [y/N] { a: 2 }")
  = MOk (DM 0 [(1, SVal (VString (s2b "y/N"))); (2, SVal (VBytes [8; 2]))]) [].
Proof. split; [split; vm_compute; reflexivity|]. vm_compute. split; reflexivity. Qed.

Print Assumptions C40_text_parsing_comes_back.
Print Assumptions C40_accepted_text_has_no_duplicates.
Print Assumptions C40_nested_messages_have_no_duplicates.
