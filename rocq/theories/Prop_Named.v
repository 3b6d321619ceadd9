(** Pools built from files that have what protoc guarantees: text and JSON work
    for them (C70). *)
From Coq Require Import String.
From Verif Require Import Base BaseProofs Wire WireProofs Unknown Value Descr Fields Codec DescrOk DescrProofs Proto Build
  RoundSpec RoundSame RoundMain ItemRound AgreeProofs CompatSpec Compat Bulk History EventProofs BuildResolve BuildInv
  TextLex TextLexProofs TextFormat TextParse TextScalars TextRound Prop_TextSafe Prop_TextRound
  Json JsonSer JsonDe JsonWkt JsonSafe JsonTree JsonScalarBack JsonRound Prop_JsonSafe Prop_JsonRules Prop_JsonRound
  DeclSpec DeclProofs PoolFacts PoolMembers ExampleFiles Prop_History Prop_Declared SaneSpec BridgeProofs Prop_Bridge NamedSpec NamedProofs NamedJson.
From Coq Require Import List.
Import ListNotations.
Local Open Scope list_scope.
Local Open Scope N_scope.

(** ** What is asked of the pool *)

(** A pool made by successful adds of files that have what their Rust types and
    protoc guarantee, of each file (SaneSpec.v, NamedSpec.v) and of all of them:
    the extensions of one message have different numbers. *)
Record from_protoc (X : externs) (p : pool) : Prop := {
  fpr_search : search_ok X;
  fpr_floats : floats_ok X;
  fpr_grown : grown X p;
  fpr_typed : Forall typed_file (pool_files p);
  fpr_protoc : Forall protoc_file (pool_files p);
  fpr_named : Forall named_file (pool_files p);
  fpr_exts : forall d, NoDup (map fd_number (msg_exts (p_tables p) d))
}.
(** a message of type [d], made by any sequence of valid calls *)
Definition made (p : pool) (d : nat) (m : dynmsg) : Prop :=
  (d < length (p_messages p))%nat /\ history (p_tables p) (vok (p_tables p)) (wok (p_tables p)) d m.

Lemma from_protoc_wf X p : from_protoc X p -> wf (p_tables p).
Proof. intros []. eapply C57_pools_are_wf; eassumption. Qed.
Lemma made_ok X p d m : from_protoc X p -> made p d m -> ok_msg (p_tables p) m = true.
Proof. intros F [Hd H]. exact (C11_nested _ d m (from_protoc_wf _ _ F) Hd H). Qed.
Lemma from_protoc_text X p : from_protoc X p -> text_okb (p_tables p) = true.
Proof. intros []. eapply pool_text_ok; eassumption. Qed.
Lemma from_protoc_json X p E o : from_protoc X p -> (j_proto_names o = true -> Forall names_apart (pool_files p)) ->
  (j_skip_default o = false -> zeros_back E (p_tables p)) -> json_schemab E o (p_tables p) = true.
Proof. intros [] A B. eapply pool_json_ok; eassumption. Qed.

(** ** Text *)

(** What the text writer writes for a message is read back as a message that
    agrees with it on every field and extension, at every depth.  Not asked of
    the schema any more (C38): only that unknown fields are skipped, that Any is
    not expanded, and that the message has no floats whose text is not read as
    the same float and no negative zeros where there is no presence. *)
Theorem C70_text_round_trip X p E o n d m :
  from_protoc X p -> made p d m ->
  search_finds E -> o_skip_unknown o = true -> no_any (p_tables p) o -> zero_reads E o ->
  floats_back E (VMessage m) = true -> zeros_shown (p_tables p) (negb (o_skip_default o)) (VMessage m) = true ->
  exists b m', to_text E (p_tables p) o n m = Ok b /\ parse_text (p_tables p) (dm_desc m) b = MOk m' [] /\ agree_msg (p_tables p) m m'.
Proof.
  intros F M. intros. apply C38_text_round_trip; auto;
    [exact (from_protoc_wf _ _ F)|exact (from_protoc_text _ _ F)|exact (made_ok _ _ _ _ F M)].
Qed.
Print Assumptions C70_text_round_trip.

(** The layout options do not change what the text means (C41). *)
Theorem C70_layout X p E o o' n d m :
  from_protoc X p -> made p d m ->
  search_finds E -> same_fields o o' -> o_skip_unknown o = true -> no_any (p_tables p) o -> zero_reads E o ->
  floats_back E (VMessage m) = true ->
  exists b b' m', to_text E (p_tables p) o n m = Ok b /\ to_text E (p_tables p) o' n m = Ok b' /\
    parse_text (p_tables p) (dm_desc m) b = MOk m' [] /\ parse_text (p_tables p) (dm_desc m) b' = MOk m' [].
Proof.
  intros F M. intros. apply C41_pretty_and_compact_agree; auto;
    [exact (from_protoc_wf _ _ F)|exact (from_protoc_text _ _ F)|exact (made_ok _ _ _ _ F M)].
Qed.
Print Assumptions C70_layout.

Lemma from_protoc_sane X p : from_protoc X p ->
  (forall d, full_name (p_tables p) d = any_name -> single_at (p_tables p) d 1 = true /\ single_at (p_tables p) d 2 = true) ->
  text_saneb (p_tables p) = true.
Proof.
  intros [SO FL G TY PF NF DX] A. unfold text_saneb. apply forallb_forall. intros d _. rewrite !andb_true_iff. repeat split.
  - apply NoDup_distinctb. apply DX.
  - destruct (bytes_eqb (full_name (p_tables p) d) any_name) eqn:E; [|reflexivity]. apply bytes_eqb_eq in E. destruct (A _ E) as [-> ->]. reflexivity.
  - apply forallb_forall. intros v Hv. destruct (in_fields X p SO FL G TY _ _ Hv) as (mi & j & fi & Hm & Hfi & ->).
    destruct (field_named X p SO G _ _ _ _ Hm Hfi) as (f & dm & scope & fd & g & k & df & n0 & path & Hf & Hd & _ & _ & Hfd & _ & _ & _ & _ & _ & ->).
    unfold is_repeated. cbn [field_view BuildQuiet.field_of fd_card f_card fd_oneof f_oneof].
    destruct (card_eqb (fp_label fd) Repeated) eqn:C; [|reflexivity]. cbn [negb orb]. apply repeated_iff in C.
    assert (protoc_file f) as P by (rewrite Forall_forall in PF; apply PF; eapply nth_error_In; exact Hf).
    rewrite (proj1 (pf_repeated _ P _ _ _ (de_field _ _ _ _ _ _ Hd Hfd) C)). reflexivity.
Qed.
(** Reading any bytes as text into any message gives a message of the same type
    or an error, and never panics (C40), if type_url and value of
    google.protobuf.Any are what they should be. *)
Theorem C70_text_reading X p d m s :
  from_protoc X p -> made p d m -> bytes_ok s ->
  (forall d, full_name (p_tables p) d = any_name -> single_at (p_tables p) d 1 = true /\ single_at (p_tables p) d 2 = true) ->
  match merge_text (p_tables p) m s with
  | MOk m' rest => ok_msg (p_tables p) m' = true /\ dm_desc m' = dm_desc m /\ rest = []
  | MErr _ m' => ok_msg (p_tables p) m' = true /\ dm_desc m' = dm_desc m
  | MPanic | MFuel => False
  end.
Proof.
  intros F M Hb A. apply C40_text_parsing_comes_back;
    [exact (from_protoc_wf _ _ F)|exact (from_protoc_sane _ _ F A)|exact (made_ok _ _ _ _ F M)|exact Hb].
Qed.
Print Assumptions C70_text_reading.

(** ** JSON *)

(** The document written for a message is read back as a message that agrees
    with it (C42).  With field names instead of JSON names, no field may have
    the name of another as its JSON name; with defaults written, zeros must be
    read as zeros. *)
Theorem C70_json_round_trip X p E o deny n d m :
  from_protoc X p -> made p d m ->
  (j_proto_names o = true -> Forall names_apart (pool_files p)) -> (j_skip_default o = false -> zeros_back E (p_tables p)) ->
  standard_types (p_tables p) -> json_search_finds E -> survives E (p_tables p) o deny n m ->
  exists j m', to_json E (p_tables p) o n m = JOk j /\ from_json E (p_tables p) deny (dm_desc m) (carried E j) = JOk m' /\
    jagree (p_tables p) (VMessage m) (VMessage m') /\ ok_msg (p_tables p) m' = true /\ dm_desc m' = dm_desc m.
Proof.
  intros F M NA Z. intros. apply C42_json_round_trip; auto;
    [exact (from_protoc_wf _ _ F)|exact (from_protoc_json _ _ _ _ F NA Z)|exact (made_ok _ _ _ _ F M)].
Qed.
Print Assumptions C70_json_round_trip.

(** Reading any document gives a message of the type or an error (C53). *)
Theorem C70_json_reading X p E deny d j :
  from_protoc X p -> (d < length (p_messages p))%nat -> times_fit E ->
  json_okb false j = true \/ json_okb true j = true /\ no_null_listsb (p_tables p) = true ->
  match from_json E (p_tables p) deny d j with
  | JOk m => ok_msg (p_tables p) m = true /\ dm_desc m = d
  | JErr _ => True
  | JPanic | JFuel => False
  end.
Proof.
  intros F Hd T J. apply C53_json_reading_comes_back; auto; [exact (from_protoc_wf _ _ F)|]. destruct F. apply exts_distinct_ok; assumption.
Qed.
Print Assumptions C70_json_reading.

(** ** The hypotheses are met *)

Definition identifierb (s : str) : bool := ident_okb s.
Lemma identifierb_ok s : identifierb s = true -> identifier s.
Proof.
  destruct s as [|c r]; [discriminate|]. cbn. intros H. apply andb_true_iff in H. destruct H as [A B].
  exists c, r. split; [reflexivity|]. split; [now apply letter_start|]. apply Forall_forall. intros x Hx. rewrite forallb_forall in B. specialize (B x Hx).
  unfold ident_char in B. apply orb_true_iff in B. destruct B as [B|B]; [left; now apply letter_start|right].
  apply andb_true_iff in B. rewrite !N.leb_le in B. exact B.
Qed.
Definition is_none {A} (o : option A) : bool := match o with None => true | Some _ => false end.
Definition is_groupb (ty : ptype) : bool := match ty with TGroup => true | _ => false end.
Definition proto3b (f : file) : bool := match fl_syntax f with Some s => bytes_eqb s b_proto3 | None => false end.
Definition group_ok (full : str) (x : fproto) : bool :=
  match fp_type_name x with
  | c :: s => let n := skipn (S (length full)) s in
              (c =? 46) && bytes_eqb s (dotted full n) && bytes_eqb (fp_name x) (small_letters n)
  | [] => false
  end.
Definition entry_ok (x : fproto) : bool :=
  (negb (fp_number x =? 1)%Z || bytes_eqb (fp_name x) (s2b "key") && is_none (fp_oneof x)) &&
  (negb (fp_number x =? 2)%Z || bytes_eqb (fp_name x) (s2b "value") && is_none (fp_oneof x) && negb (is_groupb (fp_type x))).
Definition unbracketed (j : option str) : bool := match j with Some (c :: _) => negb (c =? 91) | _ => true end.
Definition msgb (full : str) (p3 : bool) (m : dproto) : bool :=
  forallb (fun x =>
    (negb (is_groupb (fp_type x)) || group_ok full x) &&
    (negb (card_eqb (fp_label x) Repeated || p3) || is_none (fp_default x)) &&
    (negb (dp_map_entry m) || entry_ok x) && unbracketed (fp_json x)) (dp_fields m).
Definition itemsb (p : pool) : bool :=
  forallb (fun e => match ev_item e with Some it => identifierb (item_name it) | None => true end &&
                    match e with
                    | EvMessage _ full f _ _ m => match nth_error (pool_files p) f with Some fl => msgb full (proto3b fl) m | None => false end
                    | _ => true
                    end) (pool_events p).
Lemma is_none_ok {A} (o : option A) : is_none o = true -> o = None.
Proof. destruct o; [discriminate|reflexivity]. Qed.
Lemma itemsb_ok p : itemsb p = true -> Forall (fun f => fl_package f = [] \/ dotted_name (fl_package f)) (pool_files p) -> Forall named_file (pool_files p).
Proof.
  intros H Pk. apply Forall_forall. intros f Hf. rewrite Forall_forall in Pk. specialize (Pk f Hf). apply In_nth_error in Hf. destruct Hf as [k Hf].
  unfold itemsb in H. rewrite forallb_forall in H.
  assert (forall path scope m x, message_at f path scope m -> In x (dp_fields m) ->
    ((negb (is_groupb (fp_type x)) || group_ok (dotted scope (dp_name m)) x) = true /\
     (negb (card_eqb (fp_label x) Repeated || proto3b f) || is_none (fp_default x)) = true /\
     (negb (dp_map_entry m) || entry_ok x) = true /\ unbracketed (fp_json x) = true)) as Q.
  { intros path scope m x D Hx. destruct (declared_event p k f path scope _ Hf (de_message _ _ _ _ D)) as (e & He & K & Pa & Fu & Ei).
    specialize (H _ He). apply andb_true_iff in H. destruct H as [_ H]. destruct e; try discriminate. cbn in K, Fu, Ei. inversion Ei; subst. rewrite Hf in H. unfold msgb in H. rewrite forallb_forall in H. specialize (H _ Hx). rewrite !andb_true_iff in H. cbn [item_name] in *. tauto. }
  constructor.
  - exact Pk.
  - intros path scope it D. destruct (declared_event p k f path scope it Hf D) as (e & He & _ & _ & _ & Ei).
    specialize (H _ He). rewrite Ei in H. apply andb_true_iff in H. apply identifierb_ok. apply H.
  - intros path scope m x D Hx T. destruct (Q _ _ _ _ D Hx) as (Q1 & _). rewrite T in Q1. cbn [is_groupb negb orb] in Q1. unfold group_ok in Q1.
    destruct (fp_type_name x) as [|c s]; [discriminate|]. cbv zeta in Q1. rewrite !andb_true_iff in Q1. destruct Q1 as [[A B] C].
    apply N.eqb_eq in A. apply bytes_eqb_eq in B, C. subst c. eexists. split; [f_equal; exact B|exact C].
  - intros path scope m x D Hx T. destruct (Q _ _ _ _ D Hx) as (_ & Q2 & _). apply is_none_ok.
    assert (card_eqb (fp_label x) Repeated || proto3b f = true) as E; [|rewrite E in Q2; exact Q2].
    apply orb_true_iff. destruct T as [T|T]; [left; now apply repeated_iff|right]. unfold proto3b. rewrite T. apply bytes_eqb_refl.
  - intros path scope m x D Me Hx. destruct (Q _ _ _ _ D Hx) as (_ & _ & Q3 & _). rewrite Me in Q3. cbn [negb orb] in Q3. unfold entry_ok in Q3.
    apply andb_true_iff in Q3. destruct Q3 as [A B]. split; intros Z; rewrite Z in *; cbn [Z.eqb Pos.eqb negb orb] in *.
    + apply andb_true_iff in A. destruct A as [A1 A2]. apply bytes_eqb_eq in A1. apply is_none_ok in A2. auto.
    + rewrite !andb_true_iff in B. destruct B as [[B1 B2] B3]. apply bytes_eqb_eq in B1. apply is_none_ok in B2. split; [exact B1|]. split; [exact B2|].
      intros T. rewrite T in B3. discriminate.
  - intros path scope m x D Hx j Ej (s & ->). destruct (Q _ _ _ _ D Hx) as (_ & _ & _ & Q4). rewrite Ej in Q4. discriminate.
Qed.

(** a map, a oneof, defaults, a group, an enum and extensions *)
Definition file_named : file :=
  File (b "named.proto") (b "q") [] [] []
    [DP (b "M")
        [fld "m" 1 Repeated TMessage "M.MEntry";
         FP (b "s_t") None 2 Optional TString [] (Some (b "dflt")) (Some 0%Z) None None false;
         FP (b "y") None 3 Optional TBytes [] (Some (b "\001\xff")) (Some 0%Z) (Some (b "why")) None false;
         FP (b "i") None 4 Optional TSint32 [] (Some (b "-7")) None None None false;
         FP (b "e") None 5 Optional TEnum (b "E") (Some (b "NEG")) None None None false;
         fld "grp" 6 Repeated TGroup ".q.M.Grp"]
        [] [DP (b "MEntry") [fld "key" 1 Optional TString ""; fld "value" 2 Optional TEnum "E"] [] [] [] [] [] true [];
            DP (b "Grp") [fld "a" 1 Optional TInt32 ""] [] [] [] [] [] false []] []
        [(100, 200)%Z] [b "choice"] false []]
    [EP (b "E") [(b "ZERO", 0%Z); (b "NEG", (-5)%Z)] [] None] []
    [FP (b "x") (Some (b "M")) 100 Repeated TInt32 [] None None None (Some (Some true)) false;
     FP (b "z") (Some (b "M")) 101 Optional TMessage (b "M") None None None None false]
    None.
Definition pool_named : pool := built (build_files demo_externs 10 empty_pool [file_named]).
Lemma built_named : build_files demo_externs 10 empty_pool [file_named] = Built pool_named.
Proof. vm_compute. reflexivity. Qed.
Lemma grown_named : grown demo_externs pool_named.
Proof. apply (gr_built _ 10 empty_pool [file_named] _ (gr_empty _)); [repeat constructor; discriminate|exact built_named]. Qed.

Definition named_m : dynmsg :=
  DM 0 [(1, SVal (VMap [(MKString (s2b "k"), VEnum (-5))])); (2, SVal (VString (s2b "t"))); (4, SVal (VI32 3));
        (6, SVal (VList [VMessage (DM 2 [(1, SVal (VI32 8))])])); (100, SVal (VList [VI32 1; VI32 2]));
        (101, SVal (VMessage (DM 0 [(3, SVal (VBytes [7]))])))].
Lemma named_from_protoc : from_protoc demo_externs pool_named.
Proof.
  constructor.
  - exact demo_search.
  - exact demo_floats.
  - exact grown_named.
  - apply typedb_ok. vm_compute. reflexivity.
  - apply protocb_ok. vm_compute. reflexivity.
  - apply itemsb_ok; [vm_compute; reflexivity|]. assert (pool_files pool_named = [file_named]) as -> by (vm_compute; reflexivity).
    constructor; [|constructor]. right. apply dn_one. apply identifierb_ok. reflexivity.
  - apply exts_distinct. vm_compute. reflexivity.
Qed.
Definition named_bytes : list N := match enc_msg (p_tables pool_named) named_m with Ok b => b | _ => [] end.
Lemma named_made : made pool_named 0 named_m.
Proof.
  split; [vm_compute; lia|]. apply (h_call _ _ _ _ (new_msg 0) named_m (h_new _ _ _ _)).
  apply (c_merge _ _ _ _ named_bytes _ []); [apply bytes_okb_ok; vm_compute; reflexivity|vm_compute; reflexivity].
Qed.
Lemma named_no_wkt d : wkt_of (p_tables pool_named) d = None.
Proof.
  do 3 (destruct d as [|d]; [vm_compute; reflexivity|]).
  assert (full_name (p_tables pool_named) (3 + d) = []) as Hn.
  { unfold full_name. rewrite (proj2 (nth_error_None (t_messages (p_tables pool_named)) (3 + d))) by (vm_compute; lia). reflexivity. }
  change (wkt_of (p_tables pool_named) (3 + d) = None). unfold wkt_of. rewrite Hn. vm_compute. reflexivity.
Qed.

Lemma named_no_any d : full_name (p_tables pool_named) d <> any_name.
Proof.
  do 3 (destruct d as [|d]; [vm_compute; discriminate|]).
  assert (full_name (p_tables pool_named) (3 + d) = []) as Hn.
  { unfold full_name. rewrite (proj2 (nth_error_None (t_messages (p_tables pool_named)) (3 + d))) by (vm_compute; lia). reflexivity. }
  change (full_name (p_tables pool_named) (3 + d) <> any_name). rewrite Hn. discriminate.
Qed.

Example C70_text_applies : exists txt m',
  to_text ex_E (p_tables pool_named) topt_default 0 named_m = Ok txt /\
  txt = s2b "m:[{key:""k"",value:NEG}],s_t:""t"",i:3,Grp:[{a:8}],[q.x]:[1,2],[q.z]{y:""\007""}" /\
  parse_text (p_tables pool_named) 0 txt = MOk m' [] /\ agree_msg (p_tables pool_named) named_m m'.
Proof.
  destruct (C70_text_round_trip demo_externs pool_named ex_E topt_default 0 0 named_m) as (txt & m' & A & B & C);
    [exact named_from_protoc|exact named_made|exact ex_search_finds|reflexivity|right; exact named_no_any|discriminate|vm_compute; reflexivity|vm_compute; reflexivity|].
  exists txt, m'. split; [exact A|]. split; [|split; [exact B|exact C]]. vm_compute in A. inversion A. reflexivity.
Qed.
Example C70_text_reading_applies : forall s, bytes_ok s ->
  match merge_text (p_tables pool_named) named_m s with MOk _ _ | MErr _ _ => True | MPanic | MFuel => False end.
Proof.
  intros s Hs. pose proof (C70_text_reading _ _ 0 named_m s named_from_protoc named_made Hs) as H.
  assert (forall d, full_name (p_tables pool_named) d = any_name -> single_at (p_tables pool_named) d 1 = true /\ single_at (p_tables pool_named) d 2 = true) as A.
  { intros d Hd. destruct (named_no_any d Hd). }
  specialize (H A). destruct (merge_text _ _ _); auto.
Qed.
Lemma named_apart : Forall names_apart (pool_files pool_named).
Proof.
  assert (pool_files pool_named = [file_named]) as -> by (vm_compute; reflexivity). constructor; [|constructor].
  intros path scope m x y D. assert (In m (fl_messages file_named ++ flat_map dp_nested (fl_messages file_named))) as Hm.
  { induction D as [j m H|path scope m j n D IH H]; [apply in_or_app; left; eapply nth_error_In; exact H|].
    cbn in IH. destruct IH as [<-|[<-|[<-|[]]]]; cbn in H.
    - apply in_or_app. right. apply nth_error_In in H. cbn. tauto.
    - destruct j; discriminate.
    - destruct j; discriminate. }
  clear D. cbn in Hm. destruct Hm as [<-|[<-|[<-|[]]]]; cbn [dp_fields In]; intros Hx Hy;
    repeat (destruct Hx as [<-|Hx]; [repeat (destruct Hy as [<-|Hy]; [vm_compute; first [reflexivity|discriminate]|]); destruct Hy|]); destruct Hx.
Qed.
Example C70_json_applies : forall o deny n, exists j m',
  to_json jrx (p_tables pool_named) o n named_m = JOk j /\
  from_json jrx (p_tables pool_named) deny 0 (carried jrx j) = JOk m' /\
  jagree (p_tables pool_named) (VMessage named_m) (VMessage m').
Proof.
  intros o deny n. destruct (C70_json_round_trip demo_externs pool_named jrx o deny n 0 named_m) as (j & m' & A & B & C & _).
  - exact named_from_protoc.
  - exact named_made.
  - intros _. exact named_apart.
  - intros _. split; [reflexivity|]. split; [reflexivity|]. intros e. unfold is_null_enum.
    do 2 (destruct e as [|e]; [vm_compute; discriminate|]). vm_compute. discriminate.
  - intros d w. rewrite named_no_wkt. discriminate.
  - exact jrx_search.
  - apply jsafeb_ok. destruct o as [? ? ? []]; vm_compute; reflexivity.
  - exists j, m'. auto.
Qed.
