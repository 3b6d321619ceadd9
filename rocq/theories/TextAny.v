(** C38 with expanded Any messages: the text [dom/name] { ... } is read back as
    an Any that holds a message with the same data. *)
From Coq Require Import String.
From Verif Require Import Base BaseProofs Wire WireProofs LoopProofs Unknown UnknownProofs
  Value Descr Fields Codec DescrOk DescrProofs FieldsProofs LenProofs MergeProofs RoundSpec RoundProofs
  RoundMain RoundSame EncBytes Bulk CompatSpec Compat ItemRound Float TextLex TextFormat TextParse TextLexProofs TextInts TextTokens TextSafe TextScalars
  TextRound Json JsonRound JsonWkt JsonSafe Prop_Transcode Prop_Decode Prop_TextRound TextWritten TextWrittenRows RenewAny.
Open Scope list_scope.
Open Scope N_scope.

(** ** Conditions *)

(** messages named google.protobuf.Any are declared as in any.proto: a string
    type_url with number 1, bytes value with number 2, and nothing else *)
Definition any_declared (t : tables) : Prop := forall d, full_name t d = any_name ->
  compatible t any_tables (Nat.eqb d) (fun _ => 0%nat).

(** the type URL can stand between brackets: dotted names on both sides of
    its last slash *)
Definition url_writable (url : str) : Prop :=
  exists dom name, url = dom ++ 47 :: name /\ ~ In 47 name /\ dotted_okb dom = true /\ dotted_okb name = true.

(** [m], if it is an Any that is expanded: its URL can be written, and what it
    holds can be written and read back, with up to [n] more Any messages nested
    in each other *)
Fixpoint any_readable (E : text_externs) (t : tables) (full : bool) (n : nat) (m : dynmsg) : Prop :=
  full_name t (dm_desc m) = any_name ->
  match n with
  | O => False
  | S n' => forall url body, expands t m url body ->
      (msg_depth m <= 100)%nat /\ bulk_msg m < 2 ^ 64 /\ url_writable url /\
      floats_back E (VMessage body) = true /\ zeros_shown t full (VMessage body) = true /\
      each_message (any_readable E t full n') (VMessage body)
  end.

Lemma field_value_msg o m r : field_value o (VMessage m) r = let! x := r in Ok (padding o ++ x).
Proof. unfold field_value. destruct r; reflexivity. Qed.
Lemma fmt_msg_kind E t o any m ind k k' : fmt_value E t o any (VMessage m) ind k = fmt_value E t o any (VMessage m) ind k'.
Proof. destruct m. reflexivity. Qed.

Section TextAny.
  Variables (E : text_externs) (t : tables).
  Hypothesis Hwf : wf t.
  Let Ht : tables_ok t := proj1 Hwf.
  Variables pretty full idx : bool.
  Let o := TOpt pretty true true (negb full) idx.
  Hypothesis Hsearch : forall l z i, tx_search E l z = Some i -> exists j, nth_error l i = Some (z, j).
  Hypothesis Henum : forall e, enum_text_okb t e = true.
  Hypothesis Hop : oneofs_present t.
  Hypothesis Hdp : defaults_plain t.
  Hypothesis Hname : forall d f, get_field t d (fd_number f) = Some f ->
    ident_okb (print_name t f) = true /\ find_field t d (print_name t f) = Some f.
  Hypothesis Hext : forall d f, get_ext t d (fd_number f) = Some f ->
    dotted_okb (fd_full f) = true /\ get_ext_by_full t d (fd_full f) = Some f.
  Hypothesis Hentry : forall d n f e kf vf, find_desc t d n = Some f -> fd_is_map f = true -> kind_msg (fd_kind f) = Some e ->
    entry_key t e = Some kf -> entry_value t e = Some vf ->
    find_field t e (s2b "key") = Some kf /\ find_field t e (s2b "value") = Some vf /\
    fd_oneof kf = None /\ fd_oneof vf = None.
  Hypothesis Hzero : full = true -> reads32 E 0 = true /\ reads64 E 0 = true.
  Hypothesis Hdecl : any_declared t.

  (** *** The fields of an Any *)
  Record any_part (d : nat) (n : N) (k : kind) (f : fdl) : Prop := {
    ap_get : get_field t d n = Some f;
    ap_num : fd_number f = n;
    ap_kind : fd_kind f = k;
    ap_list : fd_is_list f = false;
    ap_map : fd_is_map f = false;
    ap_oneof : fd_oneof f = None;
    ap_presence : fd_presence f = false;
    ap_default : fd_default f = None;
    ap_like : exists f', get_field any_tables 0 n = Some f' /\ field_like t any_tables (Nat.eqb d) (fun _ => 0%nat) f f'
  }.
  Lemma any_part_of d n k : full_name t d = any_name -> (n = 1 /\ k = KString) \/ (n = 2 /\ k = KBytes) -> exists f, any_part d n k f.
  Proof.
    intros Hn Hc. pose proof (like_field t any_tables (Nat.eqb d) (fun _ => 0%nat) Hwf any_wf (Hdecl d Hn) d n (Nat.eqb_refl d)) as L.
    unfold opt_like in L.
    assert (G : exists f', get_field any_tables 0 n = Some f' /\ fd_kind f' = k /\ fd_card f' = Optional /\ fd_is_map f' = false /\ fd_oneof f' = None /\ fd_presence f' = false /\ fd_default f' = None).
    { assert (Q : forall o', match o' with Some f' => fd_kind f' = k /\ fd_card f' = Optional /\ fd_is_map f' = false /\ fd_oneof f' = None /\ fd_presence f' = false /\ fd_default f' = None | None => False end ->
        exists f', o' = Some f' /\ fd_kind f' = k /\ fd_card f' = Optional /\ fd_is_map f' = false /\ fd_oneof f' = None /\ fd_presence f' = false /\ fd_default f' = None) by (intros [f'|] H; [exists f'; auto|contradiction]).
      apply Q. destruct Hc as [[-> ->]|[-> ->]]; vm_compute; auto 10. }
    destruct G as (f' & G & Gk & Gc & Gm & Go & Gp & Gd). cbv beta in L. rewrite G in L. destruct (get_field t d n) as [f|] eqn:Ef; [|contradiction].
    exists f. destruct L as [L1 L2 L3 L4 L5 L6 L7 L8]. constructor; auto.
    - apply (get_field_number _ _ _ _ Ht Ef).
    - rewrite Gk in L2. destruct Hc as [[_ ->]|[_ ->]]; destruct (fd_kind f); try contradiction; try discriminate L2; reflexivity.
    - unfold fd_is_list. rewrite L3, Gc. reflexivity.
    - rewrite L8. exact Gm.
    - rewrite L6. exact Go.
    - rewrite L5. exact Gp.
    - rewrite L7. exact Gd.
    - exists f'. split; [exact G|]. constructor; assumption.
  Qed.
  Lemma part_ok m n k f : any_part (dm_desc m) n k f -> ok_msg t m = true -> ok_field t f (get_field_value t m f) = true.
  Proof.
    intros P Hm. apply ok_msg_iff in Hm. destruct m as [d fs]. eapply (stored_ok t Hwf); [exact Hm|].
    pose proof (ap_get _ _ _ _ P) as Hg. cbn [dm_desc] in Hg. unfold find_desc. rewrite (ap_num _ _ _ _ P), Hg. reflexivity.
  Qed.
  Lemma part_string m f : any_part (dm_desc m) 1 KString f -> ok_msg t m = true -> exists s, get_field_value t m f = VString s.
  Proof.
    intros P Hm. pose proof (part_ok _ _ _ _ P Hm) as H. destruct P as [_ _ Pk Pl Pm _ _ _ _].
    destruct (get_field_value t m f) as [b|z|z|x|x|x|x|s|s|z|[d' fs']|vs|kvs]; cbn [ok_field] in H; rewrite ?Pk, ?Pl, ?Pm in H; try discriminate H. eauto.
  Qed.
  Lemma part_bytes m f : any_part (dm_desc m) 2 KBytes f -> ok_msg t m = true -> exists s, get_field_value t m f = VBytes s.
  Proof.
    intros P Hm. pose proof (part_ok _ _ _ _ P Hm) as H. destruct P as [_ _ Pk Pl Pm _ _ _ _].
    destruct (get_field_value t m f) as [b|z|z|x|x|x|x|s|s|z|[d' fs']|vs|kvs]; cbn [ok_field] in H; rewrite ?Pk, ?Pl, ?Pm in H; try discriminate H. eauto.
  Qed.

  (** what as_any finds is what the fields of the message hold *)
  Lemma any_holds m url body : ok_msg t m = true -> (msg_depth m <= 100)%nat -> bulk_msg m < 2 ^ 64 -> expands t m url body ->
    exists f1 f2 b pre name i, any_part (dm_desc m) 1 KString f1 /\ any_part (dm_desc m) 2 KBytes f2 /\
      get_field_value t m f1 = VString url /\ get_field_value t m f2 = VBytes b /\
      url = pre ++ 47 :: name /\ ~ In 47 name /\ find_msg t name = Some i /\ msg_decode t i b = Ok body.
  Proof.
    intros Hm Hdep Hbulk (Hn & b & x & v & pre & name & i & A1 & A2 & A3 & A4 & A5 & A6 & A7 & A8).
    destruct (any_part_of (dm_desc m) 1 KString Hn) as [f1 P1]; [now left|].
    destruct (any_part_of (dm_desc m) 2 KBytes Hn) as [f2 P2]; [now right|].
    destruct (part_string _ _ P1 Hm) as [s1 V1]. destruct (part_bytes _ _ P2 Hm) as [s2 V2].
    destruct (transcoded t any_tables (Nat.eqb (dm_desc m)) (fun _ => 0%nat) Hwf any_wf (Hdecl _ Hn) m b (Nat.eqb_refl _) Hm Hdep A1) as [T _].
    { exact (bulk_fits t Hwf m Hm Hbulk b A1). }
    cbv beta in T. rewrite A2 in T. injection T as ->.
    assert (G : forall n k f w, any_part (dm_desc m) n k f -> get_field_value t m f = w -> flat w -> zero_kept t f w = true ->
      get_field_by_number any_tables (ren_msg (fun _ => 0%nat) (norm_msg t m)) n = Some w).
    { intros n k f w P Hw Hfl Hz. destruct (ap_like _ _ _ _ P) as (f' & Ef & Hl).
      assert (Hfd : find_desc t (dm_desc m) n = Some f) by (unfold find_desc; now rewrite (ap_get _ _ _ _ P)).
      unfold get_field_by_number. change (dm_desc (ren_msg (fun _ => 0%nat) (norm_msg t m))) with 0%nat. rewrite Ef. cbn [option_map]. apply (f_equal Some).
      destruct (ren_get_value t any_tables _ _ (norm_msg t m) n f f' Hwf Hl Hfd) as [_ ->].
      rewrite (get_norm t m n f Hwf Hm Hfd) by (rewrite Hw; assumption). rewrite Hw. apply flat_ren, Hfl. }
    rewrite (G _ _ _ _ P1 V1) in A3; [|reflexivity|unfold zero_kept; apply orb_true_r]. injection A3 as ->.
    rewrite (G _ _ _ _ P2 V2) in A4; [|reflexivity|unfold zero_kept; apply orb_true_r]. injection A4 as ->.
    exists f1, f2, v, pre, name, i. auto 10.
  Qed.

  (** *** The message read back *)
  Definition any_of (d : nat) (url : str) (b : bytes) : dynmsg := DM d [(1, SVal (VString url)); (2, SVal (VBytes b))].
  Fixpoint reread (n : nat) (m : dynmsg) : option dynmsg :=
    match n with
    | O => None
    | S n' =>
        match known t full idx (dm_desc m) (dm_fields m), as_any t m with
        | _ :: _, Ok (Some (url, body)) =>
            match enc_msg t (renewed t full idx (reread n') body) with
            | Ok b => Some (any_of (dm_desc m) url b)
            | _ => None
            end
        | _, _ => None
        end
    end.
  Lemma any_of_get d url b f1 f2 : any_part d 1 KString f1 -> any_part d 2 KBytes f2 ->
    get_field_value t (any_of d url b) f1 = VString url /\ get_field_value t (any_of d url b) f2 = VBytes b.
  Proof.
    intros P1 P2. unfold get_field_value, fs_get, fs_get_value. cbn [dm_fields any_of]. rewrite (ap_num _ _ _ _ P1), (ap_num _ _ _ _ P2).
    split; reflexivity.
  Qed.
  Lemma any_of_ok m url b f1 f2 : ok_msg t m = true -> any_part (dm_desc m) 1 KString f1 -> any_part (dm_desc m) 2 KBytes f2 ->
    get_field_value t m f1 = VString url -> bytes_ok b -> ok_msg t (any_of (dm_desc m) url b) = true.
  Proof.
    intros Hm P1 P2 Hu Hb. pose proof (part_ok _ _ _ _ P1 Hm) as O1. rewrite Hu in O1. apply ok_msg_iff in Hm. apply ok_msg_iff.
    assert (B : forall n s, bt_get n (dm_fields (any_of (dm_desc m) url b)) = Some s ->
      (n = 1 /\ s = SVal (VString url)) \/ (n = 2 /\ s = SVal (VBytes b))).
    { intros n s. cbn [any_of dm_fields bt_get]. destruct (N.eqb_spec n 1); [intros [= <-]; auto|]. destruct (N.eqb_spec n 2); [intros [= <-]; auto|discriminate]. }
    constructor.
    - apply (mo_desc _ _ Hm).
    - cbn. repeat constructor.
    - intros n g v nums k w B1 Hg Ho. exfalso. cbn [any_of dm_desc] in Hg.
      destruct (B _ _ B1) as [[-> _]|[-> _]].
      + rewrite (ap_get _ _ _ _ P1) in Hg. injection Hg as <-. rewrite (ap_oneof _ _ _ _ P1) in Ho. discriminate.
      + rewrite (ap_get _ _ _ _ P2) in Hg. injection Hg as <-. rewrite (ap_oneof _ _ _ _ P2) in Ho. discriminate.
    - intros n s B1. unfold ok_slot. cbn [any_of dm_desc fst snd]. destruct (B _ _ B1) as [[-> ->]|[-> ->]].
      + unfold find_desc. rewrite (ap_get _ _ _ _ P1). exact O1.
      + unfold find_desc. rewrite (ap_get _ _ _ _ P2). cbn [ok_field]. rewrite (ap_list _ _ _ _ P2), (ap_map _ _ _ _ P2), (ap_kind _ _ _ _ P2). cbn.
        now apply bytes_okb_ok.
  Qed.

  (** *** One level of nesting *)
  Notation any n := (fmt_any E t o n).
  Notation level n := (forall m, ok_msg t m = true -> any_readable E t full n m ->
    match reread n m with
    | Some m' => known t full idx (dm_desc m) (dm_fields m) <> [] /\ any_reads t (any n) m m'
    | None => known t full idx (dm_desc m) (dm_fields m) <> [] -> forall ind, any n ind m = None
    end).
  Notation data n := (forall m m', ok_msg t m = true -> any_readable E t full n m -> reread n m = Some m' ->
    dm_desc m' = dm_desc m /\ ok_msg t m' = true /\ jagree t (VMessage m) (VMessage m')).

  Lemma url_name url dom name pre name' : url = dom ++ 47 :: name -> ~ In 47 name -> url = pre ++ 47 :: name' -> ~ In 47 name' -> name = name' /\ dom = pre.
  Proof.
    intros H1 N1 H2 N2. assert (A1 : type_url_name url = Some name) by (apply C49_name_after_last_slash; exists dom; auto).
    assert (A2 : type_url_name url = Some name') by (apply C49_name_after_last_slash; exists pre; auto).
    assert (name = name') by congruence. subst name'. split; [reflexivity|]. rewrite H1 in H2. now apply app_inv_tail in H2.
  Qed.

  Lemma level_all n : level n /\ data n.
  Proof.
    induction n as [|n [IHl IHd]].
    { split.
      - intros m Hm Hr. cbn [reread]. intros _ ind. unfold fmt_any. cbn [o_expand_any o negb orb].
        destruct (bytes_eqb (full_name t (dm_desc m)) any_name) eqn:En; [|reflexivity]. apply bytes_eqb_eq in En. contradiction (Hr En).
      - discriminate. }
    (* what is read back of an expanded Any *)
    assert (One : forall m url body, ok_msg t m = true -> any_readable E t full (S n) m -> expands t m url body ->
      exists b, enc_msg t (renewed t full idx (reread n) body) = Ok b /\ any_reads t (any (S n)) m (any_of (dm_desc m) url b) /\
        ok_msg t (any_of (dm_desc m) url b) = true /\ jagree t (VMessage m) (VMessage (any_of (dm_desc m) url b))).
    { intros m url body Hm Hr He. pose proof (proj1 He) as Hn.
      destruct (Hr Hn url body He) as (Hdep & Hbulk & (dom & name0 & Eu0 & N0 & Hdom & Hnm) & Hf & Hz & Hs).
      destruct (expands_as_any t o Hwf m url body Hm He) as [Has Hbody].
      destruct (any_holds m url body Hm Hdep Hbulk He) as (f1 & f2 & c & pre & name & i & P1 & P2 & V1 & V2 & Eu & Nn & Fi & Hdec).
      destruct (url_name _ _ _ _ _ Eu0 N0 Eu Nn) as [-> ->].
      destruct (renewed_good t Hwf full idx Hop Hdp (reread n) (any_readable E t full n) IHd body Hbody Hs) as (Rd & Rok & Rag).
      destruct (ok_msg_enc t _ Hwf Rok) as (b & Eb & Bb). exists b. split; [exact Eb|].
      destruct (any_of_get _ url b _ _ P1 P2) as [W1 W2].
      split; [|split; [eapply any_of_ok; eassumption|]].
      2:{ eapply (jagree_any t m (any_of (dm_desc m) url b) f1 f2 url name i c b body _ Hn eq_refl (ap_get _ _ _ _ P1) (ap_get _ _ _ _ P2)); eauto.
          apply C49_name_after_last_slash. exists pre. auto. }
      intros ind.
      assert (Di : dm_desc body = i).
      { pose proof (C04_decode_total t i c Hwf (find_msg_lt _ _ _ Fi)) as Q. rewrite Hdec in Q. apply Q.
        pose proof (part_ok _ _ _ _ P2 Hm) as O2. rewrite V2 in O2. cbn [ok_field] in O2. rewrite (ap_kind _ _ _ _ P2), (ap_list _ _ _ _ P2), (ap_map _ _ _ _ P2) in O2.
        cbn in O2. now apply bytes_okb_ok. }
      destruct (all_read E t Hwf pretty true full idx (any n) Hsearch Henum Hop Hdp Hname Hext Hentry (reread n) (any_readable E t full n) IHl Hzero (VMessage body) Hf Hs) as [R _].
      assert (Hk : ok_elem t (VMessage body) (KMessage i) = true).
      { rewrite ok_elem_msg. cbn [kind_msg]. rewrite Hbody, Di, Nat.eqb_refl. reflexivity. }
      destruct (R _ Hk ind) as (x & ts & Ex & Lx & _ & Hsh & Hp). destruct Hsh as ((x' & Ex') & (ts' & Ets)).
      exists (91 :: url ++ 93 :: padding o ++ x), (TLBrack :: name_toks pre ++ TSlash :: name_toks name ++ TRBrack :: ts).
      split; [|split; [|split; [exact I|]]].
      - cbn [fmt_any]. fold o. change (o_expand_any o) with true. cbn [negb orb]. rewrite (proj2 (bytes_eqb_eq _ _) Hn). cbn [negb]. rewrite Has.
        rewrite (fmt_msg_kind _ _ _ _ _ _ None (Some (KMessage i))). fold o in Ex. rewrite Ex. reflexivity.
      - intros rest ks Hst L. rewrite Eu. cbn [app]. rewrite <- !app_assoc. cbn [app].
        apply lex_punct'; [reflexivity|discriminate|]. rewrite <- !app_assoc. cbn [app].
        apply lex_dotted; [exact Hdom|reflexivity|]. apply lex_punct'; [reflexivity|discriminate|].
        rewrite <- ?app_assoc. cbn [app]. apply lex_dotted; [exact Hnm|reflexivity|]. apply lex_punct'; [reflexivity|discriminate|].
        rewrite <- ?app_assoc. unfold o. rewrite lex_padding. now apply Lx.
      - intros k r Hlen Hend. eapply rf_cons; [exact I| |apply rf_nil].
        unfold parse_field. cbn [app field_name]. rewrite <- !app_assoc. cbn [app]. rewrite full_ident_name by (try reflexivity; exact I).
        cbn [pbind]. rewrite <- !app_assoc. cbn [app]. rewrite full_ident_name by (try reflexivity; exact I). cbn [pbind mbind].
        assert (Hsep : field_sep (ts ++ r) = POk tt (ts ++ r)) by (rewrite Ets; reflexivity).
        rewrite Hsep. cbn [mbind]. unfold any_in. rewrite Fi.
        rewrite Hp; [|cbn [length] in Hlen; rewrite !app_length in Hlen; cbn [length] in Hlen; rewrite !app_length in Hlen; cbn [length] in Hlen; lia|now apply ends_follows].
        cbn [mbind]. rewrite renew_message by assumption. rewrite Eb. cbn [new_msg dm_desc]. rewrite (proj2 (bytes_eqb_eq _ _) Hn).
        assert (S1 : forall m0, dm_desc m0 = dm_desc m -> try_set_field_by_number t m0 1 (VString (pre ++ 47 :: name)) =
          (None, with_fields m0 (bt_set 1 (SVal (VString (pre ++ 47 :: name))) (dm_fields m0)))).
        { intros m0 E0. unfold try_set_field_by_number. rewrite E0, (ap_get _ _ _ _ P1). unfold try_set_field. cbn [is_valid_for].
          rewrite (ap_kind _ _ _ _ P1). cbn [is_valid]. unfold fs_set, fs_clear_oneof.
          rewrite (ap_oneof _ _ _ _ P1), (ap_num _ _ _ _ P1). reflexivity. }
        assert (S2 : forall m0, dm_desc m0 = dm_desc m -> try_set_field_by_number t m0 2 (VBytes b) =
          (None, with_fields m0 (bt_set 2 (SVal (VBytes b)) (dm_fields m0)))).
        { intros m0 E0. unfold try_set_field_by_number. rewrite E0, (ap_get _ _ _ _ P2). unfold try_set_field. cbn [is_valid_for].
          rewrite (ap_kind _ _ _ _ P2). cbn [is_valid]. unfold fs_set, fs_clear_oneof.
          rewrite (ap_oneof _ _ _ _ P2), (ap_num _ _ _ _ P2). reflexivity. }
        rewrite S1 by reflexivity. rewrite S2 by reflexivity. cbn [with_fields dm_desc dm_fields bt_set new_msg]. rewrite <- Eu.
        rewrite end_end by exact Hend. reflexivity. }
    split.
    - intros m Hm Hr. cbn [reread]. destruct (known t full idx (dm_desc m) (dm_fields m)) as [|it its] eqn:Ek; [contradiction|].
      destruct (as_any_cases t o Hwf m Hm) as [(url & body & A1 & A2 & A3)|[A1 A2]]; rewrite A1.
      + destruct (One m url body Hm Hr A2) as (b & Eb & R & _). rewrite Eb. split; [discriminate|exact R].
      + intros _ ind. cbn [fmt_any]. destruct (negb _ || negb _); [reflexivity|]. rewrite A1. reflexivity.
    - intros m m' Hm Hr. cbn [reread]. destruct (known t full idx (dm_desc m) (dm_fields m)) as [|it its] eqn:Ek; [discriminate|].
      destruct (as_any_cases t o Hwf m Hm) as [(url & body & A1 & A2 & A3)|[A1 A2]]; rewrite A1; [|discriminate].
      destruct (One m url body Hm Hr A2) as (b & Eb & _ & R1 & R2). rewrite Eb. intros [= <-]. auto.
  Qed.

  (** *** The whole message *)
  Theorem text_any_parses n m : ok_msg t m = true -> floats_back E (VMessage m) = true ->
    each_message (any_readable E t full n) (VMessage m) ->
    exists b, to_text E t o n m = Ok b /\ parse_text t (dm_desc m) b = MOk (renewed t full idx (reread n) m) [].
  Proof.
    intros Hm Hf Hs. unfold to_text. destruct (level_all n) as [Hl Hd].
    assert (An : (any n 0%nat m = None /\ reread n m = None) \/ exists url body n', n = S n' /\ expands t m url body).
    { destruct n as [|n].
      - left. split; [|reflexivity]. unfold fmt_any. destruct (bytes_eqb (full_name t (dm_desc m)) any_name) eqn:En; [|now rewrite orb_true_r].
        apply bytes_eqb_eq in En. destruct m as [d fs]. destruct (proj1 Hs En).
      - cbn [fmt_any reread]. destruct (as_any_cases t o Hwf m Hm) as [(url & body & A1 & A2 & A3)|[A1 A2]]; [right; exists url, body, n; auto|].
        left. rewrite A1. split; [|destruct (known t full idx (dm_desc m) (dm_fields m)); reflexivity]. destruct (negb _ || negb _); reflexivity. }
    destruct An as [[An Rn]|(url & body & n' & -> & He)].
    - unfold ItemRound.renewed. rewrite Rn.
      exact (text_reads E t Hwf pretty true full idx (any n) Hsearch Henum Hop Hdp Hname Hext Hentry (reread n) (any_readable E t full n) Hl Hzero m Hm Hf Hs An).
    - assert (Hr : any_readable E t full (S n') m) by (destruct m as [d fs]; apply Hs).
      destruct (known t full idx (dm_desc m) (dm_fields m)) as [|it its] eqn:Ek.
      { exfalso. destruct (Hr (proj1 He) url body He) as (D1 & D2 & _).
        destruct (any_holds m url body Hm D1 D2 He) as (f1 & f2 & c & pre & name & i & P1 & _ & V1 & _ & Eu & _).
        assert (Hfd : find_desc t (dm_desc m) (fd_number f1) = Some f1).
        { unfold find_desc. rewrite (ap_num _ _ _ _ P1), (ap_get _ _ _ _ P1). reflexivity. }
        destruct (fs_has t f1 (dm_fields m)) eqn:Eh.
        - destruct (known_intro t Hwf full idx m f1 (proj1 (ok_msg_iff _ _) Hm) Hfd (or_introl Eh)) as (it & Hin & _). rewrite Ek in Hin. contradiction.
        - assert (Hu : url <> []) by (rewrite Eu; destruct pre; discriminate). apply Hu. clear - Eh V1 P1 Ht.
          assert (Hd : fd_default_value t f1 = VString []).
          { unfold fd_default_value. rewrite (ap_list _ _ _ _ P1), (ap_map _ _ _ _ P1), (ap_default _ _ _ _ P1), (ap_kind _ _ _ _ P1). reflexivity. }
          unfold get_field_value, fs_get, fs_has in *. destruct (fs_get_value (dm_fields m) (fd_number f1)) as [w|]; [|congruence].
          subst w. unfold fd_has, is_default_for in Eh. rewrite (ap_presence _ _ _ _ P1), ?(ap_list _ _ _ _ P1), ?(ap_map _ _ _ _ P1), Hd in Eh.
          cbn [orb] in Eh. apply negb_false_iff in Eh. destruct url; [reflexivity|discriminate Eh]. }
      pose proof Hl as Hlev. specialize (Hl m Hm Hr). unfold ItemRound.renewed. destruct (reread (S n') m) as [m'|] eqn:Er.
      + destruct Hl as [_ R]. apply (any_text_reads E t pretty true full idx (any (S n')) (reread (S n')) (any_readable E t full (S n'))); assumption.
      + exfalso. specialize (Hl ltac:(rewrite Ek; discriminate) 0%nat). cbn [fmt_any] in Hl. change (o_expand_any o) with true in Hl.
        rewrite (proj2 (bytes_eqb_eq _ _) (proj1 He)) in Hl. cbn [negb orb] in Hl.
        rewrite (proj1 (expands_as_any t o Hwf m url body Hm He)) in Hl. discriminate.
  Qed.
  Theorem reread_good n m : ok_msg t m = true -> each_message (any_readable E t full n) (VMessage m) ->
    dm_desc (renewed t full idx (reread n) m) = dm_desc m /\ ok_msg t (renewed t full idx (reread n) m) = true /\
    (zeros_shown t full (VMessage m) = true -> jagree t (VMessage m) (VMessage (renewed t full idx (reread n) m))).
  Proof.
    intros Hm Hs. exact (renewed_good t Hwf full idx Hop Hdp (reread n) (any_readable E t full n) (proj2 (level_all n)) m Hm Hs).
  Qed.
End TextAny.
