(** The tables of a pool are well formed (for C57). *)
From Verif Require Import Base BaseProofs Wire WireProofs Value Descr DescrOk DescrProofs Proto Build VisitProofs EventProofs BuildFrame BuildNames BuildQuiet BuildResolve BuildSafe BuildInv DeclSpec DeclProofs PoolFacts PoolMembers PoolExts ResolveSpec Prop_Pool Prop_Members Prop_Resolve DefaultSpec Prop_Defaults Prop_Declared SaneSpec.
From Coq Require Import List.
Import ListNotations.
Local Open Scope list_scope.
Local Open Scope N_scope.

(** ** Bytes defaults are bytes *)

Lemma hex_digit_lt c x : hex_digit c = Some x -> x < 16.
Proof.
  unfold hex_digit, is_digit. destruct ((48 <=? c) && (c <=? 57)) eqn:A; [|destruct ((97 <=? c) && (c <=? 102)) eqn:B; [|destruct ((65 <=? c) && (c <=? 70)) eqn:C; [|discriminate]]];
    intros H; apply Some_inj in H; subst x; rewrite andb_true_iff, !N.leb_le in *; lia.
Qed.
Lemma hex_byte_lt a c x : hex_byte a c = Some x -> x < 256.
Proof.
  unfold hex_byte. destruct (a =? 43).
  - intros H. apply hex_digit_lt in H. lia.
  - destruct (hex_digit a) as [u|] eqn:A; [|discriminate]. destruct (hex_digit c) as [v|] eqn:B; [|discriminate].
    intros H. apply Some_inj in H. apply hex_digit_lt in A, B. lia.
Qed.
Lemma octal_lt chk n : forall a s o r, a < 256 -> octal chk n a s = Ok (o, r) -> o < 256 /\ (bytes_ok s -> bytes_ok r).
Proof.
  induction n as [|n IH]; intros a s o r Ha H.
  - assert (Ok (a, s) = Ok (o, r)) as H' by (destruct s; exact H). inversion H'; subst. auto.
  - destruct s as [|c s]; cbn [octal] in H; [inversion H; subst; auto|].
    destruct (is_octal c); [|inversion H; subst; auto].
    destruct (oct_step chk a (c - 48)) as [a'|] eqn:E; [|discriminate].
    assert (a' < 256) as Ha'.
    { unfold oct_step in E. destruct (_ && _); [discriminate|]. destruct (_ && _); [discriminate|].
      apply Some_inj in E. subst a'. apply N.mod_lt. discriminate. }
    destruct (IH _ _ _ _ Ha' H) as [A B]. split; [exact A|]. intros F. inversion F; auto.
Qed.
Lemma simple_escape_lt c x : simple_escape c = Some x -> x < 256.
Proof.
  intros H. apply simple_escape_letters in H. cbn in H.
  repeat (destruct H as [E|H]; [inversion E; subst; lia|]). destruct H.
Qed.
Lemma bytes_ok_snoc l c : bytes_ok l -> c < 256 -> bytes_ok (l ++ [c]).
Proof. intros A B. apply Forall_app. split; [exact A|]. constructor; [exact B|constructor]. Qed.
Lemma unescape_bytes chk fuel : forall dst s bs, bytes_ok dst -> bytes_ok s -> unescape chk fuel dst s = Ok (Some bs) -> bytes_ok bs.
Proof.
  induction fuel as [|fuel IH]; intros dst s bs Hd Hs H; cbn [unescape] in H.
  - destruct s; [|discriminate]. inversion H; subst. exact Hd.
  - destruct s as [|c r]; [inversion H; subst; exact Hd|]. inversion Hs as [|? ? Hc Hr]; subst.
    destruct (negb (c =? 92)); [eapply IH; [| |exact H]; [apply bytes_ok_snoc; assumption|exact Hr]|].
    destruct r as [|e r2]; [discriminate|]. inversion Hr as [|? ? He Hr2]; subst.
    destruct (simple_escape e) as [x|] eqn:Es; [eapply IH; [| |exact H]; [apply bytes_ok_snoc; [assumption|eapply simple_escape_lt; exact Es]|exact Hr2]|].
    destruct (is_octal e).
    + apply rbind_ok in H. destruct H as [[o r3] [H1 H]]. apply octal_lt in H1; [|lia]. destruct H1 as [A B].
      eapply IH; [| |exact H]; [apply bytes_ok_snoc; assumption|auto].
    + destruct ((e =? 120) || (e =? 88)); [|discriminate].
      destruct r2 as [|h1 [|h2 r3]]; try discriminate. destruct (boundary r3); [|discriminate].
      destruct (hex_byte h1 h2) as [x|] eqn:Ex; [|discriminate]. inversion Hr2 as [|? ? _ Hr3]; subst. inversion Hr3; subst.
      eapply IH; [| |exact H]; [apply bytes_ok_snoc; [assumption|eapply hex_byte_lt; exact Ex]|assumption].
Qed.

(** ** The pieces *)

Section Bridge.
  Context (X : externs) (p : pool).
  Hypothesis SO : search_ok X.
  Hypothesis FL : floats_ok X.
  Hypothesis G : grown X p.
  Hypothesis TY : Forall typed_file (pool_files p).
  Notation t := (p_tables p).

  Lemma the_inv : Inv X p.
  Proof. apply reachable_Inv; [exact SO|]. apply grown_reachable. exact G. Qed.
  Notation I := the_inv.

  Lemma typed_at k f : nth_error (pool_files p) k = Some f -> typed_file f.
  Proof. intros H. rewrite Forall_forall in TY. apply TY. eapply nth_error_In. exact H. Qed.

  Lemma values_i32 e ei : nth_error (p_enums p) e = Some ei -> e_values ei <> [] /\ forall x, In x (e_values ei) -> i32_ok (ev_number x) = true.
  Proof.
    intros H. destruct (enum_decl X p e ei I H) as (f & en & scope & scope' & Hf & He & _ & _ & Hv & _ & _ & Hne & _).
    cbv zeta in *. rewrite Hv. split.
    - destruct (ep_values en); [contradiction|]. discriminate.
    - intros x Hx. apply in_map_iff in Hx. destruct Hx as [ev [<- Hi]].
      unfold g_values in Hi. apply In_nth_error in Hi. destruct Hi as [j Hj]. rewrite mapi_nth in Hj.
      destruct (nth_error (ep_values en) j) as [v|] eqn:Ev; [|discriminate]. cbn in Hj. apply Some_inj in Hj. subst ev. cbn.
      pose proof (ty_value _ (typed_at _ _ Hf) _ _ _ (de_value _ _ _ _ _ _ He Ev)) as R.
      unfold i32_ok. destruct v; cbn in *. lia.
  Qed.

  Lemma kind_in names0 trans ty tn scope k : older names0 (p_names p) -> type_spec names0 trans ty tn scope k -> kind_okb t k = true.
  Proof.
    intros O T. unfold type_spec in T. destruct tn as [|c tn]; [destruct ty; cbn in T; try discriminate; apply Some_inj in T; subst k; reflexivity|].
    destruct T as (n & d & R & K). pose proof (resolve_in trans names0 scope (c :: tn) FFieldType) as Q. rewrite R in Q. destruct Q as [_ [n' Q]].
    assert (kind_of p k n' d) as Hk.
    { eapply (pool_kind X p (p_names p)); [exact I|apply older_refl| |].
      - apply nodup_assoc; [exact (iv_nodup _ _ I)|]. eapply older_in; [exact O|exact Q].
      - destruct K as [[i [A B]]|K]; [|right; exact K]. left. exists i. split; [exact A|]. destruct ty; auto. }
    destruct k; try destruct Hk as [_ Hk]; try reflexivity; cbn [kind_okb p_tables t_enums t_messages].
    all: lazymatch goal with
      | |- (?j <? _)%nat = true => destruct (nth_error (p_messages p) j) eqn:E; [|discriminate];
          apply Nat.ltb_lt; apply nth_error_Some; congruence
      | |- context [nth_error (p_enums p) ?j] => destruct (nth_error (p_enums p) j) as [ei|] eqn:E; [|discriminate];
          destruct (values_i32 _ _ E) as [A B];
          apply andb_true_iff; split; [destruct (e_values ei); [contradiction|reflexivity]|]; apply forallb_forall; exact B
      end.
  Qed.

  Lemma default_in k s d : (match s with Some s => a_string s | None => True end) -> default_spec X (p_enums p) k s d ->
    match d with Some v => sc_okb k v = true | None => True end.
  Proof.
    intros A D. destruct s as [s|]; [|cbn in D; subst d; exact Logic.I]. destruct A as [A1 A2].
    destruct D as (v & -> & D). destruct FL as [F1 F2].
    assert (forall (T : Type) (q : T -> bool) o x, ranged q o = Some x -> q x = true) as R.
    { intros T q o x. unfold ranged. destruct o as [y|]; [|discriminate]. destruct (q y) eqn:E; [|discriminate]. intros H; apply Some_inj in H; subst; exact E. }
    destruct k; try contradiction; cbn [parse_simple] in D; try (apply Ok_inj in D).
    all: try (destruct (ranged _ _) as [x|] eqn:E in D; [|discriminate]; cbn in D; apply Some_inj in D; subst v; cbn; eapply R; exact E).
    - destruct (x_f64 X s) as [n|] eqn:E; [|discriminate]. cbn in D. apply Some_inj in D. subst v. cbn. apply N.ltb_lt. exact (F2 _ _ E).
    - destruct (x_f32 X s) as [n|] eqn:E; [|discriminate]. cbn in D. apply Some_inj in D. subst v. cbn. apply N.ltb_lt. exact (F1 _ _ E).
    - destruct (parse_bool s); [|discriminate]. cbn in D. apply Some_inj in D. subst v. reflexivity.
    - apply Some_inj in D. subst v. cbn [sc_okb]. rewrite A1, A2. reflexivity.
    - apply rbind_ok in D. destruct D as [o [D1 D]]. apply Ok_inj in D. destruct o as [bs|]; [|discriminate]. cbn in D. apply Some_inj in D. subst v.
      cbn [sc_okb]. apply bytes_okb_ok. eapply unescape_bytes; [| |exact D1]; [constructor|apply bytes_okb_ok; exact A1].
    - destruct D as (en & x & E & Fx & ->). cbn [sc_okb]. apply find_some in Fx. destruct Fx as [Fx _].
      destruct (values_i32 _ _ E) as [_ B]. apply B. exact Fx.
  Qed.

  Lemma legal_tag z : legal_number z = true -> tag_okb (as_u32 z) = true.
  Proof.
    intros L. pose proof (as_u32_legal z L) as E. unfold legal_number, in_range in L. cbn in L.
    apply andb_true_iff in L. destruct L as [L _]. apply andb_true_iff in L. destruct L as [L1 L2]. apply Z.leb_le in L1. apply Z.ltb_lt in L2.
    unfold tag_okb. apply andb_true_iff. rewrite N.leb_le, N.ltb_lt. lia.
  Qed.

  Lemma packed_needs sy fd k : packed_of (fp_label fd) (Some k) sy fd = true -> card_eqb (fp_label fd) Repeated && is_packable k = true.
  Proof. unfold packed_of. intros H. apply andb_true_iff in H. destruct H as [H _]. exact H. Qed.

  (** ** A field of a message *)
  Lemma field_at i mi j fi : nth_error (p_messages p) i = Some mi -> nth_error (m_fields mi) j = Some fi ->
    exists f dm scope fd g k d names0,
      nth_error (pool_files p) (id_file (m_id mi)) = Some f /\ message_at f (id_path (m_id mi)) scope dm /\
      m_map_entry mi = dp_map_entry dm /\ length (m_oneofs mi) = length (dp_oneofs dm) /\
      nth_error (dp_fields dm) j = Some fd /\ older names0 (p_names p) /\
      number_spec (raws p) (mids p) i fd /\
      type_spec names0 (fi_trans g) (fp_type fd) (fp_type_name fd) (dotted (id_full (m_id mi)) (fp_name fd)) k /\
      default_spec X (p_enums p) k (fp_default fd) d /\
      match fp_oneof fd with Some z => (0 <= z)%Z /\ (Z.to_nat z < length (dp_oneofs dm))%nat | None => True end /\
      exists path, fi = field_of g path (dotted (id_full (m_id mi)) (fp_name fd)) (id_file (m_id mi)) fd k d.
  Proof.
    intros Hm Hfi. destruct (message_decl X p i mi I Hm) as (f & dm & scope & names0 & Hf & Hd & _ & _ & Hme & O & F & Ho & _).
    destruct (F2_nth_r _ _ _ (field_decl _ _ _ _ _ _ _ _ _ F) _ _ Hfi) as (fd & Hfd & j' & S). cbn [fspec] in S.
    destruct S as (g & k & d & Hg & N & T & D & On & E).
    exists f, dm, scope, fd, g, k, d, names0. split; [exact Hf|]. split; [exact Hd|]. split; [exact Hme|].
    split. { apply (f_equal (@length _)) in Ho. rewrite !map_length in Ho. rewrite Ho. unfold g_oneofs. apply mapi_length. }
    split; [exact Hfd|]. split; [exact O|]. split; [exact N|]. split; [exact T|]. split; [exact D|]. split; [exact On|].
    eexists. exact E.
  Qed.

  Lemma field_fdl_ok i mi j fi : nth_error (p_messages p) i = Some mi -> nth_error (m_fields mi) j = Some fi ->
    fdl_okb t (field_view t mi fi) = true.
  Proof.
    intros Hm Hfi. destruct (field_at _ _ _ _ Hm Hfi) as (f & dm & scope & fd & g & k & d & names0 & Hf & Hd & _ & _ & Hfd & O & N & T & D & _ & path & ->).
    unfold fdl_okb, field_view, field_of, is_repeated, fd_is_packable. cbn [f_id f_number f_kind f_card f_packed f_presence f_oneof f_default f_json fd_number fd_kind fd_card fd_packed fd_presence fd_default].
    destruct N as (id & rf & mp & _ & _ & _ & L & _).
    rewrite (legal_tag _ L), (kind_in _ _ _ _ _ _ O T).
    pose proof (default_in _ _ _ (ty_field _ (typed_at _ _ Hf) _ _ _ (de_field _ _ _ _ _ _ Hd Hfd)) D) as Q.
    assert (match d with Some v => sc_okb k v | None => true end = true) as -> by (destruct d; [exact Q|reflexivity]).
    cbn [andb]. rewrite andb_true_r. apply andb_true_iff. split.
    - destruct (packed_of (fp_label fd) (Some k) (fi_syntax g) fd) eqn:P; [|reflexivity]. exact (packed_needs _ _ _ P).
    - unfold presence_of, is_msg_kind, kind_msg, is_message_kind.
      destruct k; try reflexivity; cbn [negb orb andb]; destruct (card_eqb (fp_label fd) Repeated); cbn [negb orb andb]; try reflexivity; rewrite !orb_true_r; reflexivity.
  Qed.

  (** ** An extension *)
  Lemma ext_at j x : nth_error (p_exts p) j = Some x ->
    exists fi f path scope fd g k d names0,
      nth_error (pool_files p) fi = Some f /\ declares f path scope (IExt fd) /\ older names0 (p_names p) /\
      number_spec (raws p) (mids p) (x_extendee x) fd /\
      type_spec names0 (fi_trans g) (fp_type fd) (fp_type_name fd) (dotted scope (fp_name fd)) k /\
      default_spec X (p_enums p) k (fp_default fd) d /\
      exists parent ex, x = ext_of g path (dotted scope (fp_name fd)) fi parent fd ex k d.
  Proof.
    intros Hm. assert (nth_error (all_ids DkExtension p) j = Some (x_id x)) as Hid by (cbn; rewrite nth_error_map, Hm; reflexivity).
    destruct (index_event _ _ _ _ _ I Hid) as [e [He Hk]]. destruct e as [| | | | | | | |path full fi parent index fd]; try discriminate.
    cbn in Hk. apply Some_inj in Hk. subst index.
    destruct (iv_exts _ _ I _ _ _ _ _ _ He) as (x' & n0 & Hx' & O & g & ex & k & d & Gf & M & N & T & D & E).
    rewrite Hm in Hx'. apply Some_inj in Hx'. subst x'.
    destruct (event_declared p _ (IExt fd) He eq_refl) as (f & scope & Hf & Dl & Ef). cbn in Hf, Dl, Ef. subst full.
    exists fi, f, path, scope, fd, g, k, d, n0. split; [exact Hf|]. split; [exact Dl|]. split; [exact O|].
    split; [subst x; exact N|]. split; [exact T|]. split; [exact D|]. exists parent, ex. exact E.
  Qed.
  Lemma ext_fdl_ok j x : nth_error (p_exts p) j = Some x -> fdl_okb t (ext_view t x) = true.
  Proof.
    intros Hx. destruct (ext_at _ _ Hx) as (fi & f & path & scope & fd & g & k & d & names0 & Hf & Dl & O & N & T & D & parent & ex & ->).
    unfold fdl_okb, ext_view, ext_of, is_repeated, fd_is_packable. cbn [x_id x_number x_kind x_card x_packed x_default x_json fd_number fd_kind fd_card fd_packed fd_presence fd_default].
    destruct N as (id & rf & mp & _ & _ & _ & L & _).
    rewrite (legal_tag _ L), (kind_in _ _ _ _ _ _ O T).
    pose proof (default_in _ _ _ (ty_ext _ (typed_at _ _ Hf) _ _ _ Dl) D) as Q.
    assert (match d with Some v => sc_okb k v | None => true end = true) as -> by (destruct d; [exact Q|reflexivity]).
    cbn [andb]. rewrite andb_true_r. apply andb_true_iff. split.
    - destruct (packed_of (fp_label fd) (Some k) (fi_syntax g) fd) eqn:P; [|reflexivity]. exact (packed_needs _ _ _ P).
    - destruct (is_msg_kind k), (card_eqb (fp_label fd) Repeated); reflexivity.
  Qed.

  (** ** The tables *)
  Lemma nat_opt_some o j : o = Some j -> nat_opt_eqb o j = true.
  Proof. intros ->. apply Nat.eqb_refl. Qed.
  Lemma exts_in i mi x : nth_error (p_messages p) i = Some mi -> In x (m_exts mi) ->
    exists e, nth_error (p_exts p) x = Some e /\ x_extendee e = i.
  Proof.
    intros Hm Hx. rewrite (grown_lists X p SO G i mi Hm) in Hx. unfold ext_ids in Hx. apply filter_In in Hx. destruct Hx as [_ Hx].
    destruct (nth_error (p_exts p) x) as [e|]; [|discriminate]. apply Nat.eqb_eq in Hx. eauto.
  Qed.

  Lemma message_ok i mi : nth_error (p_messages p) i = Some mi -> msg_okb t i mi = true.
  Proof.
    intros Hm. destruct (message_decl X p i mi I Hm) as (f & dm & scope & names0 & Hf & Hd & _ & _ & Hme & O & F & Ho & _).
    unfold msg_okb. repeat (apply andb_true_iff; split).
    - apply bt_sortedb_ok. exact (fo_sorted _ _ _ _ _ _ F).
    - apply forallb_forall. intros [n j] H. cbn [fst snd].
      apply (bt_In_get _ _ _ (fo_sorted _ _ _ _ _ _ F)) in H. apply (fo_numbers _ _ _ _ _ _ F) in H. destruct H as [x [-> <-]]. apply N.eqb_refl.
    - apply forallb_i_nth. intros j fi Hfi.
      destruct (field_at _ _ _ _ Hm Hfi) as (f' & dm' & scope' & fd & g & k & d & names1 & Hf' & Hd' & _ & Hol & Hfd & _ & _ & _ & _ & On & path & E).
      rewrite Hf in Hf'. apply Some_inj in Hf'. subst f'.
      assert (dm' = dm) as -> by (apply message_at_found in Hd, Hd'; congruence).
      rewrite (field_fdl_ok _ _ _ _ Hm Hfi).
      rewrite (nat_opt_some _ _ (proj2 (fo_numbers _ _ _ _ _ _ F _ _) (ex_intro _ fi (conj Hfi eq_refl)))).
      assert (nat_opt_eqb (assoc_s (id_name (f_id fi)) (m_names mi)) j = true) as ->.
      { apply nat_opt_some. rewrite (fo_names _ _ _ _ _ _ F). apply assoc_mapi; [exact (fo_names_nd _ _ _ _ _ _ F)|].
        destruct (F2_nth_r _ _ _ (fo_fields _ _ _ _ _ _ F) _ _ Hfi) as (e & He & S). exists j, e. split; [reflexivity|]. split; [exact He|].
        unfold g_fields in He. rewrite mapi_nth, Hfd in He. cbn in He. apply Some_inj in He. subst e. cbn [ev_fname].
        subst fi. unfold field_of. cbn [f_id]. symmetry. apply id_name_mk. }
      assert (nat_opt_eqb (assoc_s (f_json fi) (m_jsons mi)) j = true) as ->.
      { apply nat_opt_some. rewrite (fo_jsons _ _ _ _ _ _ F). apply assoc_mapi; [exact (fo_jsons_nd _ _ _ _ _ _ F)|]. exists j, fi. auto. }
      cbn [andb]. destruct (f_oneof fi) as [o|] eqn:Eo; [|reflexivity].
      assert (o < length (m_oneofs mi))%nat as Lo.
      { rewrite Hol. subst fi. cbn in Eo. destruct (fp_oneof fd) as [z|]; [|discriminate]. cbn in Eo. apply Some_inj in Eo. subst o. apply On. }
      destruct (nth_error (m_oneofs mi) o) as [oi|] eqn:Eoi; [|apply nth_error_None in Eoi; lia].
      rewrite (fo_oneofs _ _ _ _ _ _ F _ _ Eoi). apply existsb_exists. exists j. split; [|apply Nat.eqb_refl].
      apply members_in. exists fi. auto.
    - apply forallb_forall. intros [n j] H. cbn [fst snd]. rewrite (fo_names _ _ _ _ _ _ F) in H. apply mapi_in in H.
      destruct H as (j' & e & He & E). inversion E; subst n j.
      destruct (F2_nth_l _ _ _ (fo_fields _ _ _ _ _ _ F) _ _ He) as (fi & Hfi & S). cbn [Nat.add]. rewrite Hfi.
      unfold g_fields in He. rewrite mapi_nth in He. destruct (nth_error (dp_fields dm) j') as [fd|]; [|discriminate]. cbn in He. apply Some_inj in He. subst e.
      cbn [fspec] in S. destruct S as (g & k & d & _ & _ & _ & _ & _ & ->). unfold field_of. cbn [f_id ev_fname]. apply bytes_eqb_eq. apply id_name_mk.
    - apply forallb_forall. intros [n j] H. cbn [fst snd]. rewrite (fo_jsons _ _ _ _ _ _ F) in H. apply mapi_in in H.
      destruct H as (j' & e & He & E). inversion E; subst n j. cbn [Nat.add]. rewrite He. apply bytes_eqb_eq. reflexivity.
    - apply forallb_i_nth. intros o oi Ho'. apply forallb_forall. intros j Hj. rewrite (fo_oneofs _ _ _ _ _ _ F _ _ Ho') in Hj.
      apply members_in in Hj. destruct Hj as (fi & -> & E). apply nat_opt_some. exact E.
    - apply forallb_forall. intros x Hx. destruct (exts_in _ _ _ Hm Hx) as (e & He & Ee). cbn [t_exts p_tables]. rewrite He, (ext_fdl_ok _ _ He), Ee, Nat.eqb_refl. reflexivity.
  Qed.

  Lemma pool_tables_ok : tables_ok t.
  Proof. unfold tables_ok, tables_okb. apply forallb_i_nth. intros i mi H. apply message_ok. exact H. Qed.

  (** ** With what protoc guarantees *)
  Hypothesis PF : Forall protoc_file (pool_files p).
  Lemma protoc_at k f : nth_error (pool_files p) k = Some f -> protoc_file f.
  Proof. intros H. rewrite Forall_forall in PF. apply PF. eapply nth_error_In. exact H. Qed.

  (** the numbers of fields and of extensions of a message differ *)
  Lemma numbers_apart i mi j fi x e : nth_error (p_messages p) i = Some mi -> nth_error (m_fields mi) j = Some fi ->
    nth_error (p_exts p) x = Some e -> x_extendee e = i -> f_number fi <> x_number e.
  Proof.
    intros Hm Hfi Hx Ex En.
    destruct (field_at _ _ _ _ Hm Hfi) as (f & dm & scope & fd & g & k & d & n0 & Hf & Hd & _ & _ & Hfd & _ & N & _ & _ & _ & path & E).
    destruct (ext_at _ _ Hx) as (f2i & f2 & path2 & scope2 & fd2 & g2 & k2 & d2 & n2 & Hf2 & Dl2 & _ & N2 & _ & _ & parent & ex & E2).
    rewrite Ex in N2.
    destruct N as (id & rf & mp & A1 & A2 & A3 & L & _ & R). destruct N2 as (id' & rf' & mp' & B1 & B2 & B3 & L2 & _ & R2).
    rewrite A1 in B1. apply Some_inj in B1. subst id'. rewrite A2 in B2. apply Some_inj in B2. subst rf'. rewrite A3 in B3. apply Some_inj in B3. subst mp'.
    rewrite (pf_field _ (protoc_at _ _ Hf) _ _ _ (de_field _ _ _ _ _ _ Hd Hfd)) in R.
    pose proof (pf_ext _ (protoc_at _ _ Hf2) _ _ _ Dl2) as Q. destruct (fp_extendee fd2); [|contradiction].
    apply (f_equal f_number) in E. apply (f_equal x_number) in E2. cbn [field_of ext_of f_number x_number] in E, E2.
    apply as_u32_legal in L, L2. assert (fp_number fd = fp_number fd2) as Z by congruence. rewrite Z in R. congruence.
  Qed.

  (** a map entry has a key and a value *)
  Lemma map_entry_ok i mi : nth_error (p_messages p) i = Some mi -> m_map_entry mi = true -> entry_okb t i = true.
  Proof.
    intros Hm He. destruct (message_decl X p i mi I Hm) as (f & dm & scope & names0 & Hf & Hd & _ & _ & Hme & O & F & Ho & _).
    rewrite He in Hme. symmetry in Hme.
    destruct (pf_entry _ (protoc_at _ _ Hf) _ _ _ (de_message _ _ _ _ Hd) Hme) as (kf & vf & Hk & Hv & K1 & K2 & K3 & K4 & V1 & V2).
    assert (forall fd z, In fd (dp_fields dm) -> fp_number fd = Z.of_N z -> z < 4294967296 ->
            exists fi g k d path n0, get_field t i z = Some (field_view t mi fi) /\
              type_spec n0 (fi_trans g) (fp_type fd) (fp_type_name fd) (dotted (id_full (m_id mi)) (fp_name fd)) k /\
              fi = field_of g path (dotted (id_full (m_id mi)) (fp_name fd)) (id_file (m_id mi)) fd k d) as Q.
    { intros fd z Hfd En Lz. apply In_nth_error in Hfd. destruct Hfd as [j Hfd].
      destruct (F2_nth_l _ _ _ (field_decl _ _ _ _ _ _ _ _ _ F) _ _ Hfd) as (fi & Hfi & j' & S). cbn [fspec] in S.
      destruct S as (g & k & d & Hg & N & T & D & On & E). exists fi, g, k, d. eexists. exists names0. split; [|split; [exact T|exact E]].
      assert (f_number fi = z) as Ez.
      { rewrite E. cbn [field_of f_number]. rewrite En. unfold as_u32. rewrite Z.mod_small by lia. apply N2Z.id. }
      rewrite <- Ez. eapply get_field_at; [exact pool_tables_ok|exact Hm|exact Hfi]. }
    destruct (Q kf 1 Hk K1 eq_refl) as (fk & gk & kk & dk & pk & nk & Gk & Tk & Ek).
    destruct (Q vf 2 Hv V1 eq_refl) as (fv & gv & kv & dv & pv & nv & Gv & Tv & Ev).
    unfold entry_okb, entry_key, entry_value, MAP_KEY_NUMBER, MAP_VALUE_NUMBER. rewrite Gk, Gv.
    unfold is_repeated, field_view. rewrite Ek, Ev. cbn [field_of f_kind f_card fd_kind fd_card].
    rewrite K3 in Tk. cbn in Tk.
    assert (forall c, c <> Repeated -> negb (card_eqb c Repeated) = true) as C by (intros [| |]; cbn; congruence).
    rewrite (C _ K2), (C _ V2), !andb_true_r.
    unfold key_type in K4. cbn in K4.
    repeat (destruct K4 as [K4|K4]; [rewrite <- K4 in Tk; cbn in Tk; apply Some_inj in Tk; subst kk; reflexivity|]). destruct K4.
  Qed.
  Lemma map_shape c k : negb (is_map_kind t c k) || match kind_msg k with Some e => entry_okb t e | None => false end = true.
  Proof.
    destruct (is_map_kind t c k) eqn:E; [|reflexivity]. cbn [negb orb]. unfold is_map_kind in E. apply andb_true_iff in E. destruct E as [_ E].
    destruct k; try discriminate; cbn [kind_msg]; unfold is_map_entry in E; cbn [t_messages p_tables] in E;
      (destruct (nth_error (p_messages p) i) as [mi|] eqn:Hm; [|discriminate]; eapply map_entry_ok; eassumption).
  Qed.

  Lemma pool_schema_ok : schema_okb t = true.
  Proof.
    unfold schema_okb. apply forallb_i_nth. intros i mi Hm. change (nth_error (p_messages p) i = Some mi) in Hm.
    unfold schema_msg_okb. apply andb_true_iff. split.
    - apply forallb_forall. intros fi Hi. apply In_nth_error in Hi. destruct Hi as [j Hfi].
      destruct (field_at _ _ _ _ Hm Hfi) as (f & dm & scope & fd & g & k & d & n0 & Hf & Hd & _ & _ & Hfd & _ & N & _ & _ & _ & path & ->).
      unfold shape_okb, is_repeated, field_view, field_of. cbn [f_id f_number f_kind f_card f_packed f_presence f_oneof f_default f_json fd_number fd_kind fd_card fd_packed fd_presence fd_default fd_is_map].
      rewrite map_shape, andb_true_r. destruct (card_eqb (fp_label fd) Repeated) eqn:C; [|reflexivity]. cbn [negb orb].
      destruct (pf_repeated _ (protoc_at _ _ Hf) _ _ _ (de_field _ _ _ _ _ _ Hd Hfd) (proj1 (repeated_iff _) C)) as [A B].
      unfold presence_of. rewrite A, B, C. reflexivity.
    - apply forallb_forall. intros x Hx. destruct (exts_in _ _ _ Hm Hx) as (e & He & Ee). cbn [t_exts p_tables]. rewrite He.
      apply andb_true_iff. split.
      + unfold shape_okb, is_repeated, ext_view. cbn [fd_card fd_presence fd_is_map fd_kind]. rewrite map_shape. destruct (card_eqb (x_card e) Repeated); reflexivity.
      + destruct (bt_get (x_number e) (m_numbers mi)) as [j|] eqn:B; [|reflexivity]. exfalso.
        destruct (message_decl X p i mi I Hm) as (f & dm & scope & names0 & Hf & Hd & _ & _ & Hme & O & F & Ho & _).
        apply (fo_numbers _ _ _ _ _ _ F) in B. destruct B as (fi & Hfi & En).
        exact (numbers_apart _ _ _ _ _ _ Hm Hfi He Ee En).
  Qed.
End Bridge.
