(** Pools of files with what protoc guarantees of names: text and JSON find
    everything again (for C70). *)
From Coq Require Import String.
From Verif Require Import Base BaseProofs Wire WireProofs Unknown Value Descr Fields Codec DescrOk DescrProofs Proto Build VisitProofs EventProofs BuildFrame BuildNames BuildQuiet BuildResolve BuildSafe BuildInv
  RoundSpec RoundSame RoundMain ItemRound TextLex TextLexProofs TextFormat TextParse TextScalars TextRound TextMeaning Prop_TextSafe Prop_TextRound
  DeclSpec DeclProofs PoolFacts PoolMembers PoolExts ResolveSpec Prop_Pool Prop_Members Prop_Resolve DefaultSpec Prop_Defaults Prop_Declared SaneSpec BridgeProofs NamedSpec.
From Coq Require Import List Permutation.
Import ListNotations.
Local Open Scope list_scope.
Local Open Scope N_scope.

(** ** Identifiers *)
Lemma letter_start c : letter c <-> ident_start c = true.
Proof.
  unfold letter, ident_start, is_alpha, Wire.in_range.
  rewrite !orb_true_iff, !andb_true_iff, !N.leb_le, N.eqb_eq. tauto.
Qed.
Lemma identifier_ok s : identifier s -> ident_okb s = true.
Proof.
  intros (c & r & -> & L & F). cbn. apply andb_true_iff. split; [now apply letter_start|]. apply forallb_forall. intros x Hx.
  rewrite Forall_forall in F. specialize (F x Hx). unfold ident_char. apply orb_true_iff.
  destruct F as [F|F]; [left; now apply letter_start|right]. unfold digit in F. apply andb_true_iff. split; apply N.leb_le; lia.
Qed.
Lemma identifier_no_dot s : identifier s -> ~ In 46 s.
Proof.
  intros (c & r & -> & L & F) [H|H].
  - subst c. unfold letter in L. lia.
  - rewrite Forall_forall in F. specialize (F _ H). unfold letter, digit in F. lia.
Qed.
Lemma identifier_ne s : identifier s -> s <> [].
Proof. intros (c & r & -> & _). discriminate. Qed.
Lemma split_more s : forall cur n, ~ In 46 n -> split_dots cur (s ++ [46] ++ n) = split_dots cur s ++ [n].
Proof.
  assert (forall n cur, ~ In 46 n -> split_dots cur n = [cur ++ n]) as Z.
  { induction n as [|c n IH]; intros cur H; cbn [split_dots]; [now rewrite app_nil_r|].
    destruct (N.eqb_spec c 46) as [->|Hc]; [destruct H; now left|]. rewrite IH by (intros K; apply H; now right). now rewrite <- app_assoc. }
  induction s as [|c s IH]; intros cur n H; cbn [app split_dots].
  - change (46 =? 46) with true. cbv iota. now rewrite Z.
  - destruct (c =? 46); [cbn [app]; f_equal; apply IH; exact H|apply IH; exact H].
Qed.
Lemma dotted_name_ok s : dotted_name s -> dotted_okb s = true.
Proof.
  unfold dotted_okb. intros H. induction H as [n H|s n _ IH H].
  - assert (split_dots [] n = [n]) as ->.
    { pose proof (split_more [] [] n (identifier_no_dot _ H)) as E. cbn [app split_dots] in E. change (46 =? 46) with true in E. cbv iota in E.
      now inversion E. }
    cbn. now rewrite (identifier_ok _ H).
  - rewrite (split_more _ _ _ (identifier_no_dot _ H)), forallb_app, IH. cbn. now rewrite (identifier_ok _ H).
Qed.
Lemma dotted_name_ne s : dotted_name s -> s <> [].
Proof. intros [n H|s' n _ H]; [exact (identifier_ne _ H)|destruct s'; discriminate]. Qed.
Lemma last_dot : forall a b n n', ~ In 46 n -> ~ In 46 n' -> a ++ 46 :: n = b ++ 46 :: n' -> n = n' /\ a = b.
Proof.
  induction a as [|x a IH]; intros [|y b] n n' Hn Hn' E; cbn [app] in E.
  - inversion E. auto.
  - inversion E; subst. destruct Hn. apply in_or_app. right. now left.
  - inversion E; subst. destruct Hn'. apply in_or_app. right. now left.
  - inversion E as [[E1 E2]]. destruct (IH _ _ _ Hn Hn' E2) as [-> ->]. auto.
Qed.
Lemma dotted_inj a b n n' : ~ In 46 n -> ~ In 46 n' -> dotted a n = dotted b n' -> n = n'.
Proof.
  intros Hn Hn' E. unfold dotted in E. destruct a as [|x a], b as [|y b]; cbn [app] in E.
  - exact E.
  - subst n. destruct Hn. right. apply in_or_app. right. now left.
  - subst n'. destruct Hn'. right. apply in_or_app. right. now left.
  - eapply (last_dot (x :: a) (y :: b)); [exact Hn|exact Hn'|exact E].
Qed.
Lemma small_lower s : small_letters s = lowercase s.
Proof. reflexivity. Qed.

Lemma NoDup_distinctb l : NoDup l -> distinctb l = true.
Proof.
  induction l as [|a l IH]; intros H; [reflexivity|]. inversion H as [|? ? A B]; subst. cbn [distinctb]. apply andb_true_iff. split; [|exact (IH B)].
  apply negb_true_iff. destruct (existsb (N.eqb a) l) eqn:E; [|reflexivity]. apply existsb_exists in E. destruct E as (x & Hx & E). apply N.eqb_eq in E. subst x. contradiction.
Qed.

Section Named.
  Context (X : externs) (p : pool).
  Hypothesis SO : search_ok X.
  Hypothesis FL : floats_ok X.
  Hypothesis G : grown X p.
  Hypothesis TY : Forall typed_file (pool_files p).
  Hypothesis PF : Forall protoc_file (pool_files p).
  Hypothesis NF : Forall named_file (pool_files p).
  Notation t := (p_tables p).

  Lemma inv : Inv X p.
  Proof. apply reachable_Inv; [exact SO|]. apply grown_reachable. exact G. Qed.
  Lemma ok : tables_ok t.
  Proof. exact (pool_tables_ok X p SO FL G TY). Qed.
  Lemma named_at k f : nth_error (pool_files p) k = Some f -> named_file f.
  Proof. intros H. rewrite Forall_forall in NF. apply NF. eapply nth_error_In. exact H. Qed.

  (** the scopes of items are dotted names *)
  Lemma message_scope f path scope m : named_file f -> message_at f path scope m -> scope = [] \/ dotted_name scope.
  Proof.
    intros N H. induction H as [j m H|path scope m j n H IH Hn].
    - exact (nf_package _ N).
    - right. pose proof (nf_name _ N _ _ _ (de_message _ _ _ _ H)) as I. cbn [item_name] in I. unfold dotted.
      destruct scope as [|c s]; [now constructor|]. destruct IH as [IH|IH]; [discriminate|]. now apply dn_more.
  Qed.
  Lemma full_named f path scope it : named_file f -> (scope = [] \/ dotted_name scope) -> declares f path scope it -> dotted_name (dotted scope (item_name it)).
  Proof.
    intros N S D. pose proof (nf_name _ N _ _ _ D) as I. unfold dotted. destruct scope as [|c s]; [now constructor|].
    destruct S as [S|S]; [discriminate|]. now apply dn_more.
  Qed.
  Lemma ext_scope f path scope fd : named_file f -> declares f path scope (IExt fd) -> scope = [] \/ dotted_name scope.
  Proof.
    intros N D. inversion D; subst.
    - right. match goal with H : message_at f ?pa ?sc ?m |- _ => exact (full_named f pa sc (IMessage m) N (message_scope _ _ _ _ N H) (de_message _ _ _ _ H)) end.
    - exact (nf_package _ N).
  Qed.

  (** ** Fields *)
  Lemma field_named i mi j fi : nth_error (p_messages p) i = Some mi -> nth_error (m_fields mi) j = Some fi ->
    exists f dm scope fd g k d names0 path,
      nth_error (pool_files p) (id_file (m_id mi)) = Some f /\ message_at f (id_path (m_id mi)) scope dm /\
      id_full (m_id mi) = dotted scope (dp_name dm) /\ m_map_entry mi = dp_map_entry dm /\
      nth_error (dp_fields dm) j = Some fd /\ older names0 (p_names p) /\ declared_syntax f (fi_syntax g) /\
      legal_number (fp_number fd) = true /\
      type_spec names0 (fi_trans g) (fp_type fd) (fp_type_name fd) (dotted (id_full (m_id mi)) (fp_name fd)) k /\
      default_spec X (p_enums p) k (fp_default fd) d /\
      fi = field_of g path (dotted (id_full (m_id mi)) (fp_name fd)) (id_file (m_id mi)) fd k d.
  Proof.
    intros Hm Hfi. destruct (message_decl X p i mi inv Hm) as (f & dm & scope & names0 & Hf & Hd & Hfu & _ & Hme & O & F & Ho & _).
    destruct (F2_nth_r _ _ _ (field_decl _ _ _ _ _ _ _ _ _ F) _ _ Hfi) as (fd & Hfd & j' & S). cbn [fspec] in S.
    destruct S as (g & k & d & Hg & N & T & D & On & E).
    destruct (file_shown X p _ g inv Hg) as (f' & Hf' & Sy). rewrite Hf in Hf'. apply Some_inj in Hf'. subst f'.
    destruct N as (? & ? & ? & _ & _ & _ & L & _).
    exists f, dm, scope, fd, g, k, d, names0. eexists. repeat (split; [eassumption|]). exact E.
  Qed.
  Lemma in_fields i v : In v (msg_fields t i) -> exists mi j fi, nth_error (p_messages p) i = Some mi /\ nth_error (m_fields mi) j = Some fi /\ v = field_view t mi fi.
  Proof.
    intros H. apply (msg_fields_get _ _ _ ok) in H. destruct (get_field_inv _ _ _ _ ok H) as (mi & j & fi & A & B & C & _). exists mi, j, fi. auto.
  Qed.
  Lemma fields_in i mi j fi : nth_error (p_messages p) i = Some mi -> nth_error (m_fields mi) j = Some fi -> In (field_view t mi fi) (msg_fields t i).
  Proof. intros A B. apply (msg_fields_get _ _ _ ok). exact (get_field_at _ _ _ _ _ ok A B). Qed.

  (** a field of kind group *)
  Lemma group_kind names0 trans ty tn scope i : type_spec names0 trans ty tn scope (KGroup i) -> ty = TGroup /\
    exists n d, resolve_name trans names0 scope tn FFieldType = RFound n d /\ d_kind d = DMessage i.
  Proof.
    unfold type_spec. destruct tn as [|c tn]; [destruct ty; discriminate|]. intros (n & d & R & [[j [A B]]|[j [_ B]]]); [|discriminate].
    destruct ty; try discriminate. inversion B; subst. eauto.
  Qed.
  Lemma resolve_absolute trans names0 scope s n d : resolve_name trans names0 scope (46 :: s) FFieldType = RFound n d ->
    n = s /\ In (s, d) names0.
  Proof.
    unfold resolve_name, dot. change (46 =? 46) with true. cbv iota. unfold lookup_name.
    destruct (assoc_s s names0) as [d'|] eqn:E; [|discriminate]. destruct (negb (existsb _ _)); [discriminate|].
    destruct (negb (is_match _ _)); [discriminate|]. intros R. inversion R; subst. split; [reflexivity|]. now apply assoc_s_In.
  Qed.
  Lemma small_dot n : In 46 n -> In 46 (small_letters n).
  Proof. intros H. unfold small_letters. change 46 with (small 46) at 1. now apply in_map. Qed.
  Lemma group_type i mi j fi k : nth_error (p_messages p) i = Some mi -> nth_error (m_fields mi) j = Some fi -> f_kind fi = KGroup k ->
    exists m, nth_error (p_messages p) k = Some m /\ ident_okb (id_name (m_id m)) = true /\
      id_name (f_id fi) = lowercase (id_name (m_id m)) /\
      forall j' fi', nth_error (m_fields mi) j' = Some fi' -> id_name (f_id fi') <> id_name (m_id m).
  Proof.
    intros Hm Hfi K. destruct (field_named _ _ _ _ Hm Hfi) as (f & dm & scope & fd & g & k0 & d & n0 & path & Hf & Hd & Hfu & _ & Hfd & O & _ & _ & T & _ & E).
    assert (k0 = KGroup k) as -> by (subst fi; exact K).
    destruct (group_kind _ _ _ _ _ _ T) as (Ty & n1 & df & R & Dk).
    pose proof (named_at _ _ Hf) as N.
    destruct (nf_group _ N _ _ _ _ Hd (nth_error_In _ _ Hfd) Ty) as (n & Tn & Fn).
    rewrite Tn in R. apply resolve_absolute in R. destruct R as [_ R].
    assert (assoc_s (dotted (dotted scope (dp_name dm)) n) (p_names p) = Some df) as A.
    { apply nodup_assoc; [exact (iv_nodup _ _ inv)|]. eapply older_in; [exact O|exact R]. }
    assert (d_kind df <> DPackage) as NP by congruence.
    destruct (lookup_event X _ _ _ inv A NP) as (e & it & He & Hi & Hn & Hde).
    assert (ev_kind e = DMessage k) as Ke by (rewrite <- Dk, Hde; reflexivity).
    destruct e as [|epath efull ef par idx m'| | | | | | |]; try discriminate. cbn in Ke. inversion Ke; subst idx. cbn in Hi. apply Some_inj in Hi. subst it.
    destruct (event_declared p _ _ He eq_refl) as (f2 & scope2 & Hf2 & D2 & E2). cbn [ev_full item_name] in E2, Hn.
    destruct (iv_msgs _ _ inv _ _ _ _ _ _ He) as (m & Hk & Mid & _).
    pose proof (nf_name _ (named_at _ _ Hf2) _ _ _ D2) as I2. cbn [item_name] in I2.
    pose proof (nf_name _ N _ _ _ (de_field _ _ _ _ _ _ Hd Hfd)) as I1. cbn [item_name] in I1.
    assert (n = dp_name m') as ->.
    { apply (dotted_inj (dotted scope (dp_name dm)) scope2).
      - intros Q. apply small_dot in Q. rewrite <- Fn in Q. exact (identifier_no_dot _ I1 Q).
      - exact (identifier_no_dot _ I2).
      - congruence. }
    assert (id_name (m_id m) = dp_name m') as Nm by (rewrite Mid, E2; apply id_name_mk).
    exists m. split; [exact Hk|]. rewrite Nm. split; [exact (identifier_ok _ I2)|]. split.
    { rewrite E. cbn [field_of f_id]. rewrite id_name_mk. exact Fn. }
    intros j' fi' Hfi' Q. destruct (field_named _ _ _ _ Hm Hfi') as (f' & dm' & scope' & fd' & g' & k' & d' & n0' & path' & Hf' & Hd' & _ & _ & Hfd' & _ & _ & _ & _ & _ & E').
    rewrite Hf in Hf'. apply Some_inj in Hf'. subst f'. assert (dm' = dm) as -> by (apply message_at_found in Hd, Hd'; congruence).
    subst fi'. cbn [field_of f_id] in Q. rewrite id_name_mk in Q.
    destruct (declared_event p _ _ _ _ _ Hf (de_field _ _ _ _ _ _ Hd Hfd')) as (e' & He' & _ & _ & Fu & Ei). cbn [item_name] in Fu.
    assert (e' = EvMessage epath efull ef par k m') as Ee.
    { eapply event_unique; [exact inv|exact He'|exact He|exact Ei|reflexivity|]. rewrite Fu, Q. cbn [ev_full]. congruence. }
    subst e'. discriminate.
  Qed.
  Lemma presence_none i mi j fi : nth_error (p_messages p) i = Some mi -> nth_error (m_fields mi) j = Some fi -> f_presence fi = false ->
    f_default fi = None /\ f_oneof fi = None.
  Proof.
    intros Hm Hfi P. destruct (field_named _ _ _ _ Hm Hfi) as (f & dm & scope & fd & g & k0 & d & n0 & path & Hf & Hd & Hfu & _ & Hfd & O & Sy & _ & T & D & E).
    subst fi. cbn [field_of f_presence f_default f_oneof] in *. unfold presence_of in P. rewrite !orb_false_iff in P. destruct P as [[_ P1] P2].
    split; [|destruct (fp_oneof fd); [discriminate|reflexivity]].
    assert (fp_default fd = None) as Z.
    { apply (nf_default _ (named_at _ _ Hf) _ _ _ _ Hd (nth_error_In _ _ Hfd)).
      apply andb_false_iff in P2. destruct P2 as [P2|P2]; [left; apply negb_false_iff in P2; now apply repeated_iff|right].
      apply orb_false_iff in P2. destruct P2 as [_ P2]. destruct (fi_syntax g); [discriminate|]. exact Sy. }
    rewrite Z in D. exact D.
  Qed.
  Lemma field_text i v : In v (msg_fields t i) -> field_text_okb t i v = true.
  Proof.
    intros Hv. destruct (in_fields _ _ Hv) as (mi & j & fi & Hm & Hfi & ->). unfold field_text_okb. apply andb_true_iff. split.
    - unfold name_text_okb. cbn [field_view fd_kind fd_name].
      assert (ident_okb (id_name (f_id fi)) = true) as Id.
      { destruct (field_named _ _ _ _ Hm Hfi) as (f & dm & scope & fd & g & k0 & d & n0 & path & Hf & Hd & _ & _ & Hfd & _ & _ & _ & _ & _ & E).
        pose proof (nf_name _ (named_at _ _ Hf) _ _ _ (de_field _ _ _ _ _ _ Hd Hfd)) as I1. cbn [item_name] in I1.
        subst fi. cbn [field_of f_id]. rewrite id_name_mk. exact (identifier_ok _ I1). }
      destruct (f_kind fi) as [| | | | | | | | | | | | | | | | |k] eqn:K; try exact Id.
      destruct (group_type _ _ _ _ _ Hm Hfi K) as (m & Hk & A & B & C). cbn [p_tables t_messages]. rewrite Hk, A, B.
      rewrite bytes_eqb_refl. cbn [andb]. apply forallb_forall. intros w Hw. destruct (in_fields _ _ Hw) as (mi' & j' & fi' & Hm' & Hfi' & ->).
      rewrite Hm in Hm'. apply Some_inj in Hm'. subst mi'. cbn [field_view fd_name]. apply orb_true_iff. right. apply negb_true_iff, bytes_eqb_neq. exact (C _ _ Hfi').
    - cbn [field_view fd_presence fd_default fd_oneof]. destruct (f_presence fi) eqn:P; [reflexivity|].
      destruct (presence_none _ _ _ _ Hm Hfi P) as [-> ->]. reflexivity.
  Qed.

  (** ** Extensions *)
  Lemma ext_full_unique i j x y : nth_error (p_exts p) i = Some x -> nth_error (p_exts p) j = Some y ->
    id_full (x_id x) = id_full (x_id y) -> x = y.
  Proof.
    intros Hx Hy E. destruct (C36_lookup_exact X p DkExtension SO (grown_reachable _ _ G)) as (_ & _ & L).
    destruct (L i (x_id x)) as [_ L1]; [cbn; rewrite nth_error_map, Hx; reflexivity|].
    destruct (L j (x_id y)) as [_ L2]; [cbn; rewrite nth_error_map, Hy; reflexivity|]. rewrite E, L2 in L1. apply Some_inj in L1. subst j. congruence.
  Qed.
  Lemma ext_named v i : In v (msg_exts t i) -> dotted_name (fd_full v) /\ fd_json v = bracketed (fd_full v).
  Proof.
    intros Hv. destruct (msg_exts_inv _ _ _ ok Hv) as (m & xi & x & _ & _ & Hx & _ & -> & _).
    destruct (ext_at X p SO G _ _ Hx) as (fi & f & path & scope & fd & g & k & d & n0 & Hf & Dl & _ & _ & _ & _ & par & ex & E).
    cbn [ext_view fd_full fd_json]. rewrite E. cbn [ext_of x_id x_json mk_id id_full]. split; [|reflexivity].
    pose proof (named_at _ _ Hf) as N. exact (full_named f path scope (IExt fd) N (ext_scope _ _ _ _ N Dl) Dl).
  Qed.
  Lemma exts_same v w i : In v (msg_exts t i) -> In w (msg_exts t i) -> fd_full v = fd_full w -> v = w.
  Proof.
    intros Hv Hw E. destruct (msg_exts_inv _ _ _ ok Hv) as (m & xi & x & _ & _ & Hx & _ & -> & _).
    destruct (msg_exts_inv _ _ _ ok Hw) as (m' & yi & y & _ & _ & Hy & _ & -> & _).
    cbn [ext_view fd_full] in E. rewrite (ext_full_unique _ _ _ _ Hx Hy E). reflexivity.
  Qed.
  Lemma ext_text i v : In v (msg_exts t i) -> ext_text_okb t i v = true.
  Proof.
    intros Hv. unfold ext_text_okb. rewrite (dotted_name_ok _ (proj1 (ext_named _ _ Hv))). cbn [andb]. unfold get_ext_by_full.
    destruct (find (fun f => bytes_eqb (fd_full f) (fd_full v)) (msg_exts t i)) as [w|] eqn:E.
    - apply find_some in E. destruct E as [Hw E]. apply bytes_eqb_eq in E. rewrite (exts_same _ _ _ Hw Hv E). apply N.eqb_refl.
    - pose proof (find_none _ _ E _ Hv) as Q. cbv beta in Q. rewrite bytes_eqb_refl in Q. discriminate.
  Qed.

  (** ** Map entries *)
  Lemma entry_field i mi z x : nth_error (p_messages p) i = Some mi -> z < 4294967296 -> forall f scope dm,
    nth_error (pool_files p) (id_file (m_id mi)) = Some f -> message_at f (id_path (m_id mi)) scope dm ->
    In x (dp_fields dm) -> fp_number x = Z.of_N z -> fp_type x <> TGroup -> fp_oneof x = None ->
    exists v, find_field t i (fp_name x) = Some v /\ fd_number v = z /\ fd_oneof v = None.
  Proof.
    intros Hm Lz f scope dm Hf Hd Hx Hz Ht Ho.
    destruct (message_decl X p i mi inv Hm) as (f' & dm' & scope' & names0 & Hf' & Hd' & _ & _ & _ & O & F & _).
    rewrite Hf in Hf'. apply Some_inj in Hf'. subst f'. assert (dm' = dm) as -> by (apply message_at_found in Hd, Hd'; congruence).
    apply In_nth_error in Hx. destruct Hx as [j Hx].
    destruct (F2_nth_l _ _ _ (field_decl _ _ _ _ _ _ _ _ _ F) _ _ Hx) as (fi & Hfi & j' & S). cbn [fspec] in S.
    destruct S as (g & k & d & _ & _ & T & _ & _ & E).
    exists (field_view t mi fi). split; [|split].
    - assert (get_field_by_name t i (fp_name x) = Some (field_view t mi fi)) as B.
      { replace (fp_name x) with (fd_name (field_view t mi fi)) by (rewrite E; cbn [field_view field_of fd_name f_id]; apply id_name_mk).
        eapply get_field_number_name; [exact ok|]. exact (get_field_at _ _ _ _ _ ok Hm Hfi). }
      unfold find_field. rewrite B. assert (fd_is_group (field_view t mi fi) = false) as ->; [|reflexivity].
      rewrite E. unfold fd_is_group. cbn [field_view field_of fd_kind f_kind]. destruct k; try reflexivity. exfalso. apply Ht. eapply group_kind. exact T.
    - rewrite E. cbn [field_view field_of fd_number f_number]. rewrite Hz. unfold as_u32. rewrite Z.mod_small by lia. apply N2Z.id.
    - rewrite E. cbn [field_view field_of fd_oneof f_oneof]. rewrite Ho. reflexivity.
  Qed.
  Lemma map_text v : fd_is_map v = is_map_kind t (fd_card v) (fd_kind v) -> map_text_okb t v = true.
  Proof.
    intros Sh. unfold map_text_okb. rewrite Sh. destruct (is_map_kind t (fd_card v) (fd_kind v)) eqn:E; [|reflexivity].
    unfold is_map_kind in E. apply andb_true_iff in E. destruct E as [_ E].
    assert (forall i, is_map_entry t i = true ->
      match find_field t i (s2b "key"%string), find_field t i (s2b "value"%string) with
      | Some kf, Some vf => (fd_number kf =? 1) && (fd_number vf =? 2) && match fd_oneof kf, fd_oneof vf with None, None => true | _, _ => false end
      | _, _ => false end = true) as Q.
    { intros i Hi. unfold is_map_entry in Hi. cbn [t_messages p_tables] in Hi. destruct (nth_error (p_messages p) i) as [mi|] eqn:Hm; [|discriminate].
      destruct (message_decl X p i mi inv Hm) as (f & dm & scope & names0 & Hf & Hd & _ & _ & Hme & O & F & _).
      rewrite Hi in Hme. symmetry in Hme.
      assert (protoc_file f) as P by (rewrite Forall_forall in PF; apply PF; eapply nth_error_In; exact Hf).
      destruct (pf_entry _ P _ _ _ (de_message _ _ _ _ Hd) Hme) as (kf & vf & Hk & Hv & K1 & K2 & K3 & K4 & V1 & V2).
      pose proof (named_at _ _ Hf) as N.
      destruct (proj1 (nf_entry _ N _ _ _ _ Hd Hme Hk) K1) as [A1 A2]. destruct (proj2 (nf_entry _ N _ _ _ _ Hd Hme Hv) V1) as (B1 & B2 & B3). rewrite <- A1, <- B1.
      destruct (entry_field i mi 1 kf Hm eq_refl f scope dm Hf Hd Hk K1) as (k' & -> & C1 & C2); [|exact A2|].
      { intros Z. rewrite Z in K4. unfold key_type in K4. cbn in K4. repeat (destruct K4 as [K4|K4]; [discriminate|]). destruct K4. }
      destruct (entry_field i mi 2 vf Hm eq_refl f scope dm Hf Hd Hv V1 B3 B2) as (v' & -> & D1 & D2).
      rewrite C1, C2, D1, D2. reflexivity. }
    destruct (fd_kind v); try reflexivity; cbn [kind_msg]; apply Q; exact E.
  Qed.

  (** ** Enums *)
  Lemma enum_text e : enum_text_okb t e = true.
  Proof.
    unfold enum_text_okb. cbn [t_enums p_tables]. destruct (nth_error (p_enums p) e) as [en|] eqn:He; [|reflexivity].
    destruct (enum_decl X p e en inv He) as (f & ep & scope & scope' & Hf & Hd & _ & _ & Hv & _ & VO & _). cbv zeta in *.
    apply forallb_forall. intros [z j] Hz. unfold enum_value_okb. cbn [fst snd].
    destruct (nth_error (e_values en) j) as [v|] eqn:Ej; [|reflexivity].
    apply (Permutation_in _ (vo_perm _ _ _ _ _ VO)) in Hz. apply mapi_in in Hz. destruct Hz as (j' & ev & Hev & E). cbn [Nat.add] in E. inversion E; subst z j'. clear E.
    rewrite Hv, nth_error_map, Hev in Ej. cbn [option_map] in Ej. apply Some_inj in Ej.
    pose proof Hev as Hev'. unfold g_values in Hev'. rewrite mapi_nth in Hev'. destruct (nth_error (ep_values ep) j) as [x|] eqn:Ex; [|discriminate].
    cbn [option_map Nat.add] in Hev'. apply Some_inj in Hev'.
    assert (id_name (ev_id v) = fst x) as Nm by (rewrite <- Ej, <- Hev'; cbn [BuildNames.mk_value ev_id]; apply id_name_mk).
    rewrite Nm. apply andb_true_iff. split.
    - pose proof (nf_name _ (named_at _ _ Hf) _ _ _ (de_value _ _ _ _ _ _ Hd Ex)) as I1. exact (identifier_ok _ I1).
    - unfold enum_number. cbn [t_enums p_tables]. rewrite He, (vo_names _ _ _ _ _ VO).
      assert (assoc_s (fst x) (mapi 0 (fun j0 e0 => (fst (ev_value e0), j0)) (g_values (id_file (e_id en)) e (id_path (e_id en)) scope' (ep_values ep))) = Some j) as ->.
      { apply (assoc_mapi (fun e0 => fst (ev_value e0))); [exact (vo_names_nd _ _ _ _ _ VO)|]. exists j, ev. split; [reflexivity|]. split; [exact Hev|]. rewrite <- Hev'. reflexivity. }
      rewrite Hv, nth_error_map, Hev. cbn [option_map]. rewrite <- Hev'. apply Z.eqb_refl.
  Qed.

  (** ** Text *)
  Hypothesis DX : forall d, NoDup (map fd_number (msg_exts t d)).
  Lemma pool_text_ok : text_okb t = true.
  Proof.
    unfold text_okb. apply andb_true_iff. split; apply forallb_forall; intros d _; [|apply enum_text].
    rewrite !andb_true_iff. repeat split.
    - apply forallb_forall. intros v. apply field_text.
    - apply NoDup_distinctb. apply DX.
    - apply forallb_forall. intros v. apply ext_text.
    - apply forallb_forall. intros v Hv. apply map_text. apply in_app_or in Hv. destruct Hv as [Hv|Hv].
      + destruct (in_fields _ _ Hv) as (mi & j & fi & _ & _ & ->). reflexivity.
      + destruct (msg_exts_inv _ _ _ ok Hv) as (m & xi & x & _ & _ & _ & _ & -> & _). reflexivity.
  Qed.
End Named.
