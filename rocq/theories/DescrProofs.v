(** Consequences of [tables_ok] / [wf]. *)
From Verif Require Import Base BaseProofs Wire WireProofs Unknown UnknownProofs Value Descr Fields DescrOk.

Lemma forallb_i_from_nth {A} (p : nat -> A -> bool) l :
  forall s, forallb_i_from s p l = true <->
  (forall i a, nth_error l i = Some a -> p (s + i)%nat a = true).
Proof.
  induction l as [|x l IH]; intros s; cbn.
  - split; [intros _ i a; destruct i; discriminate|reflexivity].
  - rewrite andb_true_iff, IH. split.
    + intros [H1 H2] [|i] a; cbn.
      * intros [= <-]. now rewrite Nat.add_0_r.
      * intros H. rewrite <- Nat.add_succ_comm. now apply H2.
    + intros H. split.
      * specialize (H O x eq_refl). now rewrite Nat.add_0_r in H.
      * intros i a Hi. rewrite Nat.add_succ_comm. exact (H (S i) a Hi).
Qed.

Lemma forallb_i_nth {A} (p : nat -> A -> bool) l :
  forallb_i p l = true <-> (forall i a, nth_error l i = Some a -> p i a = true).
Proof. unfold forallb_i. rewrite forallb_i_from_nth. reflexivity. Qed.

Lemma bt_sortedb_ok {A} (l : list (N * A)) : bt_sortedb l = true <-> bt_sorted l.
Proof.
  induction l as [|[k v] l IH]; cbn; [tauto|].
  rewrite andb_true_iff, IH, forallb_forall, Forall_forall.
  split; intros [H1 H2]; split; auto; intros x Hx; specialize (H1 x Hx); lia.
Qed.

Lemma tag_okb_ok n : tag_okb n = true <-> tag_ok n.
Proof. unfold tag_okb, tag_ok. rewrite andb_true_iff. lia. Qed.

Lemma nat_opt_eqb_eq a b : nat_opt_eqb a b = true <-> a = Some b.
Proof.
  destruct a as [x|]; cbn; [|split; discriminate].
  rewrite Nat.eqb_eq. split; congruence.
Qed.

Lemma uf_okb_ok u : uf_okb u = true <-> uf_ok u.
Proof.
  induction u as [n v|n bs|n bs|n fs IH|n bs] using ufield_ind'; cbn [uf_okb uf_ok uf_number].
  all: rewrite andb_true_iff, tag_okb_ok; unfold tag_ok.
  - rewrite N.ltb_lt. tauto.
  - rewrite andb_true_iff, bytes_okb_ok, Nat.eqb_eq. tauto.
  - rewrite bytes_okb_ok. tauto.
  - assert (E : forallb uf_okb fs = true <->
      (fix all l := match l with [] => True | u' :: l' => uf_ok u' /\ all l' end) fs).
    { induction IH as [|u us Hu Hus IH']; cbn; [tauto|]. rewrite andb_true_iff, Hu, IH'. tauto. }
    rewrite E. tauto.
  - rewrite andb_true_iff, bytes_okb_ok, Nat.eqb_eq. tauto.
Qed.

Lemma mk_eqb_eq a b : mk_eqb a b = true <-> a = b.
Proof.
  destruct a, b; cbn; try (split; [discriminate|intros E; inversion E]).
  - rewrite eqb_true_iff. split; congruence.
  - rewrite Z.eqb_eq. split; congruence.
  - rewrite Z.eqb_eq. split; congruence.
  - rewrite N.eqb_eq. split; congruence.
  - rewrite N.eqb_eq. split; congruence.
  - rewrite bytes_eqb_eq. split; congruence.
Qed.

Lemma filter_some_In {A} (l : list (option A)) a : In a (filter_some l) <-> In (Some a) l.
Proof.
  induction l as [|[x|] l IH]; cbn; [tauto| |].
  - rewrite IH. split; intros [H|H]; auto; left; congruence.
  - rewrite IH. split; auto. intros [H|H]; [discriminate|exact H].
Qed.

(** ** Per-field facts *)
Record fdl_ok (t : tables) (f : fdl) : Prop := {
  fo_tag : tag_ok (fd_number f);
  fo_kind : kind_okb t (fd_kind f) = true;
  fo_packed : fd_packed f = true -> is_repeated f = true /\ fd_is_packable f = true;
  fo_msg : is_msg_kind (fd_kind f) = true -> is_repeated f = false -> fd_presence f = true;
  fo_default : forall v, fd_default f = Some v -> sc_okb (fd_kind f) v = true
}.
Lemma fdl_okb_ok t f : fdl_okb t f = true -> fdl_ok t f.
Proof.
  unfold fdl_okb. rewrite !andb_true_iff. intros [[[[H1 H2] H3] H4] H5].
  apply tag_okb_ok in H1. constructor; auto.
  - intros E. rewrite E in H3. cbn in H3. now apply andb_true_iff in H3.
  - intros E1 E2. rewrite E1, E2 in H4. exact H4.
  - intros v E. rewrite E in H5. exact H5.
Qed.

Record fdl_shape (t : tables) (f : fdl) : Prop := {
  fs_nopres : is_repeated f = true -> fd_presence f = false;
  fs_map : fd_is_map f = true ->
    exists e kf vf k0, kind_msg (fd_kind f) = Some e
      /\ entry_key t e = Some kf /\ entry_value t e = Some vf
      /\ mk_default (fd_kind kf) = Some k0
      /\ is_repeated kf = false /\ is_repeated vf = false
}.
Lemma shape_okb_ok t f : shape_okb t f = true -> fdl_shape t f.
Proof.
  unfold shape_okb. rewrite andb_true_iff. intros [H1 H2]. constructor.
  - intros E. rewrite E in H1. cbn in H1. now destruct (fd_presence f).
  - intros E. rewrite E in H2. cbn in H2. destruct (kind_msg (fd_kind f)) as [e|]; [|discriminate].
    unfold entry_okb in H2.
    destruct (entry_key t e) as [kf|] eqn:Ek; [|discriminate].
    destruct (entry_value t e) as [vf|] eqn:Ev; [|discriminate].
    destruct (mk_default (fd_kind kf)) as [k0|] eqn:Em; [|discriminate].
    cbn in H2. apply andb_true_iff in H2. destruct H2 as [A B].
    exists e, kf, vf, k0. repeat split; auto; now apply negb_true_iff.
Qed.

(** ** Per-message facts *)
Lemma tables_ok_msg t d m :
  tables_ok t -> nth_error (t_messages t) d = Some m -> msg_okb t d m = true.
Proof. unfold tables_ok, tables_okb. rewrite forallb_i_nth. auto. Qed.

Record msg_facts (t : tables) (d : nat) (m : message_inner) : Prop := {
  mf_sorted : bt_sorted (m_numbers m);
  mf_number_field : forall n i, In (n, i) (m_numbers m) ->
    exists f, nth_error (m_fields m) i = Some f /\ f_number f = n;
  mf_field_number : forall i f, nth_error (m_fields m) i = Some f ->
    bt_get (f_number f) (m_numbers m) = Some i;
  mf_field_name : forall i f, nth_error (m_fields m) i = Some f ->
    assoc_s (id_name (f_id f)) (m_names m) = Some i;
  mf_field_json : forall i f, nth_error (m_fields m) i = Some f ->
    assoc_s (f_json f) (m_jsons m) = Some i;
  mf_field_ok : forall i f, nth_error (m_fields m) i = Some f -> fdl_ok t (field_view t m f);
  mf_field_oneof : forall i f o, nth_error (m_fields m) i = Some f -> f_oneof f = Some o ->
    exists oi, nth_error (m_oneofs m) o = Some oi /\ In i (o_fields oi);
  mf_name_field : forall n i, In (n, i) (m_names m) ->
    exists f, nth_error (m_fields m) i = Some f /\ id_name (f_id f) = n;
  mf_json_field : forall n i, In (n, i) (m_jsons m) ->
    exists f, nth_error (m_fields m) i = Some f /\ f_json f = n;
  mf_oneof_field : forall o oi i, nth_error (m_oneofs m) o = Some oi -> In i (o_fields oi) ->
    exists f, nth_error (m_fields m) i = Some f /\ f_oneof f = Some o;
  mf_ext : forall x, In x (m_exts m) ->
    exists e, nth_error (t_exts t) x = Some e /\ x_extendee e = d /\ fdl_ok t (ext_view t e)
}.

Lemma msg_okb_facts t d m : msg_okb t d m = true -> msg_facts t d m.
Proof.
  unfold msg_okb. rewrite !andb_true_iff, !forallb_i_nth.
  intros [[[[[[H1 H2] H3] H4] H5] H6] H7].
  rewrite forallb_forall in H2, H4, H5, H7.
  constructor.
  - now apply bt_sortedb_ok.
  - intros n i Hin. specialize (H2 _ Hin). cbn in H2.
    destruct (nth_error (m_fields m) i) as [f|]; [|discriminate]. exists f. split; [reflexivity|lia].
  - intros i f Hi. specialize (H3 i f Hi). rewrite !andb_true_iff in H3.
    now apply nat_opt_eqb_eq.
  - intros i f Hi. specialize (H3 i f Hi). rewrite !andb_true_iff in H3.
    now apply nat_opt_eqb_eq.
  - intros i f Hi. specialize (H3 i f Hi). rewrite !andb_true_iff in H3.
    now apply nat_opt_eqb_eq.
  - intros i f Hi. specialize (H3 i f Hi). rewrite !andb_true_iff in H3.
    now apply fdl_okb_ok.
  - intros i f o Hi Ho. specialize (H3 i f Hi). rewrite !andb_true_iff in H3.
    destruct H3 as [_ H3]. rewrite Ho in H3.
    destruct (nth_error (m_oneofs m) o) as [oi|]; [|discriminate]. exists oi. split; [reflexivity|].
    apply existsb_exists in H3. destruct H3 as (x & Hx & E). apply Nat.eqb_eq in E. now subst.
  - intros n i Hin. specialize (H4 _ Hin). cbn in H4.
    destruct (nth_error (m_fields m) i) as [f|]; [|discriminate]. exists f. split; [reflexivity|].
    now apply bytes_eqb_eq.
  - intros n i Hin. specialize (H5 _ Hin). cbn in H5.
    destruct (nth_error (m_fields m) i) as [f|]; [|discriminate]. exists f. split; [reflexivity|].
    now apply bytes_eqb_eq.
  - intros o oi i Ho Hi. specialize (H6 o oi Ho). rewrite forallb_forall in H6.
    specialize (H6 i Hi). destruct (nth_error (m_fields m) i) as [f|]; [|discriminate].
    exists f. split; [reflexivity|]. now apply nat_opt_eqb_eq.
  - intros x Hx. specialize (H7 x Hx). destruct (nth_error (t_exts t) x) as [e|]; [|discriminate].
    apply andb_true_iff in H7. destruct H7 as [A B]. exists e. split; [reflexivity|].
    split; [now apply Nat.eqb_eq|now apply fdl_okb_ok].
Qed.

Lemma tables_facts t d m :
  tables_ok t -> nth_error (t_messages t) d = Some m -> msg_facts t d m.
Proof. intros H E. apply msg_okb_facts. now apply tables_ok_msg. Qed.

(** ** Lookups *)
Lemma get_field_inv t d n f :
  tables_ok t -> get_field t d n = Some f ->
  exists m i fi, nth_error (t_messages t) d = Some m /\ nth_error (m_fields m) i = Some fi
    /\ f = field_view t m fi /\ f_number fi = n.
Proof.
  unfold get_field, view_at. intros Ht.
  destruct (nth_error (t_messages t) d) as [m|] eqn:Em; [|discriminate].
  destruct (bt_get n (m_numbers m)) as [i|] eqn:Eb; [|discriminate].
  destruct (nth_error (m_fields m) i) as [fi|] eqn:Ef; cbn; [|discriminate].
  intros [= <-]. exists m, i, fi. repeat split; auto.
  destruct (tables_facts _ _ _ Ht Em) as [_ Hn _ _ _ _ _ _ _ _ _].
  destruct (Hn n i (bt_get_In _ _ _ Eb)) as (f' & E1 & E2). congruence.
Qed.

Lemma get_field_number t d n f : tables_ok t -> get_field t d n = Some f -> fd_number f = n.
Proof.
  intros Ht H. destruct (get_field_inv _ _ _ _ Ht H) as (m & i & fi & _ & _ & -> & <-). reflexivity.
Qed.

Lemma get_field_ok t d n f : tables_ok t -> get_field t d n = Some f -> fdl_ok t f.
Proof.
  intros Ht H. destruct (get_field_inv _ _ _ _ Ht H) as (m & i & fi & E1 & E2 & -> & _).
  exact (mf_field_ok _ _ _ (tables_facts _ _ _ Ht E1) _ _ E2).
Qed.

Lemma get_field_at t d m i fi :
  tables_ok t -> nth_error (t_messages t) d = Some m -> nth_error (m_fields m) i = Some fi ->
  get_field t d (f_number fi) = Some (field_view t m fi).
Proof.
  intros Ht Em Ef. unfold get_field, view_at. rewrite Em.
  rewrite (mf_field_number _ _ _ (tables_facts _ _ _ Ht Em) _ _ Ef). now rewrite Ef.
Qed.

Lemma get_field_by_name_number t d n f :
  tables_ok t -> get_field_by_name t d n = Some f ->
  fd_name f = n /\ get_field t d (fd_number f) = Some f.
Proof.
  intros Ht. unfold get_field_by_name, view_at.
  destruct (nth_error (t_messages t) d) as [m|] eqn:Em; [|discriminate].
  destruct (assoc_s n (m_names m)) as [i|] eqn:Ea; [|discriminate].
  destruct (nth_error (m_fields m) i) as [fi|] eqn:Ef; cbn; [|discriminate].
  intros [= <-].
  destruct (mf_name_field _ _ _ (tables_facts _ _ _ Ht Em) n i (assoc_s_In _ _ _ Ea)) as (f' & E1 & E2).
  split; [cbn; congruence|]. cbn [fd_number field_view]. eapply get_field_at; eassumption.
Qed.

Lemma get_field_number_name t d n f :
  tables_ok t -> get_field t d n = Some f -> get_field_by_name t d (fd_name f) = Some f.
Proof.
  intros Ht H. destruct (get_field_inv _ _ _ _ Ht H) as (m & i & fi & E1 & E2 & -> & _).
  unfold get_field_by_name, view_at. rewrite E1. cbn [fd_name field_view].
  rewrite (mf_field_name _ _ _ (tables_facts _ _ _ Ht E1) _ _ E2). now rewrite E2.
Qed.

Lemma get_field_by_json_number t d n f :
  tables_ok t -> get_field_by_json t d n = Some f ->
  fd_json f = n /\ get_field t d (fd_number f) = Some f.
Proof.
  intros Ht. unfold get_field_by_json, view_at.
  destruct (nth_error (t_messages t) d) as [m|] eqn:Em; [|discriminate].
  destruct (assoc_s n (m_jsons m)) as [i|] eqn:Ea; [|discriminate].
  destruct (nth_error (m_fields m) i) as [fi|] eqn:Ef; cbn; [|discriminate].
  intros [= <-].
  destruct (mf_json_field _ _ _ (tables_facts _ _ _ Ht Em) n i (assoc_s_In _ _ _ Ea)) as (f' & E1 & E2).
  split; [cbn; congruence|]. cbn [fd_number field_view]. eapply get_field_at; eassumption.
Qed.

Lemma get_field_number_json t d n f :
  tables_ok t -> get_field t d n = Some f -> get_field_by_json t d (fd_json f) = Some f.
Proof.
  intros Ht H. destruct (get_field_inv _ _ _ _ Ht H) as (m & i & fi & E1 & E2 & -> & _).
  unfold get_field_by_json, view_at. rewrite E1. cbn [fd_json field_view].
  rewrite (mf_field_json _ _ _ (tables_facts _ _ _ Ht E1) _ _ E2). now rewrite E2.
Qed.

Lemma msg_exts_inv t d f :
  tables_ok t -> In f (msg_exts t d) ->
  exists m x e, nth_error (t_messages t) d = Some m /\ In x (m_exts m)
    /\ nth_error (t_exts t) x = Some e /\ x_extendee e = d /\ f = ext_view t e /\ fdl_ok t f.
Proof.
  intros Ht. unfold msg_exts. destruct (nth_error (t_messages t) d) as [m|] eqn:Em; [|intros []].
  rewrite in_map_iff. intros (e & <- & He). apply filter_some_In in He.
  apply in_map_iff in He. destruct He as (x & Hx & Hin).
  destruct (mf_ext _ _ _ (tables_facts _ _ _ Ht Em) x Hin) as (e' & E1 & E2 & E3).
  assert (e' = e) by congruence. subst e'.
  exists m, x, e. do 5 (split; [auto|]). exact E3.
Qed.

Lemma get_ext_inv t d n f :
  tables_ok t -> get_ext t d n = Some f -> fd_number f = n /\ In f (msg_exts t d) /\ fdl_ok t f.
Proof.
  intros Ht H. unfold get_ext in H. apply find_some in H. destruct H as [H1 H2].
  destruct (msg_exts_inv _ _ _ Ht H1) as (_ & _ & _ & _ & _ & _ & _ & _ & Hok).
  split; [lia|auto].
Qed.

Lemma get_ext_number t d n f : tables_ok t -> get_ext t d n = Some f -> fd_number f = n.
Proof. intros Ht H. now destruct (get_ext_inv _ _ _ _ Ht H). Qed.

Lemma get_ext_oneof t d n f : tables_ok t -> get_ext t d n = Some f -> fd_oneof f = None.
Proof.
  intros Ht H. destruct (get_ext_inv _ _ _ _ Ht H) as (_ & H1 & _).
  now destruct (msg_exts_inv _ _ _ Ht H1) as (_ & _ & e & _ & _ & _ & _ & -> & _).
Qed.

Lemma find_desc_number t d n f : tables_ok t -> find_desc t d n = Some f -> fd_number f = n.
Proof.
  intros Ht. unfold find_desc. destruct (get_field t d n) as [g|] eqn:E.
  - intros [= <-]. eapply get_field_number; eassumption.
  - intros H. eapply get_ext_number; eassumption.
Qed.

Lemma find_desc_ok t d n f : tables_ok t -> find_desc t d n = Some f -> fdl_ok t f.
Proof.
  intros Ht. unfold find_desc. destruct (get_field t d n) as [g|] eqn:E.
  - intros [= <-]. eapply get_field_ok; eassumption.
  - intros H. now destruct (get_ext_inv _ _ _ _ Ht H) as (_ & _ & ?).
Qed.

Lemma schema_msg t d m :
  wf t -> nth_error (t_messages t) d = Some m -> schema_msg_okb t d m = true.
Proof. intros [_ H]. unfold schema_okb in H. rewrite forallb_i_nth in H. auto. Qed.

Lemma get_field_shape t d n f : wf t -> get_field t d n = Some f -> fdl_shape t f.
Proof.
  intros Hw H. destruct (get_field_inv _ _ _ _ (proj1 Hw) H) as (m & i & fi & E1 & E2 & -> & _).
  pose proof (schema_msg _ _ _ Hw E1) as S. unfold schema_msg_okb in S.
  apply andb_true_iff in S. destruct S as [S _]. rewrite forallb_forall in S.
  apply shape_okb_ok, S. eapply nth_error_In; eassumption.
Qed.

Lemma get_ext_shape t d n f : wf t -> get_ext t d n = Some f -> fdl_shape t f.
Proof.
  intros Hw H. destruct (get_ext_inv _ _ _ _ (proj1 Hw) H) as (_ & Hin & _).
  destruct (msg_exts_inv _ _ _ (proj1 Hw) Hin) as (m & x & e & E1 & E2 & E3 & _ & -> & _).
  pose proof (schema_msg _ _ _ Hw E1) as S. unfold schema_msg_okb in S.
  apply andb_true_iff in S. destruct S as [_ S]. rewrite forallb_forall in S.
  specialize (S x E2). rewrite E3 in S. apply andb_true_iff in S. now apply shape_okb_ok.
Qed.

Lemma find_desc_shape t d n f : wf t -> find_desc t d n = Some f -> fdl_shape t f.
Proof.
  intros Hw. unfold find_desc. destruct (get_field t d n) as [g|] eqn:E.
  - intros [= <-]. eapply get_field_shape; eassumption.
  - intros H. eapply get_ext_shape; eassumption.
Qed.

(** declared fields and extensions have different numbers *)
Lemma field_ext_disjoint t d n f : wf t -> get_ext t d n = Some f -> get_field t d n = None.
Proof.
  intros Hw H. destruct (get_ext_inv _ _ _ _ (proj1 Hw) H) as (En & Hin & _).
  destruct (msg_exts_inv _ _ _ (proj1 Hw) Hin) as (m & x & e & E1 & E2 & E3 & _ & -> & _).
  pose proof (schema_msg _ _ _ Hw E1) as S. unfold schema_msg_okb in S.
  apply andb_true_iff in S. destruct S as [_ S]. rewrite forallb_forall in S.
  specialize (S x E2). rewrite E3 in S. apply andb_true_iff in S. destruct S as [_ S].
  unfold get_field. rewrite E1. cbn in En. rewrite <- En.
  destruct (bt_get (x_number e) (m_numbers m)); [discriminate|reflexivity].
Qed.

(** ** fields() *)
Lemma msg_fields_get t d f :
  tables_ok t -> In f (msg_fields t d) <-> get_field t d (fd_number f) = Some f.
Proof.
  intros Ht. unfold msg_fields. split.
  - destruct (nth_error (t_messages t) d) as [m|] eqn:Em; [|intros []].
    rewrite filter_some_In, in_map_iff. intros ([n i] & Hv & Hin). cbn in Hv.
    unfold view_at in Hv. destruct (nth_error (m_fields m) i) as [fi|] eqn:Ef; [|discriminate].
    cbn in Hv. injection Hv as <-. cbn [fd_number field_view]. eapply get_field_at; eassumption.
  - intros H. destruct (get_field_inv _ _ _ _ Ht H) as (m & i & fi & E1 & E2 & E3 & E4).
    rewrite E1. apply filter_some_In, in_map_iff. exists (fd_number f, i). split.
    + cbn. unfold view_at. rewrite E2. cbn. now rewrite E3.
    + rewrite <- E4. apply bt_get_In. apply (mf_field_number _ _ _ (tables_facts _ _ _ Ht E1) _ _ E2).
Qed.

Lemma msg_fields_numbers t d m :
  tables_ok t -> nth_error (t_messages t) d = Some m ->
  map fd_number (msg_fields t d) = map fst (m_numbers m).
Proof.
  intros Ht Em. unfold msg_fields. rewrite Em.
  pose proof (mf_number_field _ _ _ (tables_facts _ _ _ Ht Em)) as H.
  induction (m_numbers m) as [|[n i] l IH]; [reflexivity|].
  cbn [map snd fst filter_some].
  destruct (H n i (or_introl eq_refl)) as (f & E1 & E2). unfold view_at at 1. rewrite E1.
  cbn [option_map filter_some map]. rewrite IH by (intros n' i' Hin; apply H; now right).
  cbn [fd_number field_view]. now rewrite E2.
Qed.

Lemma msg_fields_nodup t d : tables_ok t -> NoDup (map fd_number (msg_fields t d)).
Proof.
  intros Ht. destruct (nth_error (t_messages t) d) as [m|] eqn:Em.
  - rewrite (msg_fields_numbers _ _ _ Ht Em). apply bt_sorted_nodup.
    apply (mf_sorted _ _ _ (tables_facts _ _ _ Ht Em)).
  - unfold msg_fields. rewrite Em. constructor.
Qed.

Lemma msg_fields_index_get t d f :
  tables_ok t -> In f (msg_fields_index t d) <-> get_field t d (fd_number f) = Some f.
Proof.
  intros Ht. unfold msg_fields_index. split.
  - destruct (nth_error (t_messages t) d) as [m|] eqn:Em; [|intros []].
    rewrite in_map_iff. intros (fi & <- & Hin). apply In_nth_error in Hin. destruct Hin as (i & Hi).
    cbn [fd_number field_view]. eapply get_field_at; eassumption.
  - intros H. destruct (get_field_inv _ _ _ _ Ht H) as (m & i & fi & E1 & E2 & E3 & E4).
    rewrite E1. apply in_map_iff. exists fi. split; [congruence|]. eapply nth_error_In; eassumption.
Qed.

(** ** Oneofs *)
(** The members of the oneof containing [f], by number: the relation is
    symmetric and [f] itself is a member. *)
Lemma oneof_numbers_spec t d m o n :
  tables_ok t -> nth_error (t_messages t) d = Some m ->
  In n (oneof_numbers m o) <->
  exists i fi, nth_error (m_fields m) i = Some fi /\ f_number fi = n /\ f_oneof fi = Some o.
Proof.
  intros Ht Em. pose proof (tables_facts _ _ _ Ht Em) as F. unfold oneof_numbers. split.
  - destruct (nth_error (m_oneofs m) o) as [oi|] eqn:Eo; [|intros []].
    rewrite in_map_iff. intros (i & Hn & Hin).
    destruct (mf_oneof_field _ _ _ F o oi i Eo Hin) as (fi & E1 & E2). rewrite E1 in Hn.
    exists i, fi. auto.
  - intros (i & fi & E1 & E2 & E3). destruct (mf_field_oneof _ _ _ F i fi o E1 E3) as (oi & E4 & E5).
    rewrite E4, in_map_iff. exists i. rewrite E1. auto.
Qed.

Lemma oneof_siblings t d n f nums k :
  tables_ok t -> get_field t d n = Some f -> fd_oneof f = Some nums -> In k nums ->
  exists g, get_field t d k = Some g /\ fd_oneof g = Some nums.
Proof.
  intros Ht H Ho Hk. destruct (get_field_inv _ _ _ _ Ht H) as (m & i & fi & E1 & E2 & -> & E4).
  cbn in Ho. destruct (f_oneof fi) as [o|] eqn:Eo; [|discriminate]. injection Ho as <-.
  apply (oneof_numbers_spec _ _ _ _ _ Ht E1) in Hk. destruct Hk as (j & fj & F1 & F2 & F3).
  exists (field_view t m fj). split.
  - rewrite <- F2. eapply get_field_at; eassumption.
  - cbn. now rewrite F3.
Qed.

Lemma oneof_self t d n f nums :
  tables_ok t -> get_field t d n = Some f -> fd_oneof f = Some nums -> In n nums.
Proof.
  intros Ht H Ho. destruct (get_field_inv _ _ _ _ Ht H) as (m & i & fi & E1 & E2 & -> & E4).
  cbn in Ho. destruct (f_oneof fi) as [o|] eqn:Eo; [|discriminate]. injection Ho as <-.
  apply (oneof_numbers_spec _ _ _ _ _ Ht E1). eauto.
Qed.

(** Two declared fields share a oneof exactly when each is a member of the
    other's list. *)
Lemma oneof_symm t d n k f g nums :
  tables_ok t -> get_field t d n = Some f -> get_field t d k = Some g ->
  fd_oneof f = Some nums -> In k nums -> fd_oneof g = Some nums /\ In n nums.
Proof.
  intros Ht Hf Hg Ho Hk. split.
  - destruct (oneof_siblings _ _ _ _ _ _ Ht Hf Ho Hk) as (g' & E1 & E2). congruence.
  - eapply oneof_self; eassumption.
Qed.
