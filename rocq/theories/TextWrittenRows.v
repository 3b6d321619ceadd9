(** C66: what of a message is written, and that an Any is taken apart as the
    specification says. *)
From Coq Require Import String.
From Verif Require Import Base BaseProofs Wire WireProofs Unknown UnknownProofs Value Descr Fields Codec DescrOk DescrProofs FieldsProofs
  MergeProofs ItemRound WireSpec Float TextFormat TextLexProofs TextRound JsonNumbers JsonMeaning JsonWritten JsonWrittenScalars JsonWrittenMain JsonWrittenAll
  TextWritten TextWrittenWords TextWrittenUnknown Prop_Decode EncBytes JsonSafe Prop_TextRound.
Open Scope list_scope.
Open Scope N_scope.

(** ** Joining *)
Lemma rjoin_cons sep a l : l <> [] -> rjoin sep (a :: l) = let! x := a in let! y := rjoin sep l in Ok (x ++ sep ++ y).
Proof. destruct l; [contradiction|reflexivity]. Qed.
Lemma rjoin_app sep l l' : l <> [] -> l' <> [] -> rjoin sep (l ++ l') = let! x := rjoin sep l in let! y := rjoin sep l' in Ok (x ++ sep ++ y).
Proof.
  intros H H'. induction l as [|a l IH]; [contradiction|]. destruct l as [|b l].
  - cbn [app]. rewrite rjoin_cons by exact H'. reflexivity.
  - cbn [app]. rewrite (rjoin_cons sep a (b :: l)), (rjoin_cons sep a (b :: l ++ l')) by discriminate. change (b :: l ++ l') with ((b :: l) ++ l'). rewrite IH by discriminate.
    destruct a; cbn [rbind]; try reflexivity. destruct (rjoin sep (b :: l)); cbn [rbind]; try reflexivity.
    destruct (rjoin sep l'); cbn [rbind]; try reflexivity. now rewrite <- !app_assoc.
Qed.
Lemma rjoin_concat sep ls : Forall (fun l => l <> []) ls -> rjoin sep (map (rjoin sep) ls) = rjoin sep (concat ls).
Proof.
  induction 1 as [|l ls H F IH]; [reflexivity|]. cbn [map concat]. destruct ls as [|l' ls].
  - cbn [map concat]. rewrite app_nil_r. reflexivity.
  - rewrite rjoin_cons by discriminate. rewrite IH. rewrite rjoin_app; [reflexivity|exact H|]. inversion_clear F. cbn [concat]. destruct l'; [contradiction|discriminate].
Qed.

Section Rows.
  Variables (E : text_externs) (t : tables) (o : topt).
  Hypothesis Hwf : wf t.
  Let Ht : tables_ok t := proj1 Hwf.
  Let full : bool := negb (o_skip_default o).

  Definition rest_of (d : nat) (kv : N * slot value) : list (N * list row) :=
    match snd kv with
    | SVal v => match get_ext t d (fst kv) with
                | Some x => if fd_has t x v then [(fst kv, [RExt x v])] else []
                | None => []
                end
    | SUnk us => if o_skip_unknown o then [] else [(fst kv, map RUnk us)]
    | Taken => []
    end.
  Definition row_list (m : dynmsg) : list row :=
    map (fun f => RField f (get_field_value t m f)) (filter (to_show t o m) (descs t (o_index_order o) (dm_desc m)))
    ++ concat (map snd (flat_map (rest_of (dm_desc m)) (dm_fields m))).

  Lemma rest_in m n x : msg_ok t m -> In (n, x) (flat_map (rest_of (dm_desc m)) (dm_fields m)) <-> rest_at t o m n x.
  Proof.
    intros Hm. pose proof (mo_sorted _ _ Hm) as Hs. rewrite in_flat_map. unfold rest_at. split.
    - intros ([k s] & Hin & H). apply bt_In_get in Hin; [|exact Hs]. unfold rest_of in H. cbn [fst snd] in H. destruct s as [|v|us]; [destruct H| |].
      + destruct (get_ext t (dm_desc m) k) as [f|] eqn:Ex; [|destruct H]. destruct (fd_has t f v) eqn:Eh; [|destruct H]. destruct H as [[= <- <-]|[]]. left. exists f.
        pose proof (get_ext_number _ _ _ _ Ht Ex) as En. unfold has_field, fs_has, get_field_value, fs_get, fs_get_value. rewrite En, Hin. auto.
      + destruct (o_skip_unknown o) eqn:Eo; [destruct H|]. destruct H as [[= <- <-]|[]]. right. exists us. auto.
    - intros [(f & Ex & Hh & ->)|(us & Eo & Hg & ->)].
      + pose proof (get_ext_number _ _ _ _ Ht Ex) as En. unfold has_field, fs_has, get_field_value, fs_get, fs_get_value in *. rewrite En in *.
        destruct (bt_get n (dm_fields m)) as [[|v|us]|] eqn:Eg; try discriminate. exists (n, SVal v). split; [now apply bt_get_In|].
        unfold rest_of. cbn [fst snd]. rewrite Ex, Hh. now left.
      + exists (n, SUnk us). split; [now apply bt_get_In|]. unfold rest_of. cbn [fst snd]. rewrite Eo. now left.
  Qed.
  Lemma descs_order d : (d < length (t_messages t))%nat -> in_order t o d (descs t (o_index_order o) d).
  Proof.
    intros Hd. split; [intros f; apply (descs_get t Hwf)|]. unfold descs. destruct (o_index_order o).
    - destruct (nth_error (t_messages t) d) as [mi|] eqn:Em; [|apply nth_error_None in Em; lia]. exists mi. split; [reflexivity|].
      unfold msg_fields_index. rewrite Em, map_map. reflexivity.
    - now apply msg_fields_increasing.
  Qed.
  Lemma order_unique d fs fs' : in_order t o d fs -> in_order t o d fs' -> fs = fs'.
  Proof.
    unfold in_order. intros [H1 H2] [H1' H2']. destruct (o_index_order o).
    - destruct H2 as (mi & E1 & E2), H2' as (mi' & E1' & E2'). rewrite E1 in E1'. injection E1' as <-. rewrite <- E2' in E2.
      assert (G1 : forall f, In f fs -> get_field t d (fd_number f) = Some f) by (intros f; apply H1). assert (G2 : forall f, In f fs' -> get_field t d (fd_number f) = Some f) by (intros f; apply H1').
      clear -G1 G2 E2. revert fs' G2 E2. induction fs as [|f fs IH]; intros [|f' fs'] G2 E2; try discriminate; [reflexivity|]. cbn [map] in E2.
      assert (En : fd_number f = fd_number f') by congruence. assert (Er : map fd_number fs = map fd_number fs') by congruence. f_equal.
      + pose proof (G1 f (or_introl eq_refl)) as A. pose proof (G2 f' (or_introl eq_refl)) as B. rewrite En in A. congruence.
      + apply IH; auto; intros g Hg; [apply G1|apply G2]; now right.
    - eapply increasing_ext; eauto. intros f. now rewrite H1, H1'.
  Qed.
  Lemma rows_iff m l : msg_ok t m -> rows_listed t o m l <-> l = row_list m.
  Proof.
    intros Hm. assert (C : increasing (map fst (flat_map (rest_of (dm_desc m)) (dm_fields m)))).
    { apply flat_increasing; [apply Hm|]. intros [k s] _. unfold rest_of. cbn [fst snd]. destruct s as [|v|us].
      - split; [cbn; lia|intros b []].
      - destruct (get_ext t (dm_desc m) k); [|split; [cbn; lia|intros b []]]. destruct (fd_has t _ v); [|split; [cbn; lia|intros b []]]. split; [cbn; lia|]. intros b [<-|[]]. reflexivity.
      - destruct (o_skip_unknown o); [split; [cbn; lia|intros b []]|]. split; [cbn; lia|]. intros b [<-|[]]. reflexivity. }
    split.
    - intros (fs & rest & H1 & H2 & H3 & ->). pose proof (order_unique _ _ _ H1 (descs_order _ (mo_desc _ _ Hm))) as ->.
      assert (rest = flat_map (rest_of (dm_desc m)) (dm_fields m)) as -> ; [|reflexivity].
      eapply (increasing_ext fst); eauto. intros [n x]. rewrite H3. symmetry. now apply rest_in.
    - intros ->. exists (descs t (o_index_order o) (dm_desc m)), (flat_map (rest_of (dm_desc m)) (dm_fields m)).
      split; [apply descs_order, (mo_desc _ _ Hm)|]. split; [exact C|]. split; [|reflexivity]. intros n x. now apply rest_in.
  Qed.

  (** ** The same rows as the writer goes through *)
  Section Any.
    Variable any : nat -> dynmsg -> option (res bytes).
    Let fmt := fmt_value E t o any.

    Definition fmt_row (i : nat) (r : row) : res bytes :=
      match r with
      | RField f v => let! b := field_value o v (fmt v i (Some (fd_kind f))) in Ok (print_name t f ++ b)
      | RExt f v => let! b := field_value o v (fmt v i (Some (fd_kind f))) in Ok (91 :: fd_full f ++ 93 :: b)
      | RUnk u => fmt_unknown o (S (girth u)) i u
      end.
    Definition same_item (it : item closure) (rs : list row) : Prop :=
      match it with
      | IField f vc => rs = [RField f (fst vc)] /\ forall i, snd vc i (Some (fd_kind f)) = fmt (fst vc) i (Some (fd_kind f))
      | IExt f vc => rs = [RExt f (fst vc)] /\ forall i, snd vc i (Some (fd_kind f)) = fmt (fst vc) i (Some (fd_kind f))
      | IUnk us => rs = map RUnk us /\ us <> [] /\ Forall uf_ok us
      end.
    Lemma item_rows i it rs : same_item it rs -> fmt_item t o i it = rjoin (separator o i) (map (fmt_row i) rs).
    Proof.
      destruct it as [f vc|f vc|us]; cbn [same_item fmt_item].
      - intros [-> H]. cbn [map rjoin fmt_row]. now rewrite H.
      - intros [-> H]. cbn [map rjoin fmt_row]. now rewrite H.
      - intros (-> & _ & Hu). rewrite map_map. f_equal. apply map_ext_in. intros u Hin. cbn [fmt_row].
        destruct (stored_unknown o us u Hu Hin) as (f & F1 & F2). rewrite Forall_forall in Hu.
        destruct (unknown_shown o (S (girth u)) u (Hu u Hin) ltac:(lia)) as (f' & F1' & F2'). rewrite F2, F2'. assert (f = f'); [|now subst].
        apply F1', F1. reflexivity.
    Qed.
    Lemma close_value fs k : fs_get_value (map (close_slot E t o any) fs) k = option_map (fun v => (v, fun i k' => fmt v i k')) (fs_get_value fs k).
    Proof.
      unfold fs_get_value. induction fs as [|[k' s] fs IH]; cbn [map bt_get]; [reflexivity|]. unfold close_slot at 1. cbn [fst snd].
      destruct (k =? k'); [|exact IH]. destruct s; reflexivity.
    Qed.
    Lemma default_same d n f i : get_field t d n = Some f -> fd_presence f = false ->
      fmt_default E t (fd_default_value t f) (Some (fd_kind f)) = fmt (fd_default_value t f) i (Some (fd_kind f)).
    Proof.
      intros Hg Hp. pose proof (default_flat t Hwf _ _ _ Hg Hp) as Hf. unfold fmt_default, fmt. destruct (fd_default_value t f) as [b|z|z|q|q|q|q|s|s|z|m|vs|kvs] eqn:Ed; try reflexivity.
      - cbn [fmt_scalar fmt_value]. destruct (fd_kind f); try reflexivity. destruct (enum_name E t _ z); reflexivity.
      - destruct Hf.
      - destruct vs; [reflexivity|destruct Hf].
      - destruct kvs; [|destruct Hf]. cbn [fmt_value fmt_scalar map rjoin rbind]. assert (Em : fd_is_map f = true).
        { unfold fd_default_value in Ed. destruct (fd_is_list f); [discriminate|]. destruct (fd_is_map f); [reflexivity|].
          destruct (fd_default f) as [v|] eqn:Ev; [|destruct (fd_kind f); discriminate]. apply (fo_default _ _ (get_field_ok _ _ _ _ Ht Hg)) in Ev. subst v. destruct (fd_kind f); discriminate Ev. }
        assert (Hsh : fdl_shape t f) by (eapply find_desc_shape; [exact Hwf|]; unfold find_desc; rewrite Hg; reflexivity).
        destruct (fs_map _ _ Hsh Em) as (e & kf & vf & k0 & H1 & H2 & H3 & _). unfold map_value_kind. rewrite H1, H3. reflexivity.
    Qed.
    Let items d fs := fs_iter_gen t fst (closure_default E t) d full (o_index_order o) (map (close_slot E t o any) fs).
    Let wanted (its : list (item closure)) := if o_skip_unknown o then filter (fun it => negb (is_unk it)) its else its.
    Lemma wanted_app a b : wanted (a ++ b) = wanted a ++ wanted b.
    Proof. unfold wanted. destruct (o_skip_unknown o); [|reflexivity]. apply filter_app. Qed.
    Lemma items_same m : msg_ok t m -> exists rss, Forall2 same_item (wanted (items (dm_desc m) (dm_fields m))) rss /\ concat rss = row_list m.
    Proof.
      intros Hm. unfold items, fs_iter_gen. rewrite wanted_app. unfold row_list.
      assert (A : forall l, (forall f, In f l -> get_field t (dm_desc m) (fd_number f) = Some f) ->
        exists rss, Forall2 same_item (wanted (iter_declared t fst (closure_default E t) full l (map (close_slot E t o any) (dm_fields m)))) rss /\
          concat rss = map (fun f => RField f (get_field_value t m f)) (filter (to_show t o m) l)).
      { induction l as [|f l IH]; intros Hl.
        { exists []. split; [|reflexivity]. unfold wanted. cbn. destruct (o_skip_unknown o); constructor. }
        destruct IH as (rss & F & C); [intros; apply Hl; now right|]. unfold iter_declared in *. cbn [flat_map filter map]. rewrite wanted_app.
        unfold to_show at 1, has_field, fs_has. unfold get_field_value, fs_get in *. rewrite close_value. destruct (fs_get_value (dm_fields m) (fd_number f)) as [v|] eqn:Ev; cbn [option_map fst].
        - replace (fd_has t f v || negb (o_skip_default o) && negb (fd_presence f)) with (if full then negb (fd_presence f) || fd_has t f v else fd_has t f v)
            by (unfold full; destruct (o_skip_default o), (fd_has t f v), (fd_presence f); reflexivity).
          destruct (if full then _ else _).
          + exists ([RField f v] :: rss). split.
            * unfold wanted at 1. cbn [filter is_unk negb]. assert (S : same_item (IField f (v, fun i k' => fmt v i k')) [RField f v]) by (split; [reflexivity|reflexivity]).
              destruct (o_skip_unknown o); cbn [app]; constructor; assumption.
            * cbn [concat app map]. rewrite Ev, C. reflexivity.
          + exists rss. split; [unfold wanted at 1; destruct (o_skip_unknown o); exact F|exact C].
        - cbn [orb]. fold full. destruct (full && negb (fd_presence f)) eqn:Ef.
          + exists ([RField f (fd_default_value t f)] :: rss). split.
            * assert (S : same_item (IField f (closure_default E t f)) [RField f (fd_default_value t f)]).
              { split; [reflexivity|]. intros i. cbn [closure_default fst snd]. apply andb_true_iff in Ef. destruct Ef as [_ Ef]. apply negb_true_iff in Ef.
                eapply default_same; [|exact Ef]. apply Hl. now left. }
              unfold wanted at 1. cbn [filter is_unk negb]. destruct (o_skip_unknown o); cbn [app]; constructor; assumption.
            * cbn [concat app map]. rewrite Ev, C. reflexivity.
          + exists rss. split; [unfold wanted at 1; destruct (o_skip_unknown o); exact F|exact C]. }
      assert (B : forall l, Forall (fun kv => ok_slot t (dm_desc m) kv = true) l ->
        exists rss, Forall2 same_item (wanted (iter_rest t fst (dm_desc m) (map (close_slot E t o any) l))) rss /\ concat rss = concat (map snd (flat_map (rest_of (dm_desc m)) l))).
      { induction 1 as [|[k s] l Hk Hl (rss & F & C)].
        { exists []. split; [|reflexivity]. unfold wanted. cbn. destruct (o_skip_unknown o); constructor. }
        unfold iter_rest in *. cbn [flat_map map]. rewrite wanted_app, map_app, concat_app. unfold close_slot at 1 2, rest_of at 1. cbn [fst snd]. destruct s as [|v|us]; cbn [fst snd].
        - exists rss. split; [unfold wanted at 1; destruct (o_skip_unknown o); exact F|exact C].
        - destruct (get_ext t (dm_desc m) k) as [x|]; [|exists rss; split; [unfold wanted at 1; destruct (o_skip_unknown o); exact F|exact C]]. cbn [fst].
          destruct (fd_has t x v); [|exists rss; split; [unfold wanted at 1; destruct (o_skip_unknown o); exact F|exact C]].
          exists ([RExt x v] :: rss). split; [|cbn [concat app map snd]; now rewrite C].
          unfold wanted at 1. cbn [filter is_unk negb]. assert (S : same_item (IExt x (v, fun i k' => fmt v i k')) [RExt x v]) by (split; [reflexivity|reflexivity]).
          destruct (o_skip_unknown o); cbn [app]; constructor; assumption.
        - unfold wanted at 1. cbn [filter is_unk negb]. destruct (o_skip_unknown o); [exists rss; split; [exact F|exact C]|].
          exists (map RUnk us :: rss). split; [|cbn [concat app map snd]; rewrite app_nil_r; now rewrite C]. cbn [app]. constructor; [|exact F]. split; [reflexivity|].
          unfold ok_slot in Hk. cbn [fst snd] in Hk. destruct (find_desc t (dm_desc m) k); [discriminate|]. rewrite !andb_true_iff in Hk. destruct Hk as [[_ H1] H2].
          split; [destruct us; [discriminate|discriminate]|]. apply Forall_forall. rewrite forallb_forall in H2. intros u Hu. apply H2 in Hu. apply andb_true_iff in Hu.
          now apply uf_okb_ok. }
      destruct (A (descs t (o_index_order o) (dm_desc m))) as (ra & FA & CA); [intros f Hf; now apply (descs_get t Hwf) in Hf|].
      destruct (B (dm_fields m)) as (rb & FB & CB).
      { apply Forall_forall. intros [k s] Hin. apply bt_In_get in Hin; [|apply Hm]. exact (mo_slots _ _ Hm _ _ Hin). }
      exists (ra ++ rb). split; [|rewrite concat_app; now rewrite CA, CB]. now apply Forall2_app.
    Qed.
    Lemma same_nonempty it rs : same_item it rs -> rs <> [].
    Proof. destruct it as [f vc|f vc|us]; cbn; [intros [-> _]; discriminate|intros [-> _]; discriminate|]. intros (-> & H & _). destruct us; [contradiction|discriminate]. Qed.
    Lemma items_join m i : msg_ok t m -> fmt_items t o i (items (dm_desc m) (dm_fields m)) = rjoin (separator o i) (map (fmt_row i) (row_list m)).
    Proof.
      intros Hm. destruct (items_same m Hm) as (rss & F & <-). unfold fmt_items. fold (wanted (items (dm_desc m) (dm_fields m))). rewrite concat_map, <- rjoin_concat.
      - f_equal. induction F as [|it rs l l' H F IH]; [reflexivity|]. cbn [map]. now rewrite (item_rows i it rs H), IH.
      - clear -F. induction F as [|it rs l l' H F IH]; constructor; [|exact IH]. apply same_nonempty in H. destruct rs; [contradiction|discriminate].
    Qed.
    Lemma nothing_rows m : msg_ok t m -> forallb (fun it => o_skip_unknown o && is_unk it) (items (dm_desc m) (dm_fields m)) = true <-> row_list m = [].
    Proof.
      intros Hm. destruct (items_same m Hm) as (rss & F & <-).
      assert (G : forallb (fun it => o_skip_unknown o && is_unk it) (items (dm_desc m) (dm_fields m)) = true <-> wanted (items (dm_desc m) (dm_fields m)) = []).
      { clear F. unfold wanted. induction (items (dm_desc m) (dm_fields m)) as [|it l IH]; [cbn; destruct (o_skip_unknown o); tauto|]. cbn [forallb filter]. destruct (o_skip_unknown o).
        - cbn [andb] in *. destruct it; cbn [is_unk negb andb]; [split; discriminate|split; discriminate|exact IH].
        - cbn [andb]. split; discriminate. }
      rewrite G. destruct F as [|it rs l l' H F]; [tauto|]. split; [discriminate|]. apply same_nonempty in H. cbn [concat]. destruct rs; [contradiction|discriminate].
    Qed.

    Definition msg_fmt (i : nat) (m : dynmsg) : res bytes :=
      match any i m with Some r => r | None => rjoin (separator o i) (map (fmt_row i) (row_list m)) end.
    Lemma message_rows i m : ok_msg t m = true -> fmt_message E t o any i m = msg_fmt i m.
    Proof. intros Hm. apply ok_msg_iff in Hm. unfold fmt_message, msg_fmt. destruct (any i m); [reflexivity|]. now apply items_join. Qed.
    Lemma value_rows m i k : ok_msg t m = true -> fmt_value E t o any (VMessage m) i k =
      match row_list m with [] => Ok [123; 125] | _ => braces o i (fun i => msg_fmt i m) end.
    Proof.
      intros Hm. apply ok_msg_iff in Hm. destruct m as [d fs].
      change (fmt_value E t o any (VMessage (DM d fs)) i k) with
        (if forallb (fun it => o_skip_unknown o && is_unk it) (items d fs) then Ok [123; 125] else
         braces o i (fun i => match any i (DM d fs) with Some r => r | None => fmt_items t o i (items d fs) end)).
      pose proof (nothing_rows _ Hm) as N. cbn [dm_desc dm_fields] in N. destruct (forallb _ _).
      - rewrite (proj1 N eq_refl). reflexivity.
      - assert (J : forall i, fmt_items t o i (items d fs) = rjoin (separator o i) (map (fmt_row i) (row_list (DM d fs)))) by (intros j; exact (items_join _ j Hm)).
        unfold braces, msg_fmt. rewrite !J. destruct (row_list (DM d fs)); [exfalso; destruct N as [_ N]; discriminate (N eq_refl)|]. reflexivity.
    Qed.
  End Any.

  (** ** Any *)
  Lemma any_wf : wf any_tables.
  Proof. split; vm_compute; reflexivity. Qed.
  Lemma any_content m b x : ok_msg t m = true -> enc_msg t m = Ok b -> msg_decode any_tables 0 b = Ok x ->
    exists url v, get_field_by_number any_tables x 1 = Some (VString url) /\ get_field_by_number any_tables x 2 = Some (VBytes v) /\ bytes_ok v.
  Proof.
    intros Hm He Hd. destruct (ok_msg_enc t m Hwf Hm) as (b' & He' & Hb). rewrite He in He'. injection He' as <-.
    pose proof (C04_decode_total any_tables 0 b any_wf ltac:(cbn; lia) Hb) as C. rewrite Hd in C. destruct C as [Ho Ed]. apply ok_msg_iff in Ho.
    assert (G : forall n f, get_field any_tables 0 n = Some f -> exists v, get_field_by_number any_tables x n = Some v /\ ok_field any_tables f v = true).
    { intros n f Hf. unfold get_field_by_number. rewrite Ed, Hf. eexists. split; [reflexivity|]. pose proof (get_field_number _ _ _ _ (proj1 any_wf) Hf) as En.
      destruct x as [d fs]. cbn [dm_desc] in Ed. subst d. unfold get_field_value. eapply stored_ok; [exact any_wf|exact Ho|]. rewrite En. unfold find_desc. now rewrite Hf. }
    destruct (get_field any_tables 0 1) as [f1|] eqn:F1; [|vm_compute in F1; discriminate F1].
    destruct (get_field any_tables 0 2) as [f2|] eqn:F2; [|vm_compute in F2; discriminate F2].
    destruct (G 1 f1 F1) as (v1 & G1 & O1). destruct (G 2 f2 F2) as (v2 & G2 & O2).
    assert (K1 : fd_kind f1 = KString /\ fd_is_list f1 = false /\ fd_is_map f1 = false) by (vm_compute in F1; injection F1 as <-; vm_compute; auto).
    assert (K2 : fd_kind f2 = KBytes /\ fd_is_list f2 = false /\ fd_is_map f2 = false) by (vm_compute in F2; injection F2 as <-; vm_compute; auto).
    destruct K1 as (K1 & L1 & M1), K2 as (K2 & L2 & M2). unfold ok_field in O1, O2. rewrite K1, L1, M1 in O1. rewrite K2, L2, M2 in O2.
    destruct v1 as [q|q|q|q|q|q|q|s|q|q|mm|q|q]; try discriminate O1; [|destruct mm; discriminate O1].
    destruct v2 as [q|q|q|q|q|q|q|q|s'|q|mm|q|q]; try discriminate O2; [|destruct mm; discriminate O2].
    exists s, s'. split; [exact G1|]. split; [exact G2|]. cbn in O2. now apply bytes_okb_ok.
  Qed.
  Lemma as_any_cases m : ok_msg t m = true ->
    (exists url body, as_any t m = Ok (Some (url, body)) /\ expands t m url body /\ ok_msg t body = true) \/
    (as_any t m = Ok None /\ forall url body, ~ expands t m url body).
  Proof.
    intros Hm. unfold as_any. destruct (bytes_eqb (full_name t (dm_desc m)) any_name) eqn:En; cbn [negb].
    2:{ right. split; [reflexivity|]. intros url body [H _]. rewrite H in En. rewrite (proj2 (bytes_eqb_eq _ _) eq_refl) in En. discriminate. }
    apply bytes_eqb_eq in En. destruct (ok_msg_enc t m Hwf Hm) as (b & He & Hb). rewrite He. cbn [rbind].
    pose proof (C04_decode_total any_tables 0 b any_wf ltac:(cbn; lia) Hb) as C. destruct (msg_decode any_tables 0 b) as [x| | |] eqn:Ex; try contradiction.
    2:{ right. split; [reflexivity|]. intros url body (_ & b' & x & v & pre & name & i & H1 & H2 & _). congruence. }
    destruct (any_content m b x Hm He Ex) as (url & v & G1 & G2 & Hv). rewrite G1, G2. cbn [val_bytes].
    assert (U : forall url' body, expands t m url' body -> url' = url /\ exists name i, type_url_name url = Some name /\ find_msg t name = Some i /\ msg_decode t i v = Ok body).
    { intros url' body (_ & b' & x' & v' & pre & name & i & H1 & H2 & H3 & H4 & H5 & H6 & H7 & H8).
      assert (b' = b) by congruence. subst b'. assert (x' = x) by congruence. subst x'. assert (Eu : url' = url) by congruence. rewrite Eu in *. assert (v' = v) by congruence. subst v'.
      split; [reflexivity|]. exists name, i. split; [|auto]. apply C49_name_after_last_slash; exists pre; split; assumption. }
    destruct (type_url_name url) as [name|] eqn:Eu.
    2:{ right. split; [reflexivity|]. intros url' body H. apply U in H. destruct H as (_ & nm & i & H & _). discriminate. }
    destruct (find_msg t name) as [i|] eqn:Ei.
    2:{ right. split; [reflexivity|]. intros url' body H. apply U in H. destruct H as (_ & nm & i & H & H' & _). congruence. }
    pose proof (C04_decode_total t i v Hwf (find_msg_lt _ _ _ Ei) Hv) as Q. destruct (msg_decode t i v) as [body| | |] eqn:Ed; try contradiction.
    - left. exists url, body. split; [reflexivity|]. split; [|apply Q]. apply C49_name_after_last_slash in Eu. destruct Eu as (pre & Eu & Nu). split; [exact En|].
      exists b, x, v, pre, name, i. auto 10.
    - right. split; [reflexivity|]. intros url' body H. apply U in H. destruct H as (_ & nm & i' & H & H' & H''). congruence.
  Qed.
  Lemma expands_as_any m url body : ok_msg t m = true -> expands t m url body -> as_any t m = Ok (Some (url, body)) /\ ok_msg t body = true.
  Proof.
    intros Hm H. destruct (as_any_cases m Hm) as [(url' & body' & H1 & H2 & H3)|[_ N]]; [|exfalso; eapply N; eauto].
    assert (G : url = url' /\ body = body'); [|destruct G; subst; auto].
    destruct H as (_ & b & x & v & pre & name & i & A1 & A2 & A3 & A4 & A5 & A6 & A7 & A8).
    destruct H2 as (_ & b' & x' & v' & pre' & name' & i' & B1 & B2 & B3 & B4 & B5 & B6 & B7 & B8).
    assert (b' = b) by congruence. subst b'. assert (x' = x) by congruence. subst x'. assert (Eu : url' = url) by congruence. rewrite Eu in *. assert (v' = v) by congruence. subst v'.
    assert (name' = name).
    { assert (type_url_name url = Some name) by (apply C49_name_after_last_slash; exists pre; auto). assert (type_url_name url = Some name') by (apply C49_name_after_last_slash; exists pre'; auto). congruence. }
    subst name'. split; congruence.
  Qed.
End Rows.
